From Verif Require Import GoBase GoBaseFacts GoUtf8 GoUtf8Facts WireModel WireSpec.
From Coq Require Import ZifyBool ZifyNat ZifyN.
Ltac Zify.zify_post_hook ::= Z.div_mod_to_equations.
Local Open Scope N_scope.

(** * Varints *)
Lemma get_put_varint k : forall n r, n < 2 * 128 ^ N.of_nat k ->
  get_varint k (put_varint k n ++ r) = Some (n, r).
Proof.
  induction k as [|k IH]; intros n r H.
  - cbn [put_varint get_varint app]. cbn in H. replace (n <? 2) with true by lia. reflexivity.
  - rewrite Nat2N.inj_succ, N.pow_succ_r' in H. cbn [put_varint].
    destruct (n <? 128) eqn:E; cbn [get_varint app].
    + rewrite E; reflexivity.
    + replace (128 + n mod 128 <? 128) with false by lia.
      rewrite IH by lia. f_equal; f_equal; lia.
Qed.

Lemma get_put_varint9 n r : n < 2 ^ 64 -> get_varint 9 (put_varint 9 n ++ r) = Some (n, r).
Proof. intros H; apply get_put_varint; exact H. Qed.

Lemma put_varint_ne k n : put_varint k n <> [].
Proof. destruct k; cbn [put_varint]; [discriminate|]. destruct (n <? 128); discriminate. Qed.

(** * Fixed width *)
Lemma put_le_length k : forall n, length (put_le k n) = k.
Proof. induction k; intros; cbn; auto. Qed.

Lemma get_put_le k : forall n, n < 256 ^ N.of_nat k -> get_le (put_le k n) = n.
Proof.
  induction k as [|k IH]; intros n H; cbn [put_le get_le].
  - cbn in H; lia.
  - rewrite Nat2N.inj_succ, N.pow_succ_r' in H. rewrite IH by lia. lia.
Qed.

Lemma take_exact_app k (x r : bytes) : N.of_nat (length x) = k -> take_exact k (x ++ r) = Some (x, r).
Proof.
  intros <-. unfold take_exact. rewrite app_length.
  replace (N.of_nat (length x + length r) <? N.of_nat (length x)) with false by lia.
  rewrite Nat2N.id, firstn_app, firstn_all, skipn_app, skipn_all, Nat.sub_diag; cbn.
  rewrite app_nil_r; reflexivity.
Qed.

Lemma get_put_fixed64 n r : n < 2 ^ 64 -> get_fixed64 (put_le 8 n ++ r) = Some (n, r).
Proof.
  intros H. unfold get_fixed64. rewrite take_exact_app by (rewrite put_le_length; reflexivity).
  rewrite get_put_le by exact H. reflexivity.
Qed.

Lemma get_put_bytes b r : (zlen b <= max_alloc)%Z ->
  get_bytes (put_varint 9 (N.of_nat (length b)) ++ b ++ r) = Some (b, r).
Proof.
  intros H. unfold get_bytes, zlen, max_alloc in *. rewrite get_put_varint9 by lia.
  apply take_exact_app; reflexivity.
Qed.

Lemma get_tag_tag num wt r : 1 <= num <= 536870911 -> wt < 8 ->
  get_tag (tag num wt ++ r) = Some (num, wt, r).
Proof.
  intros Hn Hw. unfold get_tag, tag. rewrite get_put_varint9 by lia.
  replace ((num * 8 + wt) / 8) with num by lia.
  replace ((num <? 1) || (536870911 <? num))%bool with false by lia.
  replace ((num * 8 + wt) mod 8) with wt by lia. reflexivity.
Qed.

(** * Integer conversions *)
Lemma i64_u64 z : in_int64 z -> i64 (u64 z) = z.
Proof. unfold in_int64, i64, u64, to_uint64, wrap64. lia. Qed.
Lemma u64_lt z : u64 z < 2 ^ 64.
Proof. unfold u64, to_uint64. lia. Qed.
Lemma u64_id z : in_uint64 z -> Z.of_N (u64 z) = z.
Proof. unfold in_uint64, u64, to_uint64. lia. Qed.
Lemma e32_u64 z : in_int32 z -> e32 (u64 z) = z.
Proof. unfold in_int32, e32, u64, to_uint64, wrap32. lia. Qed.

(** * The decoding loop *)
Lemma decode_loop_mono {A} (f : N -> N -> A -> bytes -> field_result A) n : forall a b x,
  decode_loop f n a b = Some x -> forall m, (n <= m)%nat -> decode_loop f m a b = Some x.
Proof.
  induction n as [|n IH]; intros a b x H m Hm.
  - destruct b as [|y b]; [|discriminate]. destruct m; exact H.
  - destruct b as [|y b]; [destruct m; exact H|]. destruct m as [|m]; [lia|].
    cbn [decode_loop] in *. destruct (get_tag (y :: b)) as [[[num wt] r]|]; [|discriminate].
    destruct (wt =? wt_end_group); [discriminate|].
    destruct (f num wt a r) as [a' r'| |]; [|discriminate|].
    + apply (IH _ _ _ H); lia.
    + destruct (skip_value (S (length r)) num wt r) as [r'|]; [|discriminate].
      apply (IH _ _ _ H); lia.
Qed.

(** [decodes f a b x]: starting from [a], the buffer [b] decodes to [x]. *)
Definition decodes {A} (f : N -> N -> A -> bytes -> field_result A) (a : A) (b : bytes) (x : A) : Prop :=
  exists n, (n <= length b)%nat /\ decode_loop f n a b = Some x.

Lemma decodes_decode {A} f (a : A) b x : decodes f a b x -> decode f a b = Some x.
Proof. intros [n [Hn H]]. apply (decode_loop_mono _ _ _ _ _ H); exact Hn. Qed.

Lemma decodes_nil {A} f (a : A) : decodes f a [] a.
Proof. exists O; split; [lia|reflexivity]. Qed.

Lemma decodes_field {A} (f : N -> N -> A -> bytes -> field_result A) num wt a a' p r x :
  1 <= num <= 536870911 -> wt < 8 -> wt <> wt_end_group ->
  f num wt a (p ++ r) = FieldOk a' r ->
  decodes f a' r x ->
  decodes f a (tag num wt ++ p ++ r) x.
Proof.
  intros Hnum Hwt Hne Hf [n [Hn H]]. exists (S n); split.
  - unfold tag. pose proof (put_varint_ne 9 (num * 8 + wt)).
    destruct (put_varint 9 (num * 8 + wt)); [congruence|].
    cbn [app length]. rewrite !app_length. lia.
  - pose proof (get_tag_tag num wt (p ++ r) Hnum Hwt) as G.
    assert (Hb : exists y b, tag num wt ++ p ++ r = y :: b).
    { unfold tag. pose proof (put_varint_ne 9 (num * 8 + wt)).
      destruct (put_varint 9 (num * 8 + wt)) as [|y b]; [congruence|]. exists y, (b ++ p ++ r); reflexivity. }
    destruct Hb as [y [b Hb]]. rewrite Hb in *. cbn [decode_loop]. rewrite G.
    replace (wt =? wt_end_group) with false by (unfold wt_end_group in *; lia).
    rewrite Hf. exact H.
Qed.

Lemma decodes_varint {A} (f : N -> N -> A -> bytes -> field_result A) num a a' n r x :
  1 <= num <= 536870911 -> n < 2 ^ 64 ->
  (n = 0 -> a' = a) ->
  (n <> 0 -> f num wt_varint a (put_varint 9 n ++ r) = FieldOk a' r) ->
  decodes f a' r x ->
  decodes f a (f_varint num n ++ r) x.
Proof.
  intros Hnum Hn H0 H1 Hr. unfold f_varint. destruct (n =? 0) eqn:E.
  - rewrite (H0 ltac:(lia)) in Hr. exact Hr.
  - rewrite <- app_assoc. apply (decodes_field f num wt_varint a a'); auto; try reflexivity; try discriminate.
    apply H1; lia.
Qed.

Lemma decodes_double {A} (f : N -> N -> A -> bytes -> field_result A) num a a' n r x :
  1 <= num <= 536870911 -> n < 2 ^ 64 ->
  (n = 0 -> a' = a) ->
  (n <> 0 -> f num wt_fixed64 a (put_le 8 n ++ r) = FieldOk a' r) ->
  decodes f a' r x ->
  decodes f a (f_double num n ++ r) x.
Proof.
  intros Hnum Hn H0 H1 Hr. unfold f_double. destruct (n =? 0) eqn:E.
  - rewrite (H0 ltac:(lia)) in Hr. exact Hr.
  - rewrite <- app_assoc. apply (decodes_field f num wt_fixed64 a a'); auto; try reflexivity; try discriminate.
    apply H1; lia.
Qed.

Lemma decodes_block {A} (f : N -> N -> A -> bytes -> field_result A) num a a' b r x :
  1 <= num <= 536870911 ->
  f num wt_bytes a ((put_varint 9 (N.of_nat (length b)) ++ b) ++ r) = FieldOk a' r ->
  decodes f a' r x ->
  decodes f a (f_block num b ++ r) x.
Proof.
  intros Hnum Hf Hr. unfold f_block. rewrite <- app_assoc.
  apply (decodes_field f num wt_bytes a a'); auto; try reflexivity; discriminate.
Qed.

Lemma decodes_bytes {A} (f : N -> N -> A -> bytes -> field_result A) num a a' b r x :
  1 <= num <= 536870911 ->
  (b = [] -> a' = a) ->
  (b <> [] -> f num wt_bytes a ((put_varint 9 (N.of_nat (length b)) ++ b) ++ r) = FieldOk a' r) ->
  decodes f a' r x ->
  decodes f a (f_bytes num b ++ r) x.
Proof.
  intros Hnum H0 H1 Hr. destruct b as [|y b].
  - cbn [f_bytes app]. rewrite H0 in Hr by reflexivity. exact Hr.
  - cbn [f_bytes]. apply (decodes_block f num a a'); auto. apply H1; discriminate.
Qed.

(** Field payloads. *)
Lemma on_varint_put {A} n r (set : N -> A) : n < 2 ^ 64 ->
  on_varint wt_varint (put_varint 9 n ++ r) set = FieldOk (set n) r.
Proof. intros H. unfold on_varint. cbn [wt_varint N.eqb]. rewrite get_put_varint9 by exact H. reflexivity. Qed.
Lemma on_fixed64_put {A} n r (set : N -> A) : n < 2 ^ 64 ->
  on_fixed64 wt_fixed64 (put_le 8 n ++ r) set = FieldOk (set n) r.
Proof. intros H. unfold on_fixed64. cbn [wt_fixed64 N.eqb]. rewrite get_put_fixed64 by exact H. reflexivity. Qed.
Lemma on_bytes_put {A} b r (set : bytes -> option A) a : (zlen b <= max_alloc)%Z -> set b = Some a ->
  on_bytes wt_bytes ((put_varint 9 (N.of_nat (length b)) ++ b) ++ r) set = FieldOk a r.
Proof.
  intros H E. unfold on_bytes. cbn [wt_bytes N.eqb Pos.eqb]. rewrite <- app_assoc, get_put_bytes by exact H.
  rewrite E; reflexivity.
Qed.
Lemma on_string_put {A} b r (set : bytes -> A) : (zlen b <= max_alloc)%Z -> utf8_valid b = true ->
  on_string wt_bytes ((put_varint 9 (N.of_nat (length b)) ++ b) ++ r) set = FieldOk (set b) r.
Proof. intros H E. apply on_bytes_put; [exact H|]. rewrite E; reflexivity. Qed.

Lemma get_doubles_put l : forall k, Forall float_bits l -> (length (flat_map (put_le 8) l) <= k)%nat ->
  get_doubles k (flat_map (put_le 8) l) = Some l.
Proof.
  induction l as [|v l IH]; intros k Hl Hk.
  - destruct k; reflexivity.
  - inversion Hl as [|? ? Hv Hl']; subst. unfold float_bits in Hv.
    remember (flat_map (put_le 8) (v :: l)) as b eqn:Eb. cbn [flat_map] in Eb.
    assert (Hb : exists y b', b = y :: b').
    { subst b. destruct (put_le 8 v) eqn:E; [apply (f_equal (@length N)) in E; rewrite put_le_length in E; discriminate|].
      eexists; eexists; reflexivity. }
    destruct Hb as [y [b' Hb]]. destruct k as [|k]; [rewrite Hb in Hk; cbn in Hk; lia|].
    rewrite Hb. cbn [get_doubles]. rewrite <- Hb, Eb, get_put_fixed64 by exact Hv.
    rewrite IH; [reflexivity|exact Hl'|].
    subst b. rewrite app_length, put_le_length in Hk. lia.
Qed.

Lemma on_doubles_put {A} l r (add : list N -> A) :
  (zlen (flat_map (put_le 8) l) <= max_alloc)%Z -> Forall float_bits l ->
  on_doubles wt_bytes ((put_varint 9 (N.of_nat (length (flat_map (put_le 8) l))) ++ flat_map (put_le 8) l) ++ r) add
  = FieldOk (add l) r.
Proof.
  intros H Hl. unfold on_doubles. cbn [wt_bytes N.eqb Pos.eqb].
  rewrite <- app_assoc, get_put_bytes by exact H. rewrite get_doubles_put by (auto; lia). reflexivity.
Qed.

Lemma flat_put_nil l : flat_map (put_le 8) l = [] -> l = [].
Proof.
  destruct l as [|v l]; [reflexivity|]. cbn [flat_map]. intros H.
  apply (f_equal (@length N)) in H. rewrite app_length, put_le_length in H. cbn in H; lia.
Qed.

(** Sizes of parts. *)
Lemma zlen_f_block num b : (zlen b <= zlen (f_block num b))%Z.
Proof. unfold f_block. rewrite !zlen_app. pose proof (zlen_nonneg (tag num wt_bytes)).
  pose proof (zlen_nonneg (put_varint 9 (N.of_nat (length b)))). lia. Qed.
Lemma zlen_f_bytes num b : (zlen b <= zlen (f_bytes num b))%Z.
Proof. destruct b; [cbn; lia|apply zlen_f_block]. Qed.

(** * Nested messages *)
Definition okb (b : bytes) : Prop := utf8_valid b = true.

Lemma dec_atom a : in_int64 (fst a) -> okb (snd a) -> (zlen (enc_atom a) <= max_alloc)%Z ->
  decode fld_atom (0%Z, []) (enc_atom a) = Some a.
Proof.
  destruct a as [ts cap]; cbn [fst snd]; intros Hts Hcap Hsz.
  unfold enc_atom in *; cbn [fst snd] in *. rewrite zlen_app in Hsz.
  pose proof (zlen_nonneg (f_varint 1 (u64 ts))). pose proof (zlen_f_bytes 2 cap).
  apply decodes_decode.
  apply (decodes_varint _ 1 _ (ts, [])); [lia|apply u64_lt| | |].
  - intros E. rewrite <- (i64_u64 ts Hts), E. reflexivity.
  - intros _. unfold fld_atom. cbn [N.eqb Pos.eqb]. rewrite on_varint_put by apply u64_lt.
    cbn [snd]. rewrite i64_u64 by exact Hts. reflexivity.
  - rewrite <- (app_nil_r (f_bytes 2 cap)).
    apply (decodes_bytes _ 2 _ (ts, cap)); [lia| | |apply decodes_nil].
    + intros ->; reflexivity.
    + intros _. unfold fld_atom. cbn [N.eqb Pos.eqb]. rewrite on_string_put by (auto; lia). reflexivity.
Qed.

Lemma dec_line_aux : forall l pre, Forall (fun a => in_int64 (fst a) /\ okb (snd a)) l ->
  (zlen (enc_line l) <= max_alloc)%Z ->
  decodes fld_line pre (enc_line l) (pre ++ l).
Proof.
  induction l as [|a l IH]; intros pre Hl Hsz.
  - rewrite app_nil_r; apply decodes_nil.
  - inversion Hl as [|? ? [Ha1 Ha2] Hl']; subst. unfold enc_line in *; cbn [flat_map] in *.
    rewrite zlen_app in Hsz. pose proof (zlen_f_block 1 (enc_atom a)).
    pose proof (zlen_nonneg (flat_map (fun a => f_block 1 (enc_atom a)) l)).
    apply (decodes_block _ 1 _ (pre ++ [a])); [lia| |].
    + unfold fld_line. cbn [N.eqb Pos.eqb]. apply on_bytes_put; [lia|].
      rewrite dec_atom by (auto; lia). reflexivity.
    + replace (pre ++ a :: l) with ((pre ++ [a]) ++ l) by (rewrite <- app_assoc; reflexivity).
      apply IH; [exact Hl'|].
      pose proof (zlen_nonneg (f_block 1 (enc_atom a))). lia.
Qed.

Lemma dec_line l : Forall (fun a => in_int64 (fst a) /\ okb (snd a)) l ->
  (zlen (enc_line l) <= max_alloc)%Z -> decode fld_line [] (enc_line l) = Some l.
Proof. intros Hl Hs. apply decodes_decode, (dec_line_aux l []); assumption. Qed.

Lemma dec_metadata a b c : okb a -> okb b -> okb c ->
  (zlen (enc_metadata (a, b, c)) <= max_alloc)%Z ->
  decode fld_metadata ([], [], []) (enc_metadata (a, b, c)) = Some (a, b, c).
Proof.
  intros Ha Hb Hc Hs. unfold enc_metadata in *. rewrite !zlen_app in Hs.
  pose proof (zlen_f_bytes 1 a). pose proof (zlen_f_bytes 2 b). pose proof (zlen_f_bytes 3 c).
  pose proof (zlen_nonneg a). pose proof (zlen_nonneg b). pose proof (zlen_nonneg c).
  apply decodes_decode.
  apply (decodes_bytes _ 1 _ (a, [], [])); [lia|intros ->; reflexivity| |].
  { intros _; unfold fld_metadata; cbn [N.eqb Pos.eqb]. rewrite on_string_put by (auto; lia). reflexivity. }
  apply (decodes_bytes _ 2 _ (a, b, [])); [lia|intros ->; reflexivity| |].
  { intros _; unfold fld_metadata; cbn [N.eqb Pos.eqb]. rewrite on_string_put by (auto; lia). reflexivity. }
  rewrite <- (app_nil_r (f_bytes 3 c)).
  apply (decodes_bytes _ 3 _ (a, b, c)); [lia|intros ->; reflexivity| |apply decodes_nil].
  { intros _; unfold fld_metadata; cbn [N.eqb Pos.eqb]. rewrite on_string_put by (auto; lia). reflexivity. }
Qed.

Lemma dec_lyrics ly : forall f file len pre rest x,
  Forall (Forall (fun a => in_int64 (fst a) /\ okb (snd a))) ly ->
  (zlen (flat_map (fun l => f_block 4 (enc_line l)) ly) <= max_alloc)%Z ->
  decodes fld_message (NewSongInfo f file len (pre ++ ly) None) rest x ->
  decodes fld_message (NewSongInfo f file len pre None)
    (flat_map (fun l => f_block 4 (enc_line l)) ly ++ rest) x.
Proof.
  induction ly as [|l ly IH]; intros f file len pre rest x Hl Hsz Hr.
  - rewrite app_nil_r in Hr. exact Hr.
  - inversion Hl as [|? ? Hl1 Hl']; subst. cbn [flat_map] in *. rewrite zlen_app in Hsz.
    pose proof (zlen_f_block 4 (enc_line l)). pose proof (zlen_nonneg (f_block 4 (enc_line l))).
    pose proof (zlen_nonneg (flat_map (fun l => f_block 4 (enc_line l)) ly)).
    rewrite <- app_assoc.
    apply (decodes_block _ 4 _ (NewSongInfo f file len (pre ++ [l]) None)); [lia| |].
    + unfold fld_message. cbn [N.eqb Pos.eqb]. apply on_bytes_put; [lia|].
      rewrite dec_line by (auto; lia). reflexivity.
    + apply IH; [exact Hl'|lia|]. rewrite <- app_assoc. exact Hr.
Qed.

(** * Messages *)
Definition empty_of (m : message) : message :=
  match m with
  | TimeSyncRequest _ => TimeSyncRequest 0
  | TimeSyncResponse _ _ _ => TimeSyncResponse 0 0 0
  | QueueChunkRequest _ _ _ _ _ => QueueChunkRequest 0 0 [] [] 0
  | PingMessage => PingMessage
  | PongMessage => PongMessage
  | SetVolumeRequest _ => SetVolumeRequest 0
  | SubscribeChannelRequest _ => SubscribeChannelRequest 0
  | NewSongInfo _ _ _ _ _ => NewSongInfo 0 [] 0 [] None
  | ChunkInfo _ _ _ => ChunkInfo 0 0 0
  | PauseInfo _ _ => PauseInfo false 0
  | OtherMessage n => OtherMessage n
  end.

Lemma i64_0 z : in_int64 z -> u64 z = 0 -> z = 0%Z.
Proof. intros H E. rewrite <- (i64_u64 z H), E. reflexivity. Qed.
Lemma u64_0 z : in_uint64 z -> u64 z = 0 -> z = 0%Z.
Proof. intros H E. rewrite <- (u64_id z H), E. reflexivity. Qed.

Ltac vstep nx := eapply (decodes_varint _ nx);
  [lia|apply u64_lt| | |].
Ltac vdone H :=
  first [ intros E; apply (i64_0 _ H) in E; subst; reflexivity
        | intros E; apply (u64_0 _ H) in E; subst; reflexivity
        | intros _; unfold fld_message; cbn [N.eqb Pos.eqb]; rewrite on_varint_put by apply u64_lt;
          rewrite ?(i64_u64 _ H); rewrite ?(u64_id _ H); reflexivity ].

Lemma strings_ok m : texts_utf8 m <-> forallb utf8_valid (strings_of m) = true.
Proof.
  destruct m; cbn [texts_utf8 strings_of]; try (split; reflexivity || (intros; exact I)).
  cbn [forallb]. rewrite forallb_app, !andb_true_iff.
  rewrite utf8_valid_spec.
  assert (Hly : Forall (Forall (fun a : Z * bytes => exists t, Forall scalar t /\ snd a = utf8_encode t)) lyrics
                <-> forallb utf8_valid (flat_map (map snd) lyrics) = true).
  { rewrite forallb_forall, Forall_forall. setoid_rewrite Forall_forall. split.
    - intros H x Hx. apply in_flat_map in Hx. destruct Hx as [l [Hl Hx]]. apply in_map_iff in Hx.
      destruct Hx as [a [<- Ha]]. apply utf8_valid_spec. exact (H l Hl a Ha).
    - intros H l Hl a Ha. apply utf8_valid_spec, H, in_flat_map. exists l; split; [exact Hl|].
      apply in_map; exact Ha. }
  rewrite <- Hly. destruct metadata as [[[a b] c]|]; cbn [forallb].
  - rewrite !andb_true_iff, !utf8_valid_spec. tauto.
  - tauto.
Qed.

Lemma dec_message m : field_values m -> texts_utf8 m -> (zlen (enc_message m) <= max_alloc)%Z ->
  decode fld_message (empty_of m) (enc_message m) = Some m.
Proof.
  intros Hv Ht Hs. apply strings_ok in Ht. apply decodes_decode.
  destruct m; cbn [field_values empty_of enc_message] in *.
  - rewrite <- (app_nil_r (f_varint 1 _)).
    apply (decodes_varint _ 1 _ (TimeSyncRequest clientSend)); [lia|apply u64_lt|vdone Hv|vdone Hv|apply decodes_nil].
  - destruct Hv as [Ha [Hb Hc]]. rewrite <- (app_nil_r (f_varint 3 _)).
    apply (decodes_varint _ 1 _ (TimeSyncResponse clientSendTime 0 0)); [lia|apply u64_lt|vdone Ha|vdone Ha|].
    apply (decodes_varint _ 2 _ (TimeSyncResponse clientSendTime serverRecvTime 0)); [lia|apply u64_lt|vdone Hb|vdone Hb|].
    apply (decodes_varint _ 3 _ (TimeSyncResponse clientSendTime serverRecvTime serverSendTime));
      [lia|apply u64_lt|vdone Hc|vdone Hc|apply decodes_nil].
  - destruct Hv as [Ha [Hb [Hlo [Hhi Hf]]]]. rewrite <- (app_nil_r (f_varint 5 _)).
    unfold f_doubles in *. rewrite !zlen_app in Hs.
    pose proof (zlen_f_bytes 3 (flat_map (put_le 8) sampleLow)).
    pose proof (zlen_f_bytes 4 (flat_map (put_le 8) sampleHigh)).
    pose proof (zlen_nonneg (flat_map (put_le 8) sampleLow)). pose proof (zlen_nonneg (flat_map (put_le 8) sampleHigh)).
    pose proof (zlen_nonneg (f_varint 1 (u64 startTime))). pose proof (zlen_nonneg (f_varint 2 (u64 chunkId))).
    pose proof (zlen_nonneg (f_varint 5 (u64 firstSampleIndex))).
    apply (decodes_varint _ 1 _ (QueueChunkRequest startTime 0 [] [] 0)); [lia|apply u64_lt|vdone Ha|vdone Ha|].
    apply (decodes_varint _ 2 _ (QueueChunkRequest startTime chunkId [] [] 0)); [lia|apply u64_lt|vdone Hb|vdone Hb|].
    apply (decodes_bytes _ 3 _ (QueueChunkRequest startTime chunkId sampleLow [] 0)); [lia| | |].
    { intros E; apply flat_put_nil in E; subst; reflexivity. }
    { intros _; unfold fld_message; cbn [N.eqb Pos.eqb]. rewrite on_doubles_put by (auto; lia). reflexivity. }
    apply (decodes_bytes _ 4 _ (QueueChunkRequest startTime chunkId sampleLow sampleHigh 0)); [lia| | |].
    { intros E; apply flat_put_nil in E; subst; reflexivity. }
    { intros _; unfold fld_message; cbn [N.eqb Pos.eqb]. rewrite on_doubles_put by (auto; lia). reflexivity. }
    apply (decodes_varint _ 5 _ (QueueChunkRequest startTime chunkId sampleLow sampleHigh firstSampleIndex));
      [lia|apply u64_lt|vdone Hf|vdone Hf|apply decodes_nil].
  - apply decodes_nil.
  - apply decodes_nil.
  - rewrite <- (app_nil_r (f_double 1 _)). unfold float_bits in Hv.
    apply (decodes_double _ 1 _ (SetVolumeRequest volume)); [lia|exact Hv|intros ->; reflexivity| |apply decodes_nil].
    intros _; unfold fld_message; cbn [N.eqb Pos.eqb]. rewrite on_fixed64_put by exact Hv. reflexivity.
  - rewrite <- (app_nil_r (f_varint 1 _)).
    apply (decodes_varint _ 1 _ (SubscribeChannelRequest channel)); [lia|apply u64_lt| | |apply decodes_nil].
    + intros E. rewrite <- (e32_u64 _ Hv), E. reflexivity.
    + intros _; unfold fld_message; cbn [N.eqb Pos.eqb]. rewrite on_varint_put by apply u64_lt.
      rewrite e32_u64 by exact Hv. reflexivity.
  - destruct Hv as [Hf [Hlen Hly]]. cbn [strings_of forallb] in Ht. rewrite forallb_app, !andb_true_iff in Ht.
    destruct Ht as [Hfile [Hcap Hmd]]. rewrite !zlen_app in Hs.
    pose proof (zlen_f_bytes 2 songFileName). pose proof (zlen_nonneg songFileName).
    pose proof (zlen_nonneg (f_varint 1 (u64 firstSampleOfSongIndex))). pose proof (zlen_nonneg (f_varint 3 (u64 songLength))).
    pose proof (zlen_nonneg (flat_map (fun l => f_block 4 (enc_line l)) lyrics)).
    pose proof (zlen_nonneg (match metadata with None => [] | Some m => f_block 5 (enc_metadata m) end)).
    apply (decodes_varint _ 1 _ (NewSongInfo firstSampleOfSongIndex [] 0 [] None)); [lia|apply u64_lt|vdone Hf|vdone Hf|].
    apply (decodes_bytes _ 2 _ (NewSongInfo firstSampleOfSongIndex songFileName 0 [] None)); [lia|intros ->; reflexivity| |].
    { intros _; unfold fld_message; cbn [N.eqb Pos.eqb]. rewrite on_string_put by (auto; lia). reflexivity. }
    apply (decodes_varint _ 3 _ (NewSongInfo firstSampleOfSongIndex songFileName songLength [] None));
      [lia|apply u64_lt|vdone Hlen|vdone Hlen|].
    apply (dec_lyrics lyrics firstSampleOfSongIndex songFileName songLength []); [|lia|].
    { rewrite forallb_forall in Hcap. rewrite Forall_forall in *. intros l Hl.
      specialize (Hly l Hl). rewrite Forall_forall in *. intros a Ha. split; [exact (Hly a Ha)|].
      apply Hcap, in_flat_map. exists l; split; [exact Hl|apply in_map; exact Ha]. }
    cbn [app]. destruct metadata as [[[a b] c]|]; [|apply decodes_nil].
    cbn [forallb] in Hmd. rewrite !andb_true_iff in Hmd. destruct Hmd as [Ha [Hb [Hc _]]].
    pose proof (zlen_f_block 5 (enc_metadata (a, b, c))).
    rewrite <- (app_nil_r (f_block 5 _)).
    apply (decodes_block _ 5 _ (NewSongInfo firstSampleOfSongIndex songFileName songLength lyrics (Some (a, b, c))));
      [lia| |apply decodes_nil].
    unfold fld_message; cbn [N.eqb Pos.eqb]. apply on_bytes_put; [lia|].
    rewrite dec_metadata by (auto; lia). reflexivity.
  - destruct Hv as [Ha [Hb Hc]]. rewrite <- (app_nil_r (f_varint 3 _)).
    apply (decodes_varint _ 1 _ (ChunkInfo startTime 0 0)); [lia|apply u64_lt|vdone Ha|vdone Ha|].
    apply (decodes_varint _ 2 _ (ChunkInfo startTime firstSampleIndex 0)); [lia|apply u64_lt|vdone Hb|vdone Hb|].
    apply (decodes_varint _ 3 _ (ChunkInfo startTime firstSampleIndex chunkSize));
      [lia|apply u64_lt|vdone Hc|vdone Hc|apply decodes_nil].
  - rewrite <- (app_nil_r (f_varint 2 _)).
    apply (decodes_varint _ 1 _ (PauseInfo playing 0)); [lia|destruct playing; reflexivity| | |].
    + destruct playing; [discriminate|reflexivity].
    + intros E; unfold fld_message; cbn [N.eqb Pos.eqb].
      rewrite on_varint_put by (destruct playing; reflexivity). destruct playing; reflexivity.
    + apply (decodes_varint _ 2 _ (PauseInfo playing toggleSampleIndex));
        [lia|apply u64_lt|vdone Hv|vdone Hv|apply decodes_nil].
  - contradiction.
Qed.

(** * Envelope and type lookup *)
Lemma dec_envelope type data : okb type -> (zlen (enc_envelope type data) <= max_alloc)%Z ->
  decode fld_envelope ([], []) (enc_envelope type data) = Some (type, data).
Proof.
  intros Ht Hs. unfold enc_envelope in *. rewrite zlen_app in Hs.
  pose proof (zlen_f_bytes 1 type). pose proof (zlen_f_bytes 2 data).
  pose proof (zlen_nonneg type). pose proof (zlen_nonneg data).
  apply decodes_decode.
  apply (decodes_bytes _ 1 _ (type, [])); [lia|intros ->; reflexivity| |].
  { intros _; unfold fld_envelope; cbn [N.eqb Pos.eqb]. rewrite on_string_put by (auto; lia). reflexivity. }
  rewrite <- (app_nil_r (f_bytes 2 data)).
  apply (decodes_bytes _ 2 _ (type, data)); [lia|intros ->; reflexivity| |apply decodes_nil].
  intros _; unfold fld_envelope; cbn [N.eqb Pos.eqb]. apply on_bytes_put; [lia|reflexivity].
Qed.

Lemma message_type_name w m : field_values m -> message_type w (message_name m) = Some (empty_of m).
Proof. destruct m; intros H; try reflexivity. contradiction. Qed.
Lemma message_name_ok m : field_values m -> okb (message_name m).
Proof. destruct m; intros H; try reflexivity. contradiction. Qed.
Lemma unmarshal_empty w m data : field_values m ->
  unmarshal w (empty_of m) data = decode fld_message (empty_of m) data.
Proof. destruct m; intros H; try reflexivity. contradiction. Qed.

(** * Reading *)
Lemma read_loop_spec c : forall need acc,
  (need <= zlen (concat c))%Z ->
  exists c', read_loop need acc c = (Some (acc ++ firstn (Z.to_nat need) (concat c)), c')
             /\ concat c' = skipn (Z.to_nat need) (concat c).
Proof.
  induction c as [|p c IH]; intros need acc H; cbn [read_loop concat] in *.
  - unfold zlen in H; cbn [length] in H. replace (need <=? 0)%Z with true by lia.
    exists []. replace (Z.to_nat need) with O by lia. cbn. rewrite app_nil_r; split; reflexivity.
  - destruct (need <=? 0)%Z eqn:E.
    + exists (p :: c). replace (Z.to_nat need) with O by lia. rewrite firstn_O, app_nil_r. split; reflexivity.
    + rewrite zlen_app in H. destruct (zlen p <=? need)%Z eqn:E2.
      * destruct (IH (need - zlen p)%Z (acc ++ p)) as [c' [H1 H2]]; [lia|].
        exists c'. rewrite H1. unfold zlen in *. split.
        -- rewrite firstn_app, (firstn_all2 p) by lia. rewrite <- !app_assoc.
           replace (Z.to_nat (need - Z.of_nat (length p))) with (Z.to_nat need - length p)%nat by lia. reflexivity.
        -- rewrite H2, skipn_app, (skipn_all2 p) by lia. cbn [app].
           f_equal; lia.
      * unfold zlen in *. exists (skipn (Z.to_nat need) p :: c). split.
        -- rewrite firstn_app. replace (Z.to_nat need - length p)%nat with O by lia.
           rewrite firstn_O, app_nil_r. reflexivity.
        -- cbn [concat]. rewrite skipn_app. replace (Z.to_nat need - length p)%nat with O by lia. reflexivity.
Qed.

Lemma read_loop_short c : forall need acc,
  (zlen (concat c) < need)%Z -> read_loop need acc c = (None, []).
Proof.
  induction c as [|p c IH]; intros need acc H; cbn [read_loop concat] in *.
  - unfold zlen in H; cbn [length] in H. replace (need <=? 0)%Z with false by lia. reflexivity.
  - rewrite zlen_app in H. pose proof (zlen_nonneg p). pose proof (zlen_nonneg (concat c)).
    replace (need <=? 0)%Z with false by lia.
    replace (zlen p <=? need)%Z with true by lia. apply IH; lia.
Qed.

(** The frame of a message. *)
Lemma to_wire_some w m : texts_utf8 m ->
  to_wire w m = Some (put_le 8 (N.of_nat (length (enc_envelope (message_name m) (zdeflate w (enc_message m)))))
                      ++ enc_envelope (message_name m) (zdeflate w (enc_message m))).
Proof. intros H. unfold to_wire, marshal. apply strings_ok in H. rewrite H. reflexivity. Qed.

Lemma to_wire_none w m : to_wire w m = None <-> ~ texts_utf8 m.
Proof.
  unfold to_wire, marshal. rewrite strings_ok.
  destruct (forallb utf8_valid (strings_of m)); split; congruence.
Qed.

Lemma Some_inj {A} (x y : A) : Some x = Some y -> x = y.
Proof. congruence. Qed.

Lemma frame_length w m f : frame_of w m f -> (8 <= length f)%nat.
Proof.
  unfold frame_of, to_wire. destruct (marshal m); [|discriminate].
  intros H; apply Some_inj in H; subst f. rewrite app_length, put_le_length. lia.
Qed.

(** ** What is written is bytes *)
Lemma pow128_succ k : 128 ^ N.of_nat (S k) = 128 * 128 ^ N.of_nat k.
Proof. rewrite Nat2N.inj_succ, N.pow_succ_r'. reflexivity. Qed.
Lemma put_varint_byte k : forall n, n < 2 * 128 ^ N.of_nat k -> Forall byte (put_varint k n).
Proof.
  induction k as [|k IH]; intros n H; cbn [put_varint]; [cbn in H; repeat constructor; unfold byte; lia|].
  rewrite pow128_succ in H. destruct (n <? 128) eqn:E; [repeat constructor; unfold byte; lia|].
  constructor; [unfold byte; pose proof (N.mod_lt n 128); lia|]. apply IH. apply N.div_lt_upper_bound; lia.
Qed.
Lemma put_varint9_byte n : n < 2 ^ 64 -> Forall byte (put_varint 9 n).
Proof. intros H. apply put_varint_byte. exact H. Qed.
Lemma put_le_byte k : forall n, Forall byte (put_le k n).
Proof. induction k as [|k IH]; intros n; cbn [put_le]; constructor; auto. unfold byte. apply N.mod_lt. lia. Qed.
Lemma tag_byte num wt : num <= 536870911 -> wt < 8 -> Forall byte (tag num wt).
Proof. intros. apply put_varint9_byte. lia. Qed.
Lemma f_varint_byte num n : num <= 5 -> n < 2 ^ 64 -> Forall byte (f_varint num n).
Proof. intros. unfold f_varint. destruct (n =? 0); [constructor|]. apply Forall_app. split; [apply tag_byte; unfold wt_varint; lia|apply put_varint9_byte; assumption]. Qed.
Lemma f_double_byte num n : num <= 5 -> Forall byte (f_double num n).
Proof. intros. unfold f_double. destruct (n =? 0); [constructor|]. apply Forall_app. split; [apply tag_byte; unfold wt_fixed64; lia|apply put_le_byte]. Qed.
Lemma f_block_byte num b : num <= 5 -> (zlen b <= max_alloc)%Z -> Forall byte b -> Forall byte (f_block num b).
Proof.
  intros Hn Hl Hb. unfold f_block. rewrite !Forall_app. unfold zlen, max_alloc in Hl.
  repeat split; [apply tag_byte; unfold wt_bytes; lia|apply put_varint9_byte; lia|exact Hb].
Qed.
Lemma f_bytes_byte num b : num <= 5 -> (zlen b <= max_alloc)%Z -> Forall byte b -> Forall byte (f_bytes num b).
Proof. intros. destruct b; [constructor|apply f_block_byte; assumption]. Qed.
Lemma utf8_byte t : Forall scalar t -> Forall byte (utf8_encode t).
Proof.
  induction 1 as [|r t Hr Ht IH]; [constructor|]. unfold utf8_encode. cbn [flat_map]. apply Forall_app. split; [|exact IH].
  unfold utf8_encode_rune, scalar in *.
  assert (forall a, a mod 64 < 64) by (intros; apply N.mod_lt; lia).
  pose proof (H r). pose proof (H (r / 64)). pose proof (H (r / 4096)).
  destruct (r <? 0x80) eqn:E1; [repeat constructor; unfold byte; lia|].
  destruct (r <? 0x800) eqn:E2; [assert (r / 64 < 32) by (apply N.div_lt_upper_bound; lia); repeat constructor; unfold byte; lia|].
  destruct (r <? 0x10000) eqn:E3; [assert (r / 4096 < 16) by (apply N.div_lt_upper_bound; lia); repeat constructor; unfold byte; lia|].
  assert (r / 262144 < 5) by (apply N.div_lt_upper_bound; lia). repeat constructor; unfold byte; lia.
Qed.
Lemma text_byte b : (exists t, Forall scalar t /\ b = utf8_encode t) -> Forall byte b.
Proof. intros (t & Ht & ->). apply utf8_byte; exact Ht. Qed.

Lemma flat_block_byte {A} (enc : A -> bytes) num l : num <= 5 ->
  (zlen (flat_map (fun a => f_block num (enc a)) l) <= max_alloc)%Z ->
  Forall (fun a => (zlen (enc a) <= max_alloc)%Z -> Forall byte (enc a)) l -> Forall byte (flat_map (fun a => f_block num (enc a)) l).
Proof.
  intros Hn Hl H. induction H as [|a l Ha H IH]; [constructor|]. cbn [flat_map] in *. rewrite zlen_app in Hl.
  pose proof (zlen_f_block num (enc a)). pose proof (zlen_nonneg (flat_map (fun a => f_block num (enc a)) l)). pose proof (zlen_nonneg (f_block num (enc a))).
  apply Forall_app. split; [apply f_block_byte; [exact Hn|lia|apply Ha; lia]|apply IH; lia].
Qed.
Lemma flat_le_byte l : Forall byte (flat_map (put_le 8) l).
Proof. induction l; [constructor|]. cbn [flat_map]. apply Forall_app. split; [apply put_le_byte|assumption]. Qed.

Lemma enc_byte m : field_values m -> texts_utf8 m -> (zlen (enc_message m) <= max_alloc)%Z -> Forall byte (enc_message m).
Proof.
  intros Hv Ht Hs.
  assert (V : forall num z, num <= 5 -> Forall byte (f_varint num (u64 z))) by (intros; apply f_varint_byte; [assumption|apply u64_lt]).
  destruct m; cbn [enc_message field_values texts_utf8] in *; rewrite ?zlen_app in Hs; rewrite ?Forall_app; repeat split;
    try (apply V; lia); try constructor.
  - apply f_bytes_byte; [lia| |apply flat_le_byte]. unfold f_doubles in Hs. pose proof (zlen_f_bytes 3 (flat_map (put_le 8) sampleLow)).
    pose proof (zlen_nonneg (f_varint 1 (u64 startTime))). pose proof (zlen_nonneg (f_varint 2 (u64 chunkId))).
    pose proof (zlen_nonneg (f_bytes 4 (flat_map (put_le 8) sampleHigh))). pose proof (zlen_nonneg (f_varint 5 (u64 firstSampleIndex))). lia.
  - apply f_bytes_byte; [lia| |apply flat_le_byte]. unfold f_doubles in Hs. pose proof (zlen_f_bytes 4 (flat_map (put_le 8) sampleHigh)).
    pose proof (zlen_nonneg (f_varint 1 (u64 startTime))). pose proof (zlen_nonneg (f_varint 2 (u64 chunkId))).
    pose proof (zlen_nonneg (f_bytes 3 (flat_map (put_le 8) sampleLow))). pose proof (zlen_nonneg (f_varint 5 (u64 firstSampleIndex))). lia.
  - apply f_double_byte. lia.
  - destruct Ht as (T1 & T2 & T3).
    pose proof (zlen_nonneg (f_varint 1 (u64 firstSampleOfSongIndex))). pose proof (zlen_nonneg (f_varint 3 (u64 songLength))).
    pose proof (zlen_nonneg (flat_map (fun l => f_block 4 (enc_line l)) lyrics)).
    pose proof (zlen_nonneg (match metadata with None => [] | Some m => f_block 5 (enc_metadata m) end)).
    pose proof (zlen_f_bytes 2 songFileName).
    apply f_bytes_byte; [lia|lia|apply text_byte; exact T1].
  - destruct Ht as (T1 & T2 & T3).
    pose proof (zlen_nonneg (f_varint 1 (u64 firstSampleOfSongIndex))). pose proof (zlen_nonneg (f_varint 3 (u64 songLength))).
    pose proof (zlen_nonneg (match metadata with None => [] | Some m => f_block 5 (enc_metadata m) end)).
    pose proof (zlen_nonneg (f_bytes 2 songFileName)).
    apply flat_block_byte; [lia|lia|]. eapply Forall_impl; [|exact T2]. intros l Hl Hz. unfold enc_line in *.
    apply flat_block_byte; [lia|exact Hz|]. eapply Forall_impl; [|exact Hl]. intros [ts cap] Ha Hz2. unfold enc_atom in *. cbn [fst snd] in *.
    rewrite zlen_app in Hz2. pose proof (zlen_nonneg (f_varint 1 (u64 ts))). pose proof (zlen_f_bytes 2 cap).
    apply Forall_app. split; [apply V; lia|]. apply f_bytes_byte; [lia|lia|apply text_byte; exact Ha].
  - destruct Ht as (T1 & T2 & T3). destruct metadata as [[[a b] c]|]; [|constructor]. destruct T3 as (Ta & Tb & Tc).
    pose proof (zlen_nonneg (f_varint 1 (u64 firstSampleOfSongIndex))). pose proof (zlen_nonneg (f_varint 3 (u64 songLength))).
    pose proof (zlen_nonneg (flat_map (fun l => f_block 4 (enc_line l)) lyrics)).
    pose proof (zlen_nonneg (f_bytes 2 songFileName)). pose proof (zlen_f_block 5 (enc_metadata (a, b, c))).
    apply f_block_byte; [lia|lia|]. assert (Hm : (zlen (enc_metadata (a, b, c)) <= max_alloc)%Z) by lia. unfold enc_metadata in *.
    rewrite !zlen_app in Hm. pose proof (zlen_f_bytes 1 a). pose proof (zlen_f_bytes 2 b). pose proof (zlen_f_bytes 3 c).
    pose proof (zlen_nonneg (f_bytes 1 a)). pose proof (zlen_nonneg (f_bytes 2 b)). pose proof (zlen_nonneg (f_bytes 3 c)).
    rewrite !Forall_app. repeat split; apply f_bytes_byte; try lia; apply text_byte; assumption.
  - apply f_varint_byte; [lia|]. destruct playing; reflexivity.
Qed.

Lemma read_wire_frame w m f c rest : zlib_inverse w -> sendable w m -> frame_of w m f ->
  concat c = f ++ rest ->
  exists c', read_wire w c = Ok (Some m, c') /\ concat c' = rest.
Proof.
  intros Hz [Hv [Ht [Hs1 Hs2]]] Hf Hc.
  pose proof (Hs2 f Hf) as Hsz. unfold frame_of in Hf.
  rewrite (to_wire_some w m Ht) in Hf. apply Some_inj in Hf; subst f.
  set (env := enc_envelope (message_name m) (zdeflate w (enc_message m))) in *.
  rewrite zlen_app in Hsz. rewrite <- app_assoc in Hc.
  assert (Hpl : zlen (put_le 8 (N.of_nat (length env))) = 8%Z) by (unfold zlen; rewrite put_le_length; reflexivity).
  pose proof (zlen_nonneg env) as Hen. pose proof (zlen_nonneg rest) as Hrn.
  unfold max_alloc in Hsz. unfold read_wire, read_bytes, max_alloc.
  change ((8 <? 0) || (2 ^ 48 <? 8))%bool%Z with false. cbn [obind].
  destruct (read_loop_spec c 8 []) as [c1 [R1 C1]].
  { rewrite Hc, !zlen_app. lia. }
  rewrite R1. cbn [app]. rewrite Hc in C1. rewrite Hc.
  change (Z.to_nat 8) with 8%nat in *.
  rewrite firstn_app, firstn_all2 by (rewrite put_le_length; lia).
  rewrite put_le_length, Nat.sub_diag, firstn_O, app_nil_r.
  rewrite skipn_app, (skipn_all2 (put_le 8 _)) in C1 by (rewrite put_le_length; lia).
  rewrite put_le_length, Nat.sub_diag in C1. cbn [app skipn] in C1.
  assert (Hszn : (Z.of_nat (length env) <= 2 ^ 48 - 8)%Z) by (rewrite Hpl in Hsz; unfold zlen in Hsz; lia).
  rewrite get_put_le by (change (256 ^ N.of_nat 8) with (2 ^ 64); lia).
  assert (Hi : i64 (N.of_nat (length env)) = zlen env) by (unfold i64, wrap64, zlen; lia).
  rewrite Hi.
  assert (Hle : (0 <= zlen env <= 2 ^ 48 - 8)%Z) by (unfold zlen; lia).
  replace ((zlen env <? 0) || (2 ^ 48 <? zlen env))%bool%Z with false by lia. cbn [obind].
  destruct (read_loop_spec c1 (zlen env) []) as [c2 [R2 C2]].
  { rewrite C1, zlen_app. lia. }
  rewrite R2. cbn [app]. rewrite C1 in *.
  assert (Hnl : Z.to_nat (zlen env) = length env) by (unfold zlen; lia).
  rewrite Hnl in *.
  rewrite firstn_app, firstn_all, Nat.sub_diag, firstn_O, app_nil_r.
  rewrite skipn_app, skipn_all, Nat.sub_diag in C2. cbn [app skipn] in C2.
  unfold env at 1. rewrite dec_envelope;
    [|apply message_name_ok; exact Hv|fold env; unfold max_alloc; lia].
  rewrite message_type_name by exact Hv. rewrite (Hz _ (enc_byte m Hv Ht Hs1)). rewrite unmarshal_empty by exact Hv.
  rewrite dec_message by assumption. exists c2; split; [reflexivity|exact C2].
Qed.

(** A stream that ends inside a frame (or at its start): the read returns an error. *)
Lemma read_wire_truncated w m f c part rest : sendable w m -> frame_of w m f ->
  f = part ++ rest -> rest <> [] -> concat c = part -> foreign w [] = None ->
  exists c', read_wire w c = Ok (None, c').
Proof.
  intros [Hv [Ht [Hs1 Hs2]]] Hf Hp Hne Hc Hfo.
  pose proof (Hs2 f Hf) as Hsz. unfold frame_of in Hf.
  rewrite (to_wire_some w m Ht) in Hf. apply Some_inj in Hf.
  set (env := enc_envelope (message_name m) (zdeflate w (enc_message m))) in *.
  unfold read_wire, read_bytes. unfold max_alloc at 1.
  change ((8 <? 0) || (2 ^ 48 <? 8))%bool%Z with false. cbn [obind].
  destruct (zlen (concat c) <? 8)%Z eqn:E8.
  { rewrite read_loop_short by lia. exists []; reflexivity. }
  destruct (read_loop_spec c 8 []) as [c1 [R1 C1]]; [lia|].
  rewrite R1. cbn [app]. rewrite Hc in *. change (Z.to_nat 8) with 8%nat in *.
  assert (Hfirst : firstn 8 part = put_le 8 (N.of_nat (length env))).
  { assert (H8 : firstn 8 f = put_le 8 (N.of_nat (length env))).
    { rewrite <- Hf. rewrite firstn_app, firstn_all2 by (rewrite put_le_length; lia).
      rewrite put_le_length, Nat.sub_diag, firstn_O, app_nil_r. reflexivity. }
    rewrite Hp, firstn_app in H8. unfold zlen in E8.
    replace (8 - length part)%nat with O in H8 by lia. rewrite firstn_O, app_nil_r in H8. exact H8. }
  rewrite Hfirst.
  assert (Hlf : (length f = 8 + length env)%nat) by (rewrite <- Hf, app_length, put_le_length; reflexivity).
  unfold zlen, max_alloc in Hsz. rewrite Hlf in Hsz.
  rewrite get_put_le by (change (256 ^ N.of_nat 8) with (2 ^ 64); lia).
  assert (Hi : i64 (N.of_nat (length env)) = zlen env) by (unfold i64, wrap64, zlen; lia).
  rewrite Hi.
  assert (Hle : (0 <= zlen env <= 2 ^ 48 - 8)%Z) by (unfold zlen; lia).
  unfold max_alloc.
  replace ((zlen env <? 0) || (2 ^ 48 <? zlen env))%bool%Z with false by lia. cbn [obind].
  assert (Hshort : (zlen (concat c1) < zlen env)%Z).
  { rewrite C1. unfold zlen. rewrite skipn_length.
    apply (f_equal (@length N)) in Hp. rewrite app_length in Hp.
    destruct rest; [congruence|]. cbn [length] in Hp. unfold zlen in E8. lia. }
  rewrite read_loop_short by exact Hshort. cbn [decode decode_loop length].
  unfold decode; cbn [decode_loop length]. cbn [decode_loop].
  unfold message_type. cbn [after_slash]. cbn [find empty_messages].
  cbn [find]. change (find (fun m0 : message => text_eqb (message_name m0) []) empty_messages) with (@None message).
  rewrite Hfo. exists []; reflexivity.
Qed.

(** [serve] with enough fuel. *)
Lemma read_wire_consumes w c m c' : read_wire w c = Ok (Some m, c') ->
  (length (concat c') + 8 <= length (concat c))%nat.
Proof.
  unfold read_wire, read_bytes at 1. unfold max_alloc at 1.
  change ((8 <? 0) || (2 ^ 48 <? 8))%bool%Z with false. cbn [obind].
  destruct (zlen (concat c) <? 8)%Z eqn:E8.
  { rewrite read_loop_short by lia. discriminate. }
  destruct (read_loop_spec c 8 []) as [c1 [R1 C1]]; [lia|].
  rewrite R1. set (size := i64 _). unfold read_bytes.
  destruct ((size <? 0) || (max_alloc <? size))%bool%Z; [discriminate|]. cbn [obind].
  assert (H1 : (length (concat c1) + 8 = length (concat c))%nat).
  { rewrite C1, skipn_length. unfold zlen in E8. lia. }
  destruct (zlen (concat c1) <? size)%Z eqn:Es.
  - rewrite read_loop_short by lia.
    destruct (decode fld_envelope ([], []) []) as [[ty zd]|]; [|discriminate].
    destruct (message_type w ty); [|discriminate]. destruct (zinflate w zd); [|discriminate].
    intros H; injection H as _ <-. cbn; lia.
  - destruct (read_loop_spec c1 size []) as [c2 [R2 C2]]; [lia|]. rewrite R2.
    destruct (decode fld_envelope ([], []) _) as [[ty zd]|]; [|discriminate].
    destruct (message_type w ty); [|discriminate]. destruct (zinflate w zd); [|discriminate].
    intros H; injection H as _ <-. rewrite C2, skipn_length. lia.
Qed.

Lemma serve_fuel w n : forall c m, (length (concat c) < n)%nat -> (n <= m)%nat -> serve w n c = serve w m c.
Proof.
  induction n as [|n IH]; intros c m H Hm; [lia|]. destruct m as [|m]; [lia|].
  cbn [serve]. destruct (read_wire w c) as [[[x|] c']|] eqn:E; [|reflexivity|reflexivity].
  apply read_wire_consumes in E. rewrite (IH c' m) by lia. reflexivity.
Qed.

Lemma handle_connection_step w c x c' : read_wire w c = Ok (Some x, c') ->
  handle_connection w c = (x :: fst (handle_connection w c'), snd (handle_connection w c')).
Proof.
  intros E. unfold handle_connection at 1. cbn [serve]. rewrite E.
  apply read_wire_consumes in E.
  rewrite <- (serve_fuel w (S (length (concat c'))) c') by lia.
  unfold handle_connection. destruct (serve w (S (length (concat c'))) c'); reflexivity.
Qed.
Lemma handle_connection_stop w c c' : read_wire w c = Ok (None, c') -> handle_connection w c = ([], Closed).
Proof. intros E. unfold handle_connection; cbn [serve]; rewrite E; reflexivity. Qed.
Lemma handle_connection_crash w c : read_wire w c = Panic -> handle_connection w c = ([], Crashed).
Proof. intros E. unfold handle_connection; cbn [serve]; rewrite E; reflexivity. Qed.

Lemma read_wire_eof w c : concat c = [] -> read_wire w c = Ok (None, []).
Proof.
  intros H. unfold read_wire, read_bytes. unfold max_alloc at 1.
  change ((8 <? 0) || (2 ^ 48 <? 8))%bool%Z with false. cbn [obind].
  rewrite read_loop_short by (rewrite H; reflexivity). reflexivity.
Qed.

(** Whole frames followed by a proper prefix of a further frame. *)
Lemma handle_frames w : zlib_inverse w -> forall ms fs, Forall (sendable w) ms -> Forall2 (frame_of w) ms fs ->
  forall c tail, concat c = concat fs ++ tail ->
  (forall c', concat c' = tail -> exists c'', read_wire w c' = Ok (None, c'')) ->
  handle_connection w c = (ms, Closed).
Proof.
  intros Hz ms fs Hms Hfs. induction Hfs as [|m f ms fs Hf Hfs IH]; intros c tail Hc Ht.
  - cbn [concat app] in Hc. destruct (Ht c Hc) as [c'' E]. exact (handle_connection_stop _ _ _ E).
  - inversion Hms as [|? ? Hm Hms']; subst. cbn [concat] in Hc. rewrite <- app_assoc in Hc.
    destruct (read_wire_frame w m f c _ Hz Hm Hf Hc) as [c' [E Hc']].
    rewrite (handle_connection_step _ _ _ _ E), (IH Hms' c' tail Hc' Ht). reflexivity.
Qed.

(** * Writing *)
Lemma send_loop_done : forall script data out r, send_loop data script = (out, r) ->
  (r = Some true -> out = data) /\ exists rest, data = out ++ rest.
Proof.
  induction script as [|[n|n] s IH]; intros data out r H; destruct data as [|x data]; cbn [send_loop] in H.
  - injection H as <- <-. split; [reflexivity|exists []; reflexivity].
  - injection H as <- <-. split; [discriminate|exists (x :: data); reflexivity].
  - injection H as <- <-. split; [reflexivity|exists []; reflexivity].
  - destruct (send_loop (skipn (N.to_nat n) (x :: data)) s) as [o r'] eqn:E.
    injection H as <- <-. destruct (IH _ _ _ E) as [H1 [rest H2]]. split.
    + intros Hr. rewrite (H1 Hr), firstn_skipn. reflexivity.
    + exists rest. rewrite <- app_assoc, <- H2, firstn_skipn. reflexivity.
  - injection H as <- <-. split; [reflexivity|exists []; reflexivity].
  - injection H as <- <-. split; [discriminate|].
    exists (skipn (N.to_nat n) (x :: data)). rewrite firstn_skipn; reflexivity.
Qed.

(** * Crashes *)
Lemma read_wire_panic w c : foreign w [] = None -> read_wire w c = Panic -> poison w (concat c).
Proof.
  intros Hfo. unfold read_wire, read_bytes at 1. unfold max_alloc at 1.
  change ((8 <? 0) || (2 ^ 48 <? 8))%bool%Z with false. cbn [obind].
  destruct (zlen (concat c) <? 8)%Z eqn:E8.
  { rewrite read_loop_short by lia. discriminate. }
  destruct (read_loop_spec c 8 []) as [c1 [R1 C1]]; [lia|].
  rewrite R1. cbn [app]. change (Z.to_nat 8) with 8%nat in *. unfold zlen in E8.
  set (size := i64 (get_le (firstn 8 (concat c)))). intros H.
  exists (firstn 8 (concat c)), (skipn 8 (concat c)).
  split; [symmetry; apply firstn_skipn|]. split; [rewrite firstn_length; lia|].
  cbv zeta. fold size. unfold read_bytes in H.
  destruct ((size <? 0) || (max_alloc <? size))%bool%Z eqn:Eb; [lia|]. right; right.
  cbn [obind] in H. destruct (zlen (concat c1) <? size)%Z eqn:Es.
  - rewrite read_loop_short in H by lia.
    change (decode fld_envelope ([], []) []) with (Some (@nil N, @nil N)) in H.
    unfold message_type in H.
    change (find (fun m0 : message => text_eqb (message_name m0) (after_slash [])) empty_messages) with (@None message) in H.
    change (after_slash []) with (@nil N) in H. rewrite Hfo in H. discriminate.
  - destruct (read_loop_spec c1 size []) as [c2 [R2 C2]]; [lia|]. rewrite R2 in H. cbn [app] in H.
    destruct (decode fld_envelope ([], []) (firstn (Z.to_nat size) (concat c1))) as [[ty zd]|] eqn:Ed; [|discriminate].
    destruct (message_type w ty) as [m|] eqn:Em; [|discriminate].
    destruct (zinflate w zd) as [x|] eqn:Ez; [discriminate|].
    rewrite <- C1.
    exists (firstn (Z.to_nat size) (concat c1)), (skipn (Z.to_nat size) (concat c1)), ty, zd, m.
    split; [symmetry; apply firstn_skipn|]. split; [unfold zlen in *; rewrite firstn_length; lia|]. auto.
Qed.

Lemma read_wire_poison w c : poison w (concat c) -> read_wire w c = Panic.
Proof.
  intros (hd & body & Hc & Hl & H). cbv zeta in H.
  unfold read_wire, read_bytes at 1. unfold max_alloc at 1.
  change ((8 <? 0) || (2 ^ 48 <? 8))%bool%Z with false. cbn [obind].
  destruct (read_loop_spec c 8 []) as [c1 [R1 C1]].
  { rewrite Hc, zlen_app. pose proof (zlen_nonneg body). unfold zlen at 1. lia. }
  rewrite R1. cbn [app]. change (Z.to_nat 8) with 8%nat in *. rewrite Hc in *.
  rewrite firstn_app, firstn_all2 by lia. rewrite Hl, Nat.sub_diag, firstn_O, app_nil_r.
  rewrite skipn_app, (skipn_all2 hd) in C1 by lia. rewrite Hl, Nat.sub_diag in C1. cbn [app skipn] in C1.
  set (size := i64 (get_le hd)) in *. unfold read_bytes.
  destruct H as [H|[H|(env & more & ty & zd & m & Hb & He & Hd & Hm & Hz)]].
  - replace ((size <? 0) || (max_alloc <? size))%bool%Z with true by lia. reflexivity.
  - replace ((size <? 0) || (max_alloc <? size))%bool%Z with true by lia. reflexivity.
  - destruct ((size <? 0) || (max_alloc <? size))%bool%Z eqn:Eb; [reflexivity|]. cbn [obind].
    destruct (read_loop_spec c1 size []) as [c2 [R2 C2]].
    { rewrite C1, Hb, zlen_app. pose proof (zlen_nonneg more). lia. }
    rewrite R2. cbn [app]. rewrite C1, Hb.
    replace (Z.to_nat size) with (length env) by (unfold zlen in He; lia).
    rewrite firstn_app, firstn_all, Nat.sub_diag, firstn_O, app_nil_r. rewrite Hd, Hm, Hz. reflexivity.
Qed.

Lemma read_wire_suffix w c m c' : read_wire w c = Ok (Some m, c') -> exists pre, concat c = pre ++ concat c'.
Proof.
  unfold read_wire, read_bytes at 1. unfold max_alloc at 1.
  change ((8 <? 0) || (2 ^ 48 <? 8))%bool%Z with false. cbn [obind].
  destruct (zlen (concat c) <? 8)%Z eqn:E8.
  { rewrite read_loop_short by lia. discriminate. }
  destruct (read_loop_spec c 8 []) as [c1 [R1 C1]]; [lia|].
  rewrite R1. set (size := i64 _). unfold read_bytes.
  destruct ((size <? 0) || (max_alloc <? size))%bool%Z; [discriminate|]. cbn [obind].
  destruct (zlen (concat c1) <? size)%Z eqn:Es.
  - rewrite read_loop_short by lia.
    destruct (decode fld_envelope ([], []) []) as [[ty zd]|]; [|discriminate].
    destruct (message_type w ty); [|discriminate]. destruct (zinflate w zd); [|discriminate].
    intros H; injection H as _ <-. exists (concat c). rewrite app_nil_r; reflexivity.
  - destruct (read_loop_spec c1 size []) as [c2 [R2 C2]]; [lia|]. rewrite R2.
    destruct (decode fld_envelope ([], []) _) as [[ty zd]|]; [|discriminate].
    destruct (message_type w ty); [|discriminate]. destruct (zinflate w zd); [|discriminate].
    intros H; injection H as _ <-. exists (firstn 8 (concat c) ++ firstn (Z.to_nat size) (concat c1)).
    rewrite C2, <- app_assoc, firstn_skipn, C1. symmetry; apply firstn_skipn.
Qed.

Lemma crash_poison w : foreign w [] = None -> forall n c, (length (concat c) < n)%nat ->
  snd (handle_connection w c) = Crashed -> exists pre s, concat c = pre ++ s /\ poison w s.
Proof.
  intros Hfo. induction n as [|n IH]; intros c Hn H; [lia|].
  destruct (read_wire w c) as [[[x|] c']|] eqn:E.
  - rewrite (handle_connection_step _ _ _ _ E) in H. cbn [snd] in H.
    destruct (read_wire_suffix _ _ _ _ E) as [pre Hp]. apply read_wire_consumes in E.
    destruct (IH c' ltac:(lia) H) as (p2 & s & Hs & Hpo). exists (pre ++ p2), s.
    split; [rewrite Hp, Hs, app_assoc; reflexivity|exact Hpo].
  - rewrite (handle_connection_stop _ _ _ E) in H. discriminate.
  - exists [], (concat c). split; [reflexivity|]. apply read_wire_panic; assumption.
Qed.

Lemma frames_then_poison w : zlib_inverse w -> forall ms fs, Forall (sendable w) ms -> Forall2 (frame_of w) ms fs ->
  forall c s, concat c = concat fs ++ s -> poison w s -> handle_connection w c = (ms, Crashed).
Proof.
  intros Hz ms fs Hms Hfs. induction Hfs as [|m f ms fs Hf Hfs IH]; intros c s Hc Hp.
  - cbn [concat app] in Hc. apply handle_connection_crash, read_wire_poison. rewrite Hc; exact Hp.
  - inversion Hms as [|? ? Hm Hms']; subst. cbn [concat] in Hc. rewrite <- app_assoc in Hc.
    destruct (read_wire_frame w m f c _ Hz Hm Hf Hc) as [c' [E Hc']].
    rewrite (handle_connection_step _ _ _ _ E), (IH Hms' c' s Hc' Hp). reflexivity.
Qed.

(** * Shared connection *)
Lemma nth_set_nth {A} i j (x d : A) l : (i < length l)%nat ->
  nth j (set_nth i x l) d = if Nat.eqb i j then x else nth j l d.
Proof.
  revert j l; induction i as [|i IH]; intros j l Hi; destruct l as [|a l]; cbn [length] in Hi; try lia.
  - destruct j; reflexivity.
  - unfold set_nth in *. destruct j as [|j]; [reflexivity|]. cbn [firstn skipn app nth]. apply (IH j l). lia.
Qed.
Lemma length_set_nth {A} i (x : A) l : (i < length l)%nat -> length (set_nth i x l) = length l.
Proof. intros H. unfold set_nth. rewrite app_length, firstn_length. cbn [length]. rewrite skipn_length. lia. Qed.

Lemma interleaving_snoc {A} (ls : list (list A)) out i a : (i < length ls)%nat ->
  interleaving ls out -> interleaving (set_nth i (nth i ls [] ++ [a]) ls) (out ++ [a]).
Proof.
  intros Hi (lab & Hm & Hr & Hn). exists (lab ++ [(i, a)]). split; [|split].
  - rewrite map_app, Hm; reflexivity.
  - apply Forall_app; split; [|constructor; [cbn [fst]; rewrite length_set_nth by exact Hi; exact Hi|constructor]].
    rewrite length_set_nth by exact Hi. exact Hr.
  - intros j. rewrite filter_app, map_app, Hn, nth_set_nth by exact Hi.
    cbn [filter fst]. destruct (Nat.eqb i j) eqn:E.
    + apply Nat.eqb_eq in E; subst j. reflexivity.
    + cbn [map]. rewrite app_nil_r; reflexivity.
Qed.

Lemma progress_step {A} (q0 d q : list (list A)) i a rest :
  progress q0 d q -> nth_error q i = Some (a :: rest) ->
  (i < length d)%nat /\ progress q0 (set_nth i (nth i d [] ++ [a]) d) (set_nth i rest q).
Proof.
  intros (H1 & H2 & H3) Hq.
  assert (Hi : (i < length q)%nat) by (apply nth_error_Some; congruence).
  split; [lia|]. split; [|split].
  - rewrite length_set_nth by lia; exact H1.
  - rewrite length_set_nth by lia; exact H2.
  - intros j. rewrite !nth_set_nth by lia. rewrite H3.
    destruct (Nat.eqb i j) eqn:E; [|reflexivity]. apply Nat.eqb_eq in E; subst j.
    rewrite (nth_error_nth _ _ [] Hq), <- app_assoc. reflexivity.
Qed.

(** The stream written so far is made of whole frames of an interleaving of the messages
    taken by the senders (a broken last frame counts as not sent). *)
Definition stream_inv (w : wire_env) (q0 : list (list message)) (s : shared_conn) : Prop :=
  exists d sent fs part,
    interleaving d sent /\ Forall2 (frame_of w) sent fs /\ stream s = concat fs ++ part
    /\ length d = length q0
    /\ (forall i, exists later, nth i q0 [] = nth i d [] ++ later)
    /\ (failed s = false -> part = [] /\ progress q0 d (to_send s))
    /\ (part = [] \/ exists m f lost, In m (concat q0) /\ frame_of w m f /\ f = part ++ lost /\ lost <> []).

Lemma nth_error_set_incl {A} i (rest : list A) m q :
  nth_error q i = Some (m :: rest) -> forall x, In x (concat (set_nth i rest q)) -> In x (concat q).
Proof.
  intros H x Hx. apply in_concat in Hx. destruct Hx as [l [Hl Hx]].
  apply in_concat. unfold set_nth in Hl. apply in_app_or in Hl. destruct Hl as [Hl|[<-|Hl]].
  - exists l; split; [|exact Hx]. rewrite <- (firstn_skipn i q). apply in_or_app; left; exact Hl.
  - exists (m :: rest); split; [apply nth_error_In in H; exact H|right; exact Hx].
  - exists l; split; [|exact Hx]. rewrite <- (firstn_skipn (S i) q). apply in_or_app; right; exact Hl.
Qed.

Lemma send_run_queue w q0 s : send_run w {| to_send := q0; stream := []; failed := false |} s ->
  forall x, In x (concat (to_send s)) -> In x (concat q0).
Proof.
  remember {| to_send := q0; stream := []; failed := false |} as s0 eqn:E0. intros H; revert E0.
  induction H as [s|s s1 s2 Hr IH Hs]; intros E0 x Hx; [subst; exact Hx|].
  apply (IH E0). inversion Hs; subst; cbn [to_send] in *; eapply nth_error_set_incl; eauto.
Qed.

Lemma nth_error_concat {A} i (m : A) rest q : nth_error q i = Some (m :: rest) -> In m (concat q).
Proof. intros H. apply in_concat. exists (m :: rest). split; [eapply nth_error_In; eauto|left; reflexivity]. Qed.

Lemma send_run_inv w q0 s : (forall m, In m (concat q0) -> to_wire w m <> None) ->
  send_run w {| to_send := q0; stream := []; failed := false |} s -> stream_inv w q0 s.
Proof.
  intros Hok. remember {| to_send := q0; stream := []; failed := false |} as s0 eqn:E0. intros H; revert E0.
  induction H as [s|s s1 s2 Hr IH Hs]; intros E0.
  - subst s. exists (map (fun _ => []) q0), [], [], []. cbn [stream failed to_send concat app].
    assert (Hn : forall i, nth i (map (fun _ : list message => @nil message) q0) [] = []).
    { intros i. destruct (nth_in_or_default i (map (fun _ : list message => @nil message) q0) []) as [Hin| ->]; [|reflexivity].
      apply in_map_iff in Hin. destruct Hin as [x [<- _]]; reflexivity. }
    split; [exists []; split; [reflexivity|split; [constructor|intros i; rewrite Hn; reflexivity]]|].
    split; [constructor|]. split; [reflexivity|]. split; [apply map_length|].
    split; [intros i; exists (nth i q0 []); rewrite Hn; reflexivity|].
    split; [|left; reflexivity]. intros _. split; [reflexivity|].
    split; [apply map_length|split; [reflexivity|intros i; rewrite Hn; reflexivity]].
  - subst s. specialize (IH eq_refl).
    pose proof (send_run_queue _ _ _ Hr) as Hin.
    destruct IH as (d & sent & fs & part & Hil & Hfs & Hst & Hld & Hpre & Hnf & Hpart).
    inversion Hs as [i m rest q out data Hq Hw|i m rest q out data pt lost Hq Hw Hdp|i m rest q out Hq|i m rest q out b Hq Hw];
      subst s1 s2; cbn [to_send stream failed] in *.
    + destruct (Hnf eq_refl) as [-> Hpr].
      destruct (progress_step _ _ _ _ _ _ Hpr Hq) as [Hi Hpr'].
      exists (set_nth i (nth i d [] ++ [m]) d), (sent ++ [m]), (fs ++ [data]), [].
      split; [apply interleaving_snoc; assumption|].
      split; [apply Forall2_app; [exact Hfs|constructor; [exact Hw|constructor]]|].
      split; [rewrite Hst, concat_app; cbn [concat]; rewrite !app_nil_r; reflexivity|].
      split; [rewrite length_set_nth by exact Hi; exact Hld|].
      split; [intros j; exists (nth j (set_nth i rest q) []); destruct Hpr' as (_ & _ & Hp); apply Hp|].
      split; [intros _; split; [reflexivity|exact Hpr']|left; reflexivity].
    + destruct (Hnf eq_refl) as [-> Hpr].
      destruct lost as [|y lost].
      * rewrite app_nil_r in Hdp; subst pt.
        destruct (progress_step _ _ _ _ _ _ Hpr Hq) as [Hi Hpr'].
        exists (set_nth i (nth i d [] ++ [m]) d), (sent ++ [m]), (fs ++ [data]), [].
        split; [apply interleaving_snoc; assumption|].
        split; [apply Forall2_app; [exact Hfs|constructor; [exact Hw|constructor]]|].
        split; [rewrite Hst, concat_app; cbn [concat]; rewrite !app_nil_r; reflexivity|].
        split; [rewrite length_set_nth by exact Hi; exact Hld|].
        split; [intros j; exists (nth j (set_nth i rest q) []); destruct Hpr' as (_ & _ & Hp); apply Hp|].
        split; [discriminate|left; reflexivity].
      * exists d, sent, fs, pt. split; [exact Hil|]. split; [exact Hfs|].
        split; [rewrite Hst, app_nil_r; reflexivity|]. split; [exact Hld|]. split; [exact Hpre|].
        split; [discriminate|right]. exists m, data, (y :: lost).
        split; [apply Hin; eapply nth_error_concat; eauto|]. split; [exact Hw|]. split; [exact Hdp|discriminate].
    + exists d, sent, fs, part. split; [exact Hil|]. split; [exact Hfs|]. split; [exact Hst|].
      split; [exact Hld|]. split; [exact Hpre|]. split; [discriminate|exact Hpart].
    + exfalso. apply (Hok m); [|exact Hw]. apply Hin. eapply nth_error_concat; eauto.
Qed.

Lemma interleaving_in {A} (ls : list (list A)) out x : interleaving ls out -> In x out -> In x (concat ls).
Proof.
  intros (lab & Hm & Hr & Hn) Hx. rewrite <- Hm in Hx. apply in_map_iff in Hx. destruct Hx as [[i y] [<- Hp]].
  cbn [snd]. rewrite Forall_forall in Hr. pose proof (Hr _ Hp) as Hi. cbn [fst] in Hi.
  apply in_concat. exists (nth i ls []). split; [apply nth_In; exact Hi|].
  rewrite <- Hn. apply in_map_iff. exists (i, y). split; [reflexivity|]. apply filter_In. split; [exact Hp|].
  cbn [fst]. apply Nat.eqb_refl.
Qed.

Lemma stream_received w q0 s : zlib_inverse w -> foreign w [] = None ->
  (forall m, In m (concat q0) -> sendable w m) ->
  send_run w {| to_send := q0; stream := []; failed := false |} s ->
  forall c, concat c = stream s ->
  exists d sent, handle_connection w c = (sent, Closed) /\ interleaving d sent
    /\ length d = length q0 /\ (forall i, exists later, nth i q0 [] = nth i d [] ++ later)
    /\ (failed s = false -> progress q0 d (to_send s)).
Proof.
  intros Hz Hfo Hsend Hrun c Hc.
  destruct (send_run_inv w q0 s) as (d & sent & fs & part & Hil & Hfs & Hst & Hld & Hpre & Hnf & Hpart).
  { intros m Hm E. apply to_wire_none in E. apply E. apply (Hsend m Hm). }
  { exact Hrun. }
  exists d, sent.
  assert (Hss : Forall (sendable w) sent).
  { apply Forall_forall. intros x Hx. apply Hsend. apply (interleaving_in _ _ _ Hil) in Hx.
    apply in_concat in Hx. destruct Hx as [l [Hl Hx]]. apply (In_nth _ _ []) in Hl. destruct Hl as [i [Hi Hl]].
    destruct (Hpre i) as [later Hp]. rewrite Hl in Hp.
    apply in_concat. exists (nth i q0 []). split; [apply nth_In; lia|]. rewrite Hp. apply in_or_app; left; exact Hx. }
  split; [|split; [exact Hil|split; [exact Hld|split; [exact Hpre|intros Hf; apply (Hnf Hf)]]]].
  rewrite Hst in Hc.
  apply (handle_frames w Hz sent fs Hss Hfs c part Hc).
  intros c' Hc'. destruct Hpart as [->|(m & f & lost & Hm & Hf & Hfp & Hl)].
  - exists []. apply read_wire_eof; exact Hc'.
  - eapply read_wire_truncated; eauto.
Qed.
