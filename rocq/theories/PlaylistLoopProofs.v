(** Proofs about the streaming loop of the playlist. *)
From Verif Require Import GoBase GoBaseFacts PlaylistModel PlaylistSpec PlaylistProofs.
From Coq Require Import ZifyBool ZifyNat ZifyN.
Ltac Zify.zify_post_hook ::= Z.div_mod_to_equations.
Local Open Scope Z_scope.

Section L.
Variable decode : song -> option (list sample).
Variable nan_break : Z.
Notation pstep := (pstep decode nan_break).
Notation prun := (prun decode nan_break).

Lemma prun_app s a b :
  prun s (a ++ b) =
  match prun s a with
  | None => None
  | Some (s1, e1) => match prun s1 b with None => None | Some (s2, e2) => Some (s2, e1 ++ e2) end
  end.
Proof.
  revert s; induction a as [|x a IH]; intros s; cbn [app PlaylistModel.prun].
  - destruct (prun s b) as [[? ?]|]; reflexivity.
  - destruct (pstep s x) as [[s1 e1]|]; [|reflexivity].
    rewrite IH. destruct (prun s1 a) as [[s2 e2]|]; [|reflexivity].
    destruct (prun s2 b) as [[s3 e3]|]; [|reflexivity]. rewrite app_assoc; reflexivity.
Qed.

Lemma prun_inv (I : pstate -> list event -> Prop) (ok : action -> Prop) :
  (forall s es a s' e, I s es -> ok a -> pstep s a = Some (s', e) -> I s' (es ++ e)) ->
  forall acts s es0 s' es,
    I s es0 -> Forall ok acts -> prun s acts = Some (s', es) -> I s' (es0 ++ es).
Proof.
  intros Hstep acts; induction acts as [|a acts IH]; intros s es0 s' es HI Hok Hr;
    cbn [PlaylistModel.prun] in Hr.
  - injection Hr as <- <-. rewrite app_nil_r; exact HI.
  - inversion Hok as [|? ? Ha Hacts]; subst.
    destruct (pstep s a) as [[s1 e1]|] eqn:E; [|discriminate].
    destruct (prun s1 acts) as [[s2 e2]|] eqn:E2; [|discriminate].
    injection Hr as <- <-. rewrite app_assoc.
    eapply IH; [eapply Hstep; eassumption|exact Hacts|exact E2].
Qed.

(** Inversion of one step. *)
Inductive stepped (s : pstate) : action -> pstate -> list event -> Prop :=
| S_next_panic : at_pc s = AtTop -> next_song (songs s) (position s) = Panic ->
    stepped s PNext (set_pc s Crashed) []
| S_next_none pos : at_pc s = AtTop -> next_song (songs s) (position s) = Ok (pos, []) ->
    let g := nan_samples (Z.of_N no_song_nan_sample_count) in
    stepped s PNext (pushed (set_position s pos) g) [EGap g]
| S_next_song pos f : at_pc s = AtTop -> next_song (songs s) (position s) = Ok (pos, f) -> f <> [] ->
    stepped s PNext (set_pc (set_current (set_position s pos) f) (Opening f)) []
| S_open_fail f : at_pc s = Opening f -> decode f = None ->
    stepped s POpen (set_pc (set_position s (position s + 1)) AtTop) []
| S_open f l : at_pc s = Opening f -> decode f = Some l ->
    stepped s POpen (set_pc s (InSong l)) [ENewSong (idx_write s) (current_song s) (zlen l)]
| S_cmp_eq r : at_pc s = InSong r -> playing s = playing_last s ->
    stepped s PCmp (set_pc s (BlockRead r)) []
| S_cmp_ne r : at_pc s = InSong r -> playing s <> playing_last s ->
    stepped s PCmp (set_pc s (TogStore r)) []
| S_togstore r : at_pc s = TogStore r ->
    stepped s PTogStore (set_pc (set_playing_last s (playing s)) (TogCall r)) []
| S_togcall r : at_pc s = TogCall r ->
    stepped s PTogCall (set_pc s (BlockRead r)) [EToggle (playing s) (idx_write s)]
| S_block r : at_pc s = BlockRead r -> playing s = true ->
    let blk := firstn streamer_buffer_size r in
    stepped s PBlock
      (set_pc (pushed s blk) (Checking (skipn streamer_buffer_size r) (length blk) (negb (Nat.eqb (length blk) 0))))
      [EBlock blk]
| S_filler r : at_pc s = BlockRead r -> playing s = false ->
    let g := nan_samples (Z.of_nat streamer_buffer_size) in
    stepped s PBlock (set_pc (pushed s g) (Checking r streamer_buffer_size true)) [EBlock g]
| S_check_jump r n ok : at_pc s = Checking r n ok -> (0 < tokens s)%nat ->
    stepped s PCheck (set_pc (pushed (set_tokens s (tokens s - 1) (pending_jumps s)) (nan_samples nan_break)) AtTop)
      [EGap (nan_samples nan_break)]
| S_check_end r n ok : at_pc s = Checking r n ok -> tokens s = 0%nat ->
    (ok = false \/ (n < streamer_buffer_size)%nat) ->
    stepped s PCheck (set_pc (pushed (set_position s (position s + 1)) (nan_samples nan_break)) AtTop)
      [EGap (nan_samples nan_break)]
| S_check_cont r n ok : at_pc s = Checking r n ok -> tokens s = 0%nat ->
    ok = true -> (streamer_buffer_size <= n)%nat ->
    stepped s PCheck (set_pc s (InSong r)) []
| S_setplaying b : at_pc s <> Crashed -> stepped s (ASetPlaying b) (set_playing s b) []
| S_setposwrite p : at_pc s <> Crashed ->
    stepped s (ASetPosWrite p) (set_tokens (set_position s p) (tokens s) (S (pending_jumps s))) []
| S_setpossend pj : at_pc s <> Crashed -> pending_jumps s = S pj -> (tokens s < 2)%nat ->
    stepped s ASetPosSend (set_tokens s (S (tokens s)) pj) []
| S_edit_panic e : at_pc s <> Crashed -> apply_edit (songs s) e = Panic ->
    stepped s (AEdit e) (set_pc s Crashed) []
| S_edit e l r : at_pc s <> Crashed -> apply_edit (songs s) e = Ok (l, r) ->
    stepped s (AEdit e) (set_songs s l) [].

Lemma pstep_stepped s a s' e : pstep s a = Some (s', e) -> stepped s a s' e.
Proof.
  unfold PlaylistModel.pstep. intros H.
  destruct a; destruct (at_pc s) as [ |f|r|r|r|r|r n ok| ] eqn:Epc; try discriminate H;
  try (injection H as <- <-; constructor; congruence);
  try (destruct (next_song (songs s) (position s)) as [[pos f]|] eqn:En;
       [destruct f as [|c f]; injection H as <- <-; econstructor; eauto; congruence
       |injection H as <- <-; constructor; assumption]);
  try (destruct (decode f) as [l|] eqn:Ed; injection H as <- <-;
       [eapply S_open; eassumption|eapply S_open_fail; eassumption]);
  try (destruct (Bool.eqb (playing s) (playing_last s)) eqn:Eb; injection H as <- <-;
       [apply eqb_prop in Eb; eapply S_cmp_eq; eassumption
       |apply eqb_false_iff in Eb; eapply S_cmp_ne; eassumption]);
  try (injection H as <- <-; eapply S_togstore; eassumption);
  try (injection H as <- <-; eapply S_togcall; eassumption);
  try (destruct (playing s) eqn:Epl; injection H as <- <-;
       [eapply S_block; eassumption|eapply S_filler; eassumption]);
  try (destruct (Nat.ltb_spec 0 (tokens s)) as [Ht|Ht];
       [injection H as <- <-; eapply S_check_jump; eassumption|];
       destruct (negb ok || (n <? streamer_buffer_size)%nat)%bool eqn:Ec; injection H as <- <-;
       [eapply S_check_end; [eassumption|lia|];
        destruct ok; [right; destruct (Nat.ltb_spec n streamer_buffer_size); [assumption|discriminate]|left; reflexivity]
       |eapply S_check_cont; [eassumption|lia| |];
        destruct ok; try reflexivity; try discriminate;
        destruct (Nat.ltb_spec n streamer_buffer_size); [discriminate|assumption]]);
  try (destruct (pending_jumps s) as [|pj] eqn:Ep; [discriminate|];
       destruct (Nat.ltb_spec (tokens s) 2); [|discriminate];
       injection H as <- <-; eapply S_setpossend; eauto; congruence);
  try (destruct (apply_edit (songs s) e0) as [[l r']|] eqn:Ee; injection H as <- <-;
       [eapply S_edit; eauto; congruence|eapply S_edit_panic; eauto; congruence]).
Qed.

Lemma stream_of_app a b : stream_of (a ++ b) = stream_of a ++ stream_of b.
Proof. unfold stream_of. apply flat_map_app. Qed.
Lemma new_songs_of_app a b : new_songs_of (a ++ b) = new_songs_of a ++ new_songs_of b.
Proof. unfold new_songs_of. apply flat_map_app. Qed.
Lemma toggles_of_app a b : toggles_of (a ++ b) = toggles_of a ++ toggles_of b.
Proof. unfold toggles_of. apply flat_map_app. Qed.

Ltac inv_step H := apply pstep_stepped in H; destruct H.
Ltac psimpl := cbn [at_pc songs position tokens pending_jumps playing playing_last current_song idx_write
  set_pc set_position set_current set_tokens set_playing set_playing_last set_songs pushed] in *.

(* ---------------- C10: indices ---------------- *)

Definition opening_ok (s : pstate) : Prop := forall f, at_pc s = Opening f -> current_song s = f.

Lemma announced_app i a b :
  announced_in_place decode i a ->
  announced_in_place decode (i + zlen (stream_of a)) b ->
  announced_in_place decode i (a ++ b).
Proof.
  revert i; induction a as [|e a IH]; intros i Ha Hb; cbn [app announced_in_place].
  - replace (i + zlen (stream_of [])) with i in Hb by (unfold zlen; cbn; lia). exact Hb.
  - cbn [announced_in_place] in Ha. destruct Ha as [He Ha]. split; [exact He|].
    apply IH; [exact Ha|].
    change (stream_of (e :: a)) with (samples_of_event e ++ stream_of a) in Hb.
    rewrite zlen_app in Hb. rewrite <- Z.add_assoc. exact Hb.
Qed.

Definition InvIdx (i0 : Z) (s : pstate) (es : list event) : Prop :=
  opening_ok s /\ idx_write s = i0 + zlen (stream_of es) /\ announced_in_place decode i0 es.

Lemma step_idx i0 s es a s' e :
  InvIdx i0 s es -> pstep s a = Some (s', e) -> InvIdx i0 s' (es ++ e).
Proof.
  intros (Hop & Hidx & Han) H.
  assert (Hx : idx_write s' = idx_write s + zlen (stream_of e)).
  { inv_step H; psimpl; unfold stream_of; cbn [flat_map samples_of_event]; rewrite ?app_nil_r;
      unfold zlen; cbn [length]; lia. }
  repeat split.
  - inv_step H; intros ff Hf; psimpl; try congruence; try (apply Hop; assumption).
  - rewrite stream_of_app, zlen_app. lia.
  - apply announced_app; [exact Han|]. rewrite <- Hidx. clear Hx.
    inv_step H; cbn [announced_in_place]; auto.
    split; [|exact I]. split; [reflexivity|]. exists l. rewrite (Hop f) by assumption. auto.
Qed.

Lemma run_idx acts s s' es :
  opening_ok s -> prun s acts = Some (s', es) -> InvIdx (idx_write s) s' es.
Proof.
  intros Hop Hr. change es with ([] ++ es).
  eapply (prun_inv (InvIdx (idx_write s)) (fun _ => True)); [| |apply Forall_forall; auto|exact Hr].
  - intros; eapply step_idx; eassumption.
  - repeat split; [exact Hop|cbn; lia].
Qed.

Lemma announced_split i es1 e es2 :
  announced_in_place decode i (es1 ++ e :: es2) ->
  match e with
  | ENewSong j f n => j = i + zlen (stream_of es1) /\ exists l, decode f = Some l /\ n = zlen l
  | EToggle _ j => j = i + zlen (stream_of es1)
  | _ => True
  end.
Proof.
  revert i; induction es1 as [|x es1 IH]; intros i H; cbn [app announced_in_place] in H.
  - replace (i + zlen (stream_of [])) with i by (unfold zlen; cbn; lia). apply H.
  - destruct H as [_ H]. apply IH in H.
    change (stream_of (x :: es1)) with (samples_of_event x ++ stream_of es1).
    rewrite zlen_app. rewrite Z.add_assoc. exact H.
Qed.

Lemma announced_lower i es j :
  announced_in_place decode i es -> In j (announcement_indices es) -> i <= j.
Proof.
  revert i; induction es as [|e es IH]; intros i H Hj; cbn [announced_in_place] in H.
  - destruct Hj.
  - destruct H as [He H]. change (announcement_indices (e :: es)) with
      ((match e with ENewSong i _ _ => [i] | EToggle _ i => [i] | _ => [] end) ++ announcement_indices es) in Hj.
    apply in_app_or in Hj. destruct Hj as [Hj|Hj].
    + destruct e; cbn in Hj; intuition lia.
    + apply IH with (i := i + zlen (samples_of_event e)) in Hj; [|exact H].
      pose proof (zlen_nonneg (samples_of_event e)). lia.
Qed.

Lemma nondecreasing_cons x l : nondecreasing l -> (forall y, In y l -> x <= y) -> nondecreasing (x :: l).
Proof. intros H1 H2. cbn [nondecreasing]. split; [destruct l; [exact I|apply H2; left; reflexivity]|exact H1]. Qed.

Lemma announced_nondecreasing i es :
  announced_in_place decode i es -> nondecreasing (announcement_indices es).
Proof.
  revert i; induction es as [|e es IH]; intros i H; [exact I|].
  cbn [announced_in_place] in H. destruct H as [He H].
  change (announcement_indices (e :: es)) with
      ((match e with ENewSong i _ _ => [i] | EToggle _ i => [i] | _ => [] end) ++ announcement_indices es).
  assert (Hl : forall y, In y (announcement_indices es) -> i <= y).
  { intros y Hy. apply (announced_lower _ _ _ H) in Hy. pose proof (zlen_nonneg (samples_of_event e)). lia. }
  destruct e as [j f n|b j|l|l]; cbn [app].
  - destruct He as [-> _]. apply nondecreasing_cons; [eapply IH; exact H|exact Hl].
  - subst j. apply nondecreasing_cons; [eapply IH; exact H|exact Hl].
  - eapply IH; exact H.
  - eapply IH; exact H.
Qed.

(* ---------------- C04: cyclic order ---------------- *)

Lemma played_S l p k :
  played_in_order decode l p (S k) =
  played_in_order decode l p k ++
  match decode (cyclic_song l p (Z.of_nat k)) with Some _ => [cyclic_song l p (Z.of_nat k)] | None => [] end.
Proof.
  unfold played_in_order, upto. rewrite seq_S, !map_app, filter_app. cbn [plus map filter].
  destruct (decode (cyclic_song l p (Z.of_nat k))); reflexivity.
Qed.

Definition names_of (es : list event) : list song := map (fun x => snd (fst x)) (new_songs_of es).
Lemma names_of_app a b : names_of (a ++ b) = names_of a ++ names_of b.
Proof. unfold names_of. rewrite new_songs_of_app, map_app. reflexivity. Qed.

Definition InvCyc (l : list song) (p : Z) (s : pstate) (es : list event) : Prop :=
  songs s = l /\ tokens s = 0%nat /\ pending_jumps s = 0%nat /\ 0 <= position s /\ opening_ok s /\
  exists k : nat,
    names_of es = played_in_order decode l p k /\
    match at_pc s with
    | AtTop => position s mod zlen l = (p + Z.of_nat k) mod zlen l
    | Opening f => position s mod zlen l = (p + Z.of_nat k) mod zlen l /\ f = cyclic_song l p (Z.of_nat k)
    | Crashed => False
    | _ => (position s + 1) mod zlen l = (p + Z.of_nat k) mod zlen l
    end.

Definition quiet (a : action) : Prop := is_jump a = false /\ is_edit a = false.

Lemma cyclic_cong l q p k : q mod zlen l = (p + k) mod zlen l -> cyclic_song l q 0 = cyclic_song l p k.
Proof. unfold cyclic_song. intros H. rewrite Z.add_0_r, H. reflexivity. Qed.

Lemma mod_succ a b n : a mod n = b mod n -> (a + 1) mod n = (b + 1) mod n.
Proof. intros H. rewrite <- (Zplus_mod_idemp_l a), H, Zplus_mod_idemp_l. reflexivity. Qed.

Lemma cyclic_nonempty (l : list song) p k : l <> [] -> ~ In [] l -> cyclic_song l p k <> [].
Proof.
  intros Hne Hin E. apply Hin. rewrite <- E. unfold cyclic_song. apply nth_In.
  assert (Hpos : 0 < zlen l) by (apply zlen_pos; assumption).
  pose proof (Z.mod_pos_bound (p + k) (zlen l) Hpos). unfold zlen in *. lia.
Qed.

Lemma step_cyc l p s es a s' e :
  l <> [] -> ~ In [] l ->
  InvCyc l p s es -> quiet a -> pstep s a = Some (s', e) -> InvCyc l p s' (es ++ e).
Proof.
  intros Hne Hin (Hs & Ht & Hp & Hpos & Hop & k & Hk & Hpc) [Hj He] H.
  assert (Hpl : 0 < zlen l) by (apply zlen_pos; assumption).
  assert (Hop' : opening_ok s').
  { eapply (step_idx (idx_write s) s []); [|exact H].
    split; [exact Hop|]. split; [unfold zlen; cbn; lia|exact I]. }
  unfold InvCyc. rewrite names_of_app, Hk.
  inv_step H; psimpl; try discriminate;
  match goal with Hc : at_pc s = _ |- _ => rewrite Hc in Hpc | _ => idtac end.
  - rewrite Hs, next_song_nonneg in * by assumption. discriminate.
  - rewrite Hs, next_song_nonneg in * by assumption.
    match goal with Hx : Ok _ = Ok _ |- _ => injection Hx as Ha Hb end.
    exfalso. eapply cyclic_nonempty; [exact Hne|exact Hin|exact Hb].
  - rewrite Hs, next_song_nonneg in * by assumption.
    match goal with Hx : Ok _ = Ok _ |- _ => injection Hx as Ha Hb end.
    subst pos f. repeat split; try assumption; [apply Z.mod_pos_bound; lia|].
    exists k. rewrite app_nil_r. split; [reflexivity|]. rewrite Z.mod_mod by lia.
    split; [exact Hpc|apply cyclic_cong; exact Hpc].
  - destruct Hpc as [Hpc Hf]. repeat split; try assumption; try lia.
    exists (S k). rewrite played_S, <- Hf.
    match goal with Hd : decode f = None |- _ => rewrite Hd end.
    split; [reflexivity|]. replace (p + Z.of_nat (S k)) with (p + Z.of_nat k + 1) by lia.
    apply mod_succ; exact Hpc.
  - destruct Hpc as [Hpc Hf]. repeat split; try assumption.
    exists (S k). rewrite played_S, <- Hf.
    match goal with Hd : decode f = Some _ |- _ => rewrite Hd end.
    split; [cbn; rewrite (Hop f) by assumption; reflexivity|].
    replace (p + Z.of_nat (S k)) with (p + Z.of_nat k + 1) by lia.
    apply mod_succ; exact Hpc.
  - repeat split; try assumption. exists k. rewrite app_nil_r; auto.
  - repeat split; try assumption. exists k. rewrite app_nil_r; auto.
  - repeat split; try assumption. exists k. rewrite app_nil_r; auto.
  - repeat split; try assumption. exists k. cbn; rewrite app_nil_r; auto.
  - repeat split; try assumption. exists k. cbn; rewrite app_nil_r; auto.
  - repeat split; try assumption. exists k. cbn; rewrite app_nil_r; auto.
  - lia.
  - repeat split; try assumption; try lia. exists k. cbn; rewrite app_nil_r; auto.
  - repeat split; try assumption. exists k. cbn; rewrite app_nil_r; auto.
  - repeat split; try assumption. exists k. cbn; rewrite app_nil_r; auto.
Qed.

Lemma run_cyc l p s acts s' es :
  l <> [] -> ~ In [] l -> songs s = l -> position s = p -> 0 <= p -> at_pc s = AtTop ->
  tokens s = 0%nat -> pending_jumps s = 0%nat ->
  Forall quiet acts -> prun s acts = Some (s', es) -> InvCyc l p s' es.
Proof.
  intros Hne Hin Hs Hp Hp0 Hpc Ht Hpj Hq Hr. change es with ([] ++ es).
  eapply (prun_inv (InvCyc l p) quiet); [| |exact Hq|exact Hr].
  - intros; eapply step_cyc; eassumption.
  - repeat split; try assumption; try lia.
    + intros f Hf; congruence.
    + exists 0%nat. split; [reflexivity|]. rewrite Hpc. f_equal. lia.
Qed.

(* ---------------- progress of the loop ---------------- *)

Lemma loop_progress s : at_pc s <> Crashed -> exists a, is_loop_action a = true /\ pstep s a <> None.
Proof.
  intros H. destruct (at_pc s) as [ |f|r|r|r|r|r n ok| ] eqn:E; try congruence.
  - exists PNext. split; [reflexivity|]. unfold PlaylistModel.pstep. rewrite E.
    destruct (next_song _ _) as [[pos [|c f]]|]; congruence.
  - exists POpen. split; [reflexivity|]. unfold PlaylistModel.pstep. rewrite E.
    destruct (decode f); congruence.
  - exists PCmp. split; [reflexivity|]. unfold PlaylistModel.pstep. rewrite E.
    destruct (Bool.eqb _ _); congruence.
  - exists PTogStore. split; [reflexivity|]. unfold PlaylistModel.pstep. rewrite E. congruence.
  - exists PTogCall. split; [reflexivity|]. unfold PlaylistModel.pstep. rewrite E. congruence.
  - exists PBlock. split; [reflexivity|]. unfold PlaylistModel.pstep. rewrite E.
    destruct (playing s); congruence.
  - exists PCheck. split; [reflexivity|]. unfold PlaylistModel.pstep. rewrite E.
    destruct (0 <? tokens s)%nat; [congruence|]. destruct (negb ok || _)%bool; congruence.
Qed.

Lemma loop_action_unique s a b :
  is_loop_action a = true -> is_loop_action b = true ->
  pstep s a <> None -> pstep s b <> None -> a = b.
Proof.
  intros Ha Hb H1 H2. unfold PlaylistModel.pstep in *.
  destruct a; try discriminate Ha; destruct b; try discriminate Hb; try reflexivity;
    destruct (at_pc s); congruence.
Qed.

(* ---------------- C09: a song is streamed completely ---------------- *)

Lemma with_filler_app a b x y : with_filler a x -> with_filler b y -> with_filler (a ++ b) (x ++ y).
Proof.
  intros Ha Hb; induction Ha as [|z l out Hl IH|l out Hl IH].
  - exact Hb.
  - cbn [app]. constructor; exact IH.
  - rewrite <- app_assoc. constructor; exact IH.
Qed.
Lemma with_filler_refl l : with_filler l l.
Proof. induction l; constructor; assumption. Qed.
Lemma with_filler_nan : with_filler [] (nan_samples (Z.of_nat streamer_buffer_size)).
Proof.
  unfold nan_samples. rewrite Nat2Z.id. unfold streamer_buffer_size.
  rewrite <- (app_nil_r (repeat _ _)). constructor. constructor.
Qed.

Definition InvSong (l : list sample) (p0 : Z) (s : pstate) (es : list event) : Prop :=
  tokens s = 0%nat /\ pending_jumps s = 0%nat /\ new_songs_of es = [] /\
  match at_pc s with
  | AtTop => position s = p0 + 1 /\ exists body, stream_of es = body ++ nan_samples nan_break /\ with_filler l body
  | InSong r | TogStore r | TogCall r | BlockRead r =>
      position s = p0 /\ exists dn, l = dn ++ r /\ with_filler dn (stream_of es)
  | Checking r n ok =>
      position s = p0 /\ exists dn, l = dn ++ r /\ with_filler dn (stream_of es) /\
      (ok = false \/ (n < streamer_buffer_size)%nat -> r = [])
  | Opening _ => False
  | Crashed => True
  end.

Ltac nilr := change (stream_of []) with (@nil sample) in *; change (new_songs_of []) with (@nil (Z * song * Z)) in *;
  rewrite ?app_nil_r.

Lemma step_song l p0 s es a s' e :
  InvSong l p0 s es -> is_jump a = false -> is_pnext a = false ->
  pstep s a = Some (s', e) -> InvSong l p0 s' (es ++ e).
Proof.
  intros (Ht & Hp & Hn & Hpc) Hj Hnx H.
  unfold InvSong. rewrite new_songs_of_app, stream_of_app, Hn.
  inv_step H; psimpl; try discriminate;
  try match goal with Hc : at_pc s = _ |- _ => rewrite Hc in Hpc end; try contradiction.
  - nilr. auto.
  - nilr. auto.
  - nilr. auto.
  - unfold stream_of at 2, new_songs_of at 1. cbn [flat_map samples_of_event app]. rewrite app_nil_r. auto.
  - destruct Hpc as (Hq & dn & Hl & Hw). repeat split; try assumption.
    exists (dn ++ blk). split; [rewrite <- app_assoc; unfold blk; rewrite firstn_skipn; exact Hl|].
    split.
    + unfold stream_of at 2. cbn [flat_map samples_of_event]. rewrite app_nil_r.
      apply with_filler_app; [exact Hw|apply with_filler_refl].
    + intros Ho. apply skipn_all2.
      assert (Hlen : length blk = Nat.min streamer_buffer_size (length r)) by apply firstn_length.
      destruct Ho as [Ho|Ho].
      * apply negb_false_iff, Nat.eqb_eq in Ho. unfold streamer_buffer_size in *; lia.
      * unfold streamer_buffer_size in *; lia.
  - destruct Hpc as (Hq & dn & Hl & Hw). repeat split; try assumption.
    exists dn. split; [exact Hl|]. split.
    + unfold stream_of at 2. cbn [flat_map samples_of_event]. rewrite app_nil_r.
      rewrite <- (app_nil_r dn). apply with_filler_app; [exact Hw|apply with_filler_nan].
    + intros [Ho|Ho]; [discriminate|lia].
  - lia.
  - destruct Hpc as (Hq & dn & Hl & Hw & Hr). repeat split; try assumption; [lia|].
    exists (stream_of es). split.
    + unfold stream_of at 2. cbn [flat_map samples_of_event]. rewrite app_nil_r. reflexivity.
    + rewrite Hr in Hl by assumption. rewrite app_nil_r in Hl. subst l. exact Hw.
  - destruct Hpc as (Hq & dn & Hl & Hw & Hr). repeat split; try assumption.
    exists dn. nilr. auto.
  - nilr. destruct (at_pc s); auto.
  - repeat split; auto.
  - nilr. destruct (at_pc s); auto.
Qed.

Lemma run_song l s acts s' es :
  at_pc s = InSong l -> tokens s = 0%nat -> pending_jumps s = 0%nat ->
  Forall (fun a => is_jump a = false /\ is_pnext a = false) acts ->
  prun s acts = Some (s', es) -> InvSong l (position s) s' es.
Proof.
  intros Hpc Ht Hp Hok Hr. change es with ([] ++ es).
  eapply (prun_inv (InvSong l (position s)) (fun a => is_jump a = false /\ is_pnext a = false));
    [| |exact Hok|exact Hr].
  - intros s1 es1 a s2 e HI [H1 H2] H. eapply step_song; eassumption.
  - repeat split; try assumption. rewrite Hpc. split; [reflexivity|].
    exists []. split; [reflexivity|constructor].
Qed.

(* ---------------- C11: pause announcements ---------------- *)

Lemma alternating_snoc b l x :
  alternating b l -> x = match rev l with [] => b | y :: _ => negb y end -> alternating b (l ++ [x]).
Proof.
  revert b; induction l as [|y l IH]; intros b H Hx.
  - cbn in *. auto.
  - cbn [app alternating] in *. destruct H as [-> H]. split; [reflexivity|].
    apply IH; [exact H|]. rewrite Hx. cbn [rev].
    destruct (rev l) as [|z r] eqn:E; reflexivity.
Qed.

Lemma announced_paused_snoc es b i :
  announced_paused (es ++ [EToggle b i]) = negb b.
Proof. unfold announced_paused. rewrite toggles_of_app. cbn. rewrite rev_app_distr. reflexivity. Qed.
Lemma announced_paused_same es e : toggles_of e = [] -> announced_paused (es ++ e) = announced_paused es.
Proof. intros H. unfold announced_paused. rewrite toggles_of_app, H, app_nil_r. reflexivity. Qed.

Definition InvPause (inside : bool) (s : pstate) (es : list event) : Prop :=
  alternating false (map fst (toggles_of es)) /\
  match at_pc s with
  | TogStore _ => inside = true /\ playing s <> playing_last s /\ announced_paused es = negb (playing_last s)
  | TogCall _ => inside = true /\ playing s = playing_last s /\ announced_paused es = playing s
  | BlockRead _ => inside = true /\ playing s = playing_last s /\ announced_paused es = negb (playing_last s)
  | Crashed => True
  | _ => inside = false /\ announced_paused es = negb (playing_last s)
  end.

Definition inside_after (inside : bool) (a : action) : bool :=
  match a with PCmp => true | PBlock => false | _ => inside end.

Lemma step_pause inside s es a s' e :
  InvPause inside s es ->
  (match a with ASetPlaying _ => inside = false | _ => True end) ->
  pstep s a = Some (s', e) -> InvPause (inside_after inside a) s' (es ++ e).
Proof.
  intros [Halt Hpc] Hr H. unfold InvPause.
  inv_step H; psimpl; cbn [inside_after];
  try match goal with Hc : at_pc s = _ |- _ => rewrite Hc in Hpc end; 
  try (rewrite app_nil_r); auto.
  - rewrite toggles_of_app. cbn [toggles_of flat_map app]. rewrite app_nil_r.
    split; [exact Halt|].
    match goal with Hc : at_pc s = _ |- _ => rewrite Hc end.
    rewrite announced_paused_same by reflexivity. exact Hpc.
  - rewrite toggles_of_app. cbn [toggles_of flat_map app]. rewrite app_nil_r.
    split; [exact Halt|]. rewrite announced_paused_same by reflexivity. exact Hpc.
  - intuition.
  - intuition.
  - split; [exact Halt|]. destruct Hpc as (Hi & Hne & Ha). repeat split; [exact Hi|].
    rewrite Ha. destruct (playing s), (playing_last s); cbn; congruence.
  - destruct Hpc as (Hi & He & Ha). rewrite toggles_of_app, map_app. cbn [toggles_of flat_map app map fst].
    split.
    + apply alternating_snoc; [exact Halt|].
      unfold announced_paused in Ha. rewrite <- map_rev.
      destruct (rev (toggles_of es)) as [|[b j] r0]; cbn [map fst]; [|rewrite Ha]; congruence.
    + rewrite announced_paused_snoc, He. auto.
  - destruct Hpc as (Hi & He & Ha). rewrite toggles_of_app. cbn [toggles_of flat_map app]. rewrite app_nil_r.
    split; [exact Halt|]. rewrite announced_paused_same by reflexivity. auto.
  - destruct Hpc as (Hi & He & Ha). rewrite toggles_of_app. cbn [toggles_of flat_map app]. rewrite app_nil_r.
    split; [exact Halt|]. rewrite announced_paused_same by reflexivity. auto.
  - rewrite toggles_of_app. cbn [toggles_of flat_map app]. rewrite app_nil_r.
    split; [exact Halt|]. rewrite announced_paused_same by reflexivity. exact Hpc.
  - rewrite toggles_of_app. cbn [toggles_of flat_map app]. rewrite app_nil_r.
    split; [exact Halt|]. rewrite announced_paused_same by reflexivity. exact Hpc.
  - split; [exact Halt|]. subst inside. destruct (at_pc s); intuition congruence.
Qed.

Lemma run_pause acts : forall inside s es0 s' es,
  InvPause inside s es0 -> no_flag_race inside acts -> prun s acts = Some (s', es) ->
  exists inside', InvPause inside' s' (es0 ++ es).
Proof.
  induction acts as [|a acts IH]; intros inside s es0 s' es HI Hn Hr; cbn [PlaylistModel.prun] in Hr.
  - injection Hr as <- <-. rewrite app_nil_r. eauto.
  - destruct (pstep s a) as [[s1 e1]|] eqn:E; [|discriminate].
    destruct (prun s1 acts) as [[s2 e2]|] eqn:E2; [|discriminate].
    injection Hr as <- <-. rewrite app_assoc.
    eapply IH; [eapply step_pause; [exact HI| |exact E]| |exact E2].
    + destruct a; try exact I. cbn in Hn. apply Hn.
    + destruct a; cbn [no_flag_race inside_after] in *; try exact Hn. apply Hn.
Qed.

Lemma inv_pause_init l : InvPause false (new_playlist l) [].
Proof. unfold InvPause. cbn. auto. Qed.

(* ---------------- C63: CurrentSong ---------------- *)

Lemma last_announced_same es e : new_songs_of e = [] -> last_announced (es ++ e) = last_announced es.
Proof. intros H. unfold last_announced. rewrite new_songs_of_app, H, app_nil_r. reflexivity. Qed.

Definition InvCur (s : pstate) (es : list event) : Prop :=
  opening_ok s /\
  (streaming (at_pc s) = true -> last_announced es = Some (current_song s)).

Lemma step_cur s es a s' e : InvCur s es -> pstep s a = Some (s', e) -> InvCur s' (es ++ e).
Proof.
  intros [Hop Hc] H. split.
  { eapply (step_idx (idx_write s) s []); [|exact H].
    split; [exact Hop|]. split; [unfold zlen; cbn; lia|exact I]. }
  inv_step H; psimpl; cbn [streaming]; try discriminate; intros Hst;
    try match goal with Hx : at_pc s = _ |- _ => rewrite Hx in * end; try discriminate Hst;
    try (rewrite last_announced_same by reflexivity; apply Hc; first [exact Hst|reflexivity]).
  - unfold last_announced. rewrite new_songs_of_app. cbn. rewrite rev_app_distr. reflexivity.
Qed.

Lemma run_cur l acts s es :
  prun (new_playlist l) acts = Some (s, es) -> InvCur s es.
Proof.
  intros Hr. change es with ([] ++ es).
  eapply (prun_inv InvCur (fun _ => True)); [| |apply Forall_forall; auto|exact Hr].
  - intros; eapply step_cur; eassumption.
  - split; [intros f Hf; discriminate|discriminate].
Qed.

(* ---------------- C06: one jump ---------------- *)

Lemma block_count_app a b : block_count (a ++ b) = (block_count a + block_count b)%nat.
Proof. unfold block_count. rewrite filter_app, app_length. reflexivity. Qed.

Lemma before_first_song_none es : new_songs_of es = [] -> before_first_song es = es.
Proof.
  induction es as [|e es IH]; [reflexivity|]. intros H.
  destruct e; cbn in H; try discriminate; cbn [before_first_song]; rewrite IH by exact H; reflexivity.
Qed.
Lemma before_first_song_app es e :
  new_songs_of es <> [] -> before_first_song (es ++ e) = before_first_song es.
Proof.
  induction es as [|x es IH]; [cbn; congruence|]. intros H.
  destruct x; cbn [app before_first_song]; try reflexivity; rewrite IH; auto.
Qed.
Lemma before_first_song_block es e :
  new_songs_of es = [] -> (forall l, ~ In (EBlock l) e) ->
  (block_count (before_first_song (es ++ e)) <= block_count es)%nat.
Proof.
  intros Hn Hb. induction es as [|x es IH]; cbn [app].
  - induction e as [|y e IHe]; [cbn; lia|].
    assert (He : forall l, ~ In (EBlock l) e) by (intros l Hi; apply (Hb l); right; exact Hi).
    specialize (IHe He). destruct y; cbn [before_first_song]; unfold block_count in *; cbn [filter length] in *; try lia.
    exfalso. apply (Hb l). left; reflexivity.
  - destruct x; cbn in Hn; try discriminate; specialize (IH Hn);
      unfold block_count in *; cbn [before_first_song filter length] in *; lia.
Qed.

Definition InvJump (l : list song) (p : Z) (s : pstate) (es : list event) : Prop :=
  (opening_ok s /\ songs s = l /\ pending_jumps s = 0%nat /\ position s = p /\ tokens s = 1%nat /\
   names_of es = [] /\
   match at_pc s with
   | InSong _ | TogStore _ | TogCall _ | BlockRead _ => block_count es = 0%nat
   | Checking _ _ _ => (block_count es <= 1)%nat
   | _ => False
   end) \/
  (InvCyc l p s es /\ (block_count (before_first_song es) <= 1)%nat /\
   (new_songs_of es = [] -> streaming (at_pc s) = false)).

Lemma names_nil es : names_of es = [] <-> new_songs_of es = [].
Proof. unfold names_of. split; intros H; [apply map_eq_nil in H; exact H|rewrite H; reflexivity]. Qed.

Lemma step_jump l p s es a s' e :
  l <> [] -> ~ In [] l -> 0 <= p ->
  InvJump l p s es -> quiet a -> pstep s a = Some (s', e) -> InvJump l p s' (es ++ e).
Proof.
  intros Hne Hin Hp0 [HI|HI] Hq H.
  - destruct HI as (Hop & Hs & Hp & Hpos & Ht & Hn & Hpc).
    assert (Hop' : opening_ok s').
    { eapply (step_idx (idx_write s) s []); [|exact H].
      split; [exact Hop|]. split; [unfold zlen; cbn; lia|exact I]. }
    destruct Hq as [Hj He].
    inv_step H; psimpl; try discriminate;
    try match goal with Hc : at_pc s = _ |- _ => rewrite Hc in Hpc end; try contradiction; try lia.
    1-6: left; repeat split; try assumption; psimpl;
      rewrite ?names_of_app, ?block_count_app, ?Hn; cbn; try reflexivity; lia.
    + right. split; [|split].
      * split; [exact Hs|]. split; [psimpl; lia|]. split; [exact Hp|]. split; [psimpl; lia|].
        split; [exact Hop'|].
        exists 0%nat. rewrite names_of_app, Hn. split; [reflexivity|]. psimpl. f_equal. lia.
      * apply names_nil in Hn. etransitivity; [apply before_first_song_block; [exact Hn|]|exact Hpc].
        intros l0 [Hx|[]]; discriminate.
      * reflexivity.
    + left. repeat split; try assumption; psimpl. rewrite ?names_of_app, Hn; reflexivity.
      destruct (at_pc s); rewrite ?app_nil_r; auto.
  - destruct HI as (Hc & Hb & Hst). right. split; [eapply step_cyc; eassumption|].
    assert (Hes : names_of es = [] -> forall l0, ~ In (EBlock l0) e).
    { intros Hn l0 Hi. apply names_nil in Hn. specialize (Hst Hn).
      inv_step H; cbn [In] in Hi; try (destruct Hi as [Hi|Hi]); try discriminate; try contradiction;
      match goal with Hx : at_pc s = BlockRead _ |- _ => rewrite Hx in Hst; discriminate end. }
    destruct (new_songs_of es) as [|x r] eqn:En.
    + split.
      * pose proof (before_first_song_none es En) as Hbf. rewrite Hbf in Hb.
        etransitivity; [apply before_first_song_block; [exact En|]|exact Hb].
        apply Hes. apply names_nil. exact En.
      * specialize (Hst eq_refl). rewrite new_songs_of_app, En.
        inv_step H; psimpl; cbn [streaming]; try reflexivity; cbn; try discriminate; try (intros _; exact Hst);
        match goal with Hx : at_pc s = _ |- _ => rewrite Hx in Hst; discriminate end.
    + rewrite before_first_song_app by congruence. split; [exact Hb|].
      rewrite new_songs_of_app, En. discriminate.
Qed.

Lemma run_jump l p s acts s' es :
  l <> [] -> ~ In [] l -> 0 <= p -> songs s = l ->
  streaming (at_pc s) = true -> tokens s = 0%nat -> pending_jumps s = 0%nat ->
  Forall quiet acts ->
  prun s (ASetPosWrite p :: ASetPosSend :: acts) = Some (s', es) ->
  InvJump l p s' es.
Proof.
  intros Hne Hin Hp0 Hs Hst Ht Hp Hq Hr.
  change (ASetPosWrite p :: ASetPosSend :: acts) with ([ASetPosWrite p; ASetPosSend] ++ acts) in Hr.
  rewrite prun_app in Hr.
  cbn [PlaylistModel.prun] in Hr.
  assert (E1 : pstep s (ASetPosWrite p) =
    Some (set_tokens (set_position s p) (tokens s) (S (pending_jumps s)), [])).
  { unfold PlaylistModel.pstep. destruct (at_pc s); try reflexivity; discriminate. }
  rewrite E1 in Hr.
  assert (E2 : pstep (set_tokens (set_position s p) (tokens s) (S (pending_jumps s))) ASetPosSend =
    Some (set_tokens (set_position s p) 1 0, [])).
  { unfold PlaylistModel.pstep. psimpl. rewrite Ht, Hp. destruct (at_pc s); try reflexivity; discriminate. }
  rewrite E2 in Hr. cbn [app] in Hr.
  destruct (prun (set_tokens (set_position s p) 1 0) acts) as [[s2 e2]|] eqn:E; [|discriminate].
  injection Hr as <- <-. change e2 with ([] ++ e2).
  eapply (prun_inv (InvJump l p) quiet); [| |exact Hq|exact E].
  - intros; eapply step_jump; eassumption.
  - left. psimpl. repeat split; try assumption; try reflexivity.
    + intros f Hf. psimpl. rewrite Hf in Hst. discriminate.
    + destruct (at_pc s); try discriminate; reflexivity || (cbn; lia).
Qed.

(* ---------------- reaching a song, C07 and C12 ---------------- *)

Lemma playable_distance l p x : In x l -> exists d : nat, (d < length l)%nat /\ cyclic_song l p (Z.of_nat d) = x.
Proof.
  intros Hx. assert (Hne : l <> []) by (intros ->; destruct Hx).
  pose proof (zlen_pos l Hne) as Hpos.
  apply (In_nth l x []) in Hx. destruct Hx as (i & Hi & Hnth).
  exists (Z.to_nat ((Z.of_nat i - p) mod zlen l)).
  pose proof (Z.mod_pos_bound (Z.of_nat i - p) (zlen l) Hpos) as Hb. split; [unfold zlen in *; lia|].
  unfold cyclic_song. rewrite Z2Nat.id by lia. rewrite Zplus_mod_idemp_r.
  replace (p + (Z.of_nat i - p)) with (Z.of_nat i) by lia.
  rewrite Z.mod_small by (unfold zlen; lia). rewrite Nat2Z.id. exact Hnth.
Qed.

Definition loops (acts : list action) : Prop := Forall (fun a => is_loop_action a = true) acts.

Lemma reach_song d : forall s x,
  at_pc s = AtTop -> 0 <= position s -> songs s <> [] -> ~ In [] (songs s) ->
  decode (cyclic_song (songs s) (position s) (Z.of_nat d)) = Some x ->
  exists acts s' es r, loops acts /\ (length acts <= 2 * d + 2)%nat /\
    prun s acts = Some (s', es) /\ at_pc s' = InSong r /\
    tokens s' = tokens s /\ pending_jumps s' = pending_jumps s.
Proof.
  induction d as [|d IH]; intros s x Hpc Hpos Hne Hin Hd;
  pose proof (cyclic_nonempty (songs s) (position s) 0 Hne Hin) as Hc0;
  destruct (cyclic_song (songs s) (position s) 0) as [|c0 f0] eqn:Ec; try congruence;
  (assert (E1 : pstep s PNext = Some (set_pc (set_current (set_position s (position s mod zlen (songs s))) (c0 :: f0)) (Opening (c0 :: f0)), []))
    by (unfold PlaylistModel.pstep; rewrite Hpc, next_song_nonneg, Ec by assumption; reflexivity)).
  - change (Z.of_nat 0) with 0 in Hd. rewrite Ec in Hd.
    exists [PNext; POpen]. eexists. eexists. exists x.
    split; [repeat constructor|]. split; [cbn; lia|].
    cbn [PlaylistModel.prun]. rewrite E1.
    unfold PlaylistModel.pstep. psimpl. rewrite Hd.
    split; [reflexivity|]. psimpl. auto.
  - destruct (decode (c0 :: f0)) as [y|] eqn:Ed.
    + exists [PNext; POpen]. eexists. eexists. exists y.
      split; [repeat constructor|]. split; [cbn; lia|].
      cbn [PlaylistModel.prun]. rewrite E1.
      unfold PlaylistModel.pstep. psimpl. rewrite Ed.
      split; [reflexivity|]. psimpl. auto.
    + set (s1 := set_pc (set_current (set_position s (position s mod zlen (songs s))) (c0 :: f0)) (Opening (c0 :: f0))) in *.
      set (s2 := set_pc (set_position s1 (position s1 + 1)) AtTop).
      assert (E2 : pstep s1 POpen = Some (s2, [])).
      { unfold PlaylistModel.pstep. change (at_pc s1) with (Opening (c0 :: f0)). cbn iota beta. rewrite Ed. reflexivity. }
      pose proof (zlen_pos (songs s) Hne) as Hzp.
      pose proof (Z.mod_pos_bound (position s) (zlen (songs s)) Hzp) as Hmb.
      destruct (IH s2 x) as (acts & s' & es & r & Hl & Hlen & Hr & Hp' & Ht & Hpj).
      * reflexivity.
      * unfold s2, s1. psimpl. lia.
      * exact Hne.
      * exact Hin.
      * rewrite <- Hd. f_equal. unfold s2, s1. psimpl.
        rewrite cyclic_shift. rewrite cyclic_mod by exact Hne. f_equal. lia.
      * exists (PNext :: POpen :: acts). exists s', es, r.
        split; [repeat constructor; exact Hl|]. split; [cbn [length]; lia|].
        cbn [PlaylistModel.prun]. rewrite E1, E2, Hr. cbn [app]. auto.
Qed.

Lemma nan_samples_nonempty c : 0 < c -> nan_samples c <> [].
Proof. intros H E. apply (f_equal (@length _)) in E. unfold nan_samples in E. rewrite repeat_length in E. cbn in E. lia. Qed.

Lemma stream_of_cons e es : stream_of (e :: es) = samples_of_event e ++ stream_of es.
Proof. reflexivity. Qed.

(** One iteration of pushStreamer from its block on. *)
Lemma block_check r s :
  at_pc s = BlockRead r ->
  exists s' es, prun s [PBlock; PCheck] = Some (s', es) /\
    (0 < nan_break -> stream_of es <> []) /\
    (tokens s <> 0%nat -> at_pc s' = AtTop /\ tokens s' = (tokens s - 1)%nat /\ pending_jumps s' = pending_jumps s).
Proof.
  intros Hpc. cbn [PlaylistModel.prun]. unfold PlaylistModel.pstep at 1. rewrite Hpc.
  destruct (playing s) eqn:Epl.
  - unfold PlaylistModel.pstep. psimpl.
    destruct (Nat.ltb_spec 0 (tokens s)) as [Ht|Ht].
    + eexists. eexists. split; [reflexivity|]. split.
      * intros Hb. cbn [app]. rewrite !stream_of_cons. cbn [samples_of_event].
        intros E. apply app_eq_nil in E. destruct E as [_ E]. apply app_eq_nil in E.
        eapply nan_samples_nonempty; [exact Hb|apply E].
      * intros _. psimpl. auto.
    + destruct (negb (negb (Nat.eqb (length (firstn streamer_buffer_size r)) 0)) ||
               (length (firstn streamer_buffer_size r) <? streamer_buffer_size)%nat)%bool eqn:Ec.
      * eexists. eexists. split; [reflexivity|]. split.
        -- intros Hb. cbn [app]. rewrite !stream_of_cons. cbn [samples_of_event].
           intros E. apply app_eq_nil in E. destruct E as [_ E]. apply app_eq_nil in E.
           eapply nan_samples_nonempty; [exact Hb|apply E].
        -- intros; lia.
      * eexists. eexists. split; [reflexivity|]. split; [|intros; lia].
        intros _. cbn [app]. rewrite stream_of_cons. cbn [samples_of_event].
        intros E. apply app_eq_nil in E. destruct E as [E _]. rewrite E in Ec. discriminate.
  - unfold PlaylistModel.pstep. psimpl.
    destruct (Nat.ltb_spec 0 (tokens s)) as [Ht|Ht].
    + eexists. eexists. split; [reflexivity|]. split.
      * intros _. cbn [app]. rewrite !stream_of_cons. cbn [samples_of_event].
        intros E. apply app_eq_nil in E. destruct E as [E _].
        eapply nan_samples_nonempty; [|exact E]. unfold streamer_buffer_size; lia.
      * intros _. psimpl. auto.
    + rewrite Nat.ltb_irrefl. cbn [negb orb].
      eexists. eexists. split; [reflexivity|]. split; [|intros; lia].
      intros _. cbn [app]. rewrite !stream_of_cons. cbn [samples_of_event].
        intros E. apply app_eq_nil in E. destruct E as [E _].
        eapply nan_samples_nonempty; [|exact E]. unfold streamer_buffer_size; lia.
Qed.

Definition iter_result (s s' : pstate) (es : list event) : Prop :=
  (0 < nan_break -> stream_of es <> []) /\
  (tokens s <> 0%nat -> at_pc s' = AtTop /\ tokens s' = (tokens s - 1)%nat /\ pending_jumps s' = pending_jumps s).

Lemma loop_iteration s :
  match at_pc s with InSong _ | TogStore _ | TogCall _ | BlockRead _ => True | _ => False end ->
  exists acts s' es, loops acts /\ (length acts <= 5)%nat /\ prun s acts = Some (s', es) /\ iter_result s s' es.
Proof.
  intros H.
  assert (HB : forall s0 r, at_pc s0 = BlockRead r -> tokens s0 = tokens s -> pending_jumps s0 = pending_jumps s ->
    exists s' es, prun s0 [PBlock; PCheck] = Some (s', es) /\ iter_result s s' es).
  { intros s0 r Hp Ht Hpj. destruct (block_check r s0 Hp) as (s' & es & Hr & Ha & Hb).
    exists s', es. split; [exact Hr|]. split; [exact Ha|]. rewrite <- Ht, <- Hpj. exact Hb. }
  assert (HC : forall s0 r, at_pc s0 = TogCall r -> tokens s0 = tokens s -> pending_jumps s0 = pending_jumps s ->
    exists s' es, prun s0 [PTogCall; PBlock; PCheck] = Some (s', es) /\ iter_result s s' es).
  { intros s0 r Hp Ht Hpj.
    destruct (HB (set_pc s0 (BlockRead r)) r) as (s' & es & Hr & Ha); try assumption; try reflexivity.
    exists s', ([EToggle (playing s0) (idx_write s0)] ++ es).
    change [PTogCall; PBlock; PCheck] with ([PTogCall] ++ [PBlock; PCheck]). rewrite prun_app.
    cbn [PlaylistModel.prun]. unfold PlaylistModel.pstep at 1. rewrite Hp. cbn [PlaylistModel.prun] in Hr. rewrite Hr.
    split; [reflexivity|]. split; [|apply Ha]. intros Hb. rewrite stream_of_app. apply Ha. exact Hb. }
  assert (HS : forall s0 r, at_pc s0 = TogStore r -> tokens s0 = tokens s -> pending_jumps s0 = pending_jumps s ->
    exists s' es, prun s0 [PTogStore; PTogCall; PBlock; PCheck] = Some (s', es) /\ iter_result s s' es).
  { intros s0 r Hp Ht Hpj.
    destruct (HC (set_pc (set_playing_last s0 (playing s0)) (TogCall r)) r) as (s' & es & Hr & Ha); try assumption; try reflexivity.
    exists s', es.
    change [PTogStore; PTogCall; PBlock; PCheck] with ([PTogStore] ++ [PTogCall; PBlock; PCheck]). rewrite prun_app.
    cbn [PlaylistModel.prun]. unfold PlaylistModel.pstep at 1. rewrite Hp. cbn [PlaylistModel.prun] in Hr. rewrite Hr.
    split; [reflexivity|exact Ha]. }
  destruct (at_pc s) as [ |f|r|r|r|r|r n ok| ] eqn:E; try contradiction.
  - destruct (Bool.eqb (playing s) (playing_last s)) eqn:Eb.
    + destruct (HB (set_pc s (BlockRead r)) r) as (s' & es & Hr & Ha); try reflexivity.
      exists [PCmp; PBlock; PCheck], s', es. split; [repeat constructor|]. split; [cbn; lia|].
      change [PCmp; PBlock; PCheck] with ([PCmp] ++ [PBlock; PCheck]). rewrite prun_app.
      cbn [PlaylistModel.prun]. unfold PlaylistModel.pstep at 1. rewrite E, Eb.
      cbn [PlaylistModel.prun] in Hr. rewrite Hr. split; [reflexivity|exact Ha].
    + destruct (HS (set_pc s (TogStore r)) r) as (s' & es & Hr & Ha); try reflexivity.
      exists [PCmp; PTogStore; PTogCall; PBlock; PCheck], s', es. split; [repeat constructor|]. split; [cbn; lia|].
      change [PCmp; PTogStore; PTogCall; PBlock; PCheck] with ([PCmp] ++ [PTogStore; PTogCall; PBlock; PCheck]).
      rewrite prun_app.
      cbn [PlaylistModel.prun]. unfold PlaylistModel.pstep at 1. rewrite E, Eb.
      cbn [PlaylistModel.prun] in Hr. rewrite Hr. split; [reflexivity|exact Ha].
  - destruct (HS s r) as (s' & es & Hr & Ha); try assumption; try reflexivity.
    eexists; exists s', es. split; [|split; [|split; [exact Hr|exact Ha]]]; [repeat constructor|cbn; lia].
  - destruct (HC s r) as (s' & es & Hr & Ha); try assumption; try reflexivity.
    eexists; exists s', es. split; [|split; [|split; [exact Hr|exact Ha]]]; [repeat constructor|cbn; lia].
  - destruct (HB s r) as (s' & es & Hr & Ha); try assumption; try reflexivity.
    eexists; exists s', es. split; [|split; [|split; [exact Hr|exact Ha]]]; [repeat constructor|cbn; lia].
Qed.

(** From the top of the loop with something playable. *)
Lemma top_iteration s x :
  at_pc s = AtTop -> 0 <= position s -> ~ In [] (songs s) -> In x (songs s) -> decode x <> None ->
  exists acts s' es, loops acts /\ (length acts <= 2 * length (songs s) + 5)%nat /\
    prun s acts = Some (s', es) /\ iter_result s s' es.
Proof.
  intros Hpc Hpos Hin Hx Hd.
  assert (Hne : songs s <> []) by (intros E; rewrite E in Hx; destruct Hx).
  destruct (playable_distance (songs s) (position s) x Hx) as (d & Hdl & Hcy).
  destruct (decode x) as [y|] eqn:Ed; [|congruence].
  destruct (reach_song d s y) as (a1 & s1 & e1 & r & Hl1 & Hn1 & Hr1 & Hp1 & Ht1 & Hpj1); try assumption.
  { rewrite Hcy; exact Ed. }
  destruct (loop_iteration s1) as (a2 & s2 & e2 & Hl2 & Hn2 & Hr2 & Hi); [rewrite Hp1; exact I|].
  exists (a1 ++ a2), s2, (e1 ++ e2). split; [apply Forall_app; auto|].
  split; [rewrite app_length; lia|]. split; [rewrite prun_app, Hr1, Hr2; reflexivity|].
  destruct Hi as [Hi1 Hi2]. split.
  - intros Hb E. rewrite stream_of_app in E. apply app_eq_nil in E. apply (Hi1 Hb). apply E.
  - rewrite <- Ht1, <- Hpj1. exact Hi2.
Qed.

(** C12 *)
Lemma keeps_producing s :
  0 < nan_break -> at_pc s <> Crashed -> 0 <= position s -> ~ In [] (songs s) ->
  (songs s = [] \/ exists x, In x (songs s) /\ decode x <> None) ->
  exists acts s' es, loops acts /\ (length acts <= 2 * length (songs s) + 6)%nat /\
    prun s acts = Some (s', es) /\ stream_of es <> [].
Proof.
  intros Hb Hnc Hpos Hin Hsome.
  assert (Htop : forall s0, at_pc s0 = AtTop -> 0 <= position s0 -> songs s0 = songs s ->
    exists acts s' es, loops acts /\ (length acts <= 2 * length (songs s) + 5)%nat /\
    prun s0 acts = Some (s', es) /\ stream_of es <> []).
  { intros s0 Hpc Hp0 Hs0. destruct Hsome as [He|(x & Hx & Hd)].
    - exists [PNext]. eexists. eexists. split; [repeat constructor|]. split; [cbn [length]; lia|].
      cbn [PlaylistModel.prun]. unfold PlaylistModel.pstep. rewrite Hpc, Hs0, He.
      unfold next_song. change (zlen (@nil song) =? 0) with true. cbn iota beta.
      split; [reflexivity|]. rewrite app_nil_r, stream_of_cons. cbn [samples_of_event].
      change (stream_of []) with (@nil sample). rewrite app_nil_r.
      apply nan_samples_nonempty. unfold no_song_nan_sample_count. lia.
    - destruct (top_iteration s0 x) as (acts & s' & es & H1 & H2 & H3 & H4 & _); rewrite ?Hs0; try assumption.
      rewrite Hs0 in H2. exists acts, s', es. auto. }
  destruct (at_pc s) as [ |f|r|r|r|r|r n ok| ] eqn:E; try congruence.
  - destruct (Htop s) as (acts & s' & es & H1 & H2 & H3 & H4); auto.
    exists acts, s', es. split; [exact H1|]. split; [lia|]. auto.
  - destruct (decode f) as [l|] eqn:Ed.
    + destruct (loop_iteration (set_pc s (InSong l))) as (acts & s' & es & H1 & H2 & H3 & H4 & _); [exact I|].
      exists (POpen :: acts), s', ([ENewSong (idx_write s) (current_song s) (zlen l)] ++ es).
      split; [constructor; auto|]. split; [cbn [length]; lia|].
      cbn [PlaylistModel.prun]. unfold PlaylistModel.pstep at 1. rewrite E, Ed, H3.
      split; [reflexivity|]. rewrite stream_of_app. apply H4. exact Hb.
    + destruct (Htop (set_pc (set_position s (position s + 1)) AtTop)) as (acts & s' & es & H1 & H2 & H3 & H4);
        psimpl; auto; [lia|].
      exists (POpen :: acts), s', es.
      split; [constructor; auto|]. split; [cbn [length]; lia|].
      cbn [PlaylistModel.prun]. unfold PlaylistModel.pstep at 1. rewrite E, Ed, H3.
      split; [reflexivity|exact H4].
  - destruct (loop_iteration s) as (acts & s' & es & H1 & H2 & H3 & H4 & _); [rewrite E; exact I|].
    exists acts, s', es. split; [exact H1|]. split; [lia|]. auto.
  - destruct (loop_iteration s) as (acts & s' & es & H1 & H2 & H3 & H4 & _); [rewrite E; exact I|].
    exists acts, s', es. split; [exact H1|]. split; [lia|]. auto.
  - destruct (loop_iteration s) as (acts & s' & es & H1 & H2 & H3 & H4 & _); [rewrite E; exact I|].
    exists acts, s', es. split; [exact H1|]. split; [lia|]. auto.
  - destruct (loop_iteration s) as (acts & s' & es & H1 & H2 & H3 & H4 & _); [rewrite E; exact I|].
    exists acts, s', es. split; [exact H1|]. split; [lia|]. auto.
  - destruct (pstep s PCheck) as [[s1 e1]|] eqn:Es.
    2:{ unfold PlaylistModel.pstep in Es. rewrite E in Es.
        destruct (0 <? tokens s)%nat; [discriminate|]. destruct (_ || _)%bool; discriminate. }
    pose proof Es as Es'. unfold PlaylistModel.pstep in Es'. rewrite E in Es'.
    assert (Hcase : (at_pc s1 = InSong r /\ e1 = []) \/ stream_of e1 <> []).
    { destruct (0 <? tokens s)%nat; [|destruct (_ || _)%bool]; injection Es' as <- <-; auto;
        right; rewrite stream_of_cons; cbn [samples_of_event]; change (stream_of []) with (@nil sample);
        rewrite app_nil_r; apply nan_samples_nonempty; exact Hb. }
    destruct Hcase as [[Hc ->]|Hc].
    + destruct (loop_iteration s1) as (acts & s' & es & H1 & H2 & H3 & H4 & _); [rewrite Hc; exact I|].
      exists (PCheck :: acts), s', es. split; [constructor; auto|]. split; [cbn [length]; lia|].
      cbn [PlaylistModel.prun]. rewrite Es, H3. split; [reflexivity|]. apply H4; exact Hb.
    + exists [PCheck], s1, e1. split; [repeat constructor|]. split; [cbn [length]; lia|].
      cbn [PlaylistModel.prun]. rewrite Es, app_nil_r. auto.
Qed.

(** C12: nothing playable, the loop spins without producing anything. *)
Lemma starvation s acts s' es :
  at_pc s = AtTop -> songs s <> [] -> ~ In [] (songs s) -> 0 <= position s ->
  (forall x, In x (songs s) -> decode x = None) ->
  loops acts -> prun s acts = Some (s', es) -> stream_of es = [].
Proof.
  intros Hpc Hne Hin Hpos Hd Hl Hr.
  set (I := fun (s1 : pstate) (es1 : list event) =>
    songs s1 = songs s /\ 0 <= position s1 /\ stream_of es1 = [] /\
    match at_pc s1 with AtTop => True | Opening f => decode f = None | _ => False end).
  assert (HI : I s' ([] ++ es)).
  { eapply (prun_inv I (fun a => is_loop_action a = true)); [| |exact Hl|exact Hr].
    - intros s1 es1 a s2 e (Hs & Hp & He & Hc) Ha H. unfold I.
      inv_step H; psimpl; try discriminate;
      try match goal with Hx : at_pc s1 = _ |- _ => rewrite Hx in Hc end; try contradiction; rewrite ?app_nil_r.
      + rewrite Hs, next_song_nonneg in * by assumption. discriminate.
      + rewrite Hs, next_song_nonneg in * by assumption.
        match goal with Hx : Ok _ = Ok _ |- _ => injection Hx as Hy1 Hy2 end.
        exfalso. eapply cyclic_nonempty; [exact Hne|exact Hin|exact Hy2].
      + rewrite Hs, next_song_nonneg in * by assumption.
        match goal with Hx : Ok _ = Ok _ |- _ => injection Hx as Hy1 Hy2 end.
        subst f. split; [first [exact Hs|reflexivity]|]. pose proof (zlen_pos (songs s) Hne).
        pose proof (Z.mod_pos_bound (position s1) (zlen (songs s)) ltac:(lia)).
        split; [lia|]. split; [exact He|]. apply Hd.
        unfold cyclic_song. apply nth_In. rewrite Z.add_0_r. unfold zlen in *. lia.
      + repeat split; auto; lia.
      + congruence.
    - unfold I. rewrite Hpc. repeat split; auto. }
  apply HI.
Qed.

(** C07: while nothing is queued the token channel never drains. *)
Lemma empty_no_drain s acts s' es :
  songs s = [] -> streaming (at_pc s) = false -> (forall f, at_pc s <> Opening f) -> (2 <= tokens s)%nat ->
  Forall (fun a => is_edit a = false) acts ->
  prun s acts = Some (s', es) -> pstep s' ASetPosSend = None.
Proof.
  intros Hs Hst Hop Ht Hok Hr.
  set (I := fun (s1 : pstate) (es1 : list event) =>
    songs s1 = [] /\ streaming (at_pc s1) = false /\ (forall f, at_pc s1 <> Opening f) /\ (2 <= tokens s1)%nat).
  assert (HI : I s' ([] ++ es)).
  { eapply (prun_inv I (fun a => is_edit a = false)); [| |exact Hok|exact Hr].
    - intros s1 es1 a s2 e (Hs1 & Hst1 & Hop1 & Ht1) Ha H. unfold I.
      inv_step H; psimpl; try discriminate;
      try match goal with Hx : at_pc s1 = _ |- _ => rewrite Hx in * end; cbn [streaming] in *; try discriminate; try lia.
      + repeat split; auto. congruence.
      + repeat split; auto.
      + rewrite Hs1 in *. unfold next_song in *. cbn in *. congruence.
      + exfalso. eapply Hop1; reflexivity.
      + exfalso. eapply Hop1; reflexivity.
      + repeat split; auto.
      + repeat split; auto.
    - repeat split; auto. }
  destruct HI as (_ & _ & _ & H2). unfold PlaylistModel.pstep.
  destruct (at_pc s'); try reflexivity; destruct (pending_jumps s'); try reflexivity;
  destruct (Nat.ltb_spec (tokens s') 2); try lia; reflexivity.
Qed.

(** C07: a waiting jump is let through as soon as some song streams. *)
Lemma jump_let_through s :
  at_pc s <> Crashed -> 0 <= position s -> ~ In [] (songs s) ->
  (exists x, In x (songs s) /\ decode x <> None) -> (tokens s <= 2)%nat -> (0 < pending_jumps s)%nat ->
  exists acts s' es, loops acts /\ (length acts <= 2 * length (songs s) + 6)%nat /\
    prun s acts = Some (s', es) /\ pstep s' ASetPosSend <> None.
Proof.
  intros Hnc Hpos Hin (x & Hx & Hd) Ht Hp.
  assert (Hen : forall s0, at_pc s0 <> Crashed -> (tokens s0 < 2)%nat -> (0 < pending_jumps s0)%nat -> pstep s0 ASetPosSend <> None).
  { intros s0 H1 H2 H3. unfold PlaylistModel.pstep.
    destruct (pending_jumps s0); [lia|]. destruct (Nat.ltb_spec (tokens s0) 2); [|lia].
    destruct (at_pc s0); congruence. }
  destruct (Nat.ltb_spec (tokens s) 2) as [Hlt|Hge].
  { exists [], s, []. split; [constructor|]. split; [cbn; lia|]. split; [reflexivity|]. apply Hen; assumption. }
  assert (Hfin : forall s0 s' es, iter_result s0 s' es -> tokens s0 = tokens s -> pending_jumps s0 = pending_jumps s ->
     pstep s' ASetPosSend <> None).
  { intros s0 s' es [_ Hi] H1 H2. destruct Hi as (Ha & Hb & Hc); [lia|].
    apply Hen; [congruence|lia|lia]. }
  destruct (at_pc s) as [ |f|r|r|r|r|r n ok| ] eqn:E; try congruence.
  - destruct (top_iteration s x) as (acts & s' & es & H1 & H2 & H3 & H4); try assumption.
    exists acts, s', es. split; [exact H1|]. split; [lia|]. split; [exact H3|]. eapply Hfin; eauto.
  - destruct (decode f) as [l|] eqn:Ed.
    + destruct (loop_iteration (set_pc s (InSong l))) as (acts & s' & es & H1 & H2 & H3 & H4); [exact I|].
      exists (POpen :: acts), s', ([ENewSong (idx_write s) (current_song s) (zlen l)] ++ es).
      split; [constructor; auto|]. split; [cbn [length]; lia|].
      cbn [PlaylistModel.prun]. unfold PlaylistModel.pstep at 1. rewrite E, Ed, H3.
      split; [reflexivity|]. eapply Hfin; eauto.
    + destruct (top_iteration (set_pc (set_position s (position s + 1)) AtTop) x) as (acts & s' & es & H1 & H2 & H3 & H4);
        psimpl; auto; [lia|].
      exists (POpen :: acts), s', es.
      split; [constructor; auto|]. split; [cbn [length]; lia|].
      cbn [PlaylistModel.prun]. unfold PlaylistModel.pstep at 1. rewrite E, Ed, H3.
      split; [reflexivity|]. eapply Hfin; eauto.
  - destruct (loop_iteration s) as (acts & s' & es & H1 & H2 & H3 & H4); [rewrite E; exact I|].
    exists acts, s', es. split; [exact H1|]. split; [lia|]. split; [exact H3|]. eapply Hfin; eauto.
  - destruct (loop_iteration s) as (acts & s' & es & H1 & H2 & H3 & H4); [rewrite E; exact I|].
    exists acts, s', es. split; [exact H1|]. split; [lia|]. split; [exact H3|]. eapply Hfin; eauto.
  - destruct (loop_iteration s) as (acts & s' & es & H1 & H2 & H3 & H4); [rewrite E; exact I|].
    exists acts, s', es. split; [exact H1|]. split; [lia|]. split; [exact H3|]. eapply Hfin; eauto.
  - destruct (loop_iteration s) as (acts & s' & es & H1 & H2 & H3 & H4); [rewrite E; exact I|].
    exists acts, s', es. split; [exact H1|]. split; [lia|]. split; [exact H3|]. eapply Hfin; eauto.
  - exists [PCheck]. eexists. eexists. split; [repeat constructor|]. split; [cbn [length]; lia|].
    cbn [PlaylistModel.prun]. unfold PlaylistModel.pstep at 1. rewrite E.
    destruct (Nat.ltb_spec 0 (tokens s)); [|lia].
    split; [reflexivity|]. apply Hen; psimpl; [discriminate|lia|lia].
Qed.

(* ---------------- C08: edits elsewhere ---------------- *)

Lemma apply_edit_list_edit l e l' r : apply_edit l e = Ok (l', r) -> list_edit l e l' r.
Proof.
  intros H. destruct e as [x|x i|i].
  - cbn in H. injection H as <- <-. constructor.
  - destruct (apply_edit_spec l (EInsert x i)) as (l2 & r2 & H2 & H3); [cbn; auto|].
    rewrite H in H2. injection H2 as -> ->. exact H3.
  - destruct l as [|y l0]; [cbn in H; injection H as <- <-; constructor|].
    destruct (Z.eq_dec i (zlen (y :: l0))) as [->|Hi].
    + cbn [apply_edit] in H. rewrite remove_song_at_len in H by congruence. discriminate.
    + destruct (apply_edit_spec (y :: l0) (ERemove i)) as (l2 & r2 & H2 & H3); [cbn; auto|].
      rewrite H in H2. injection H2 as -> ->. exact H3.
Qed.

Lemma edit_keeps_prefix l e l' r k x :
  list_edit l e l' r -> 0 <= k -> edits_beyond k (zlen l) e ->
  nth_error l (Z.to_nat k) = Some x -> nth_error l' (Z.to_nat k) = Some x.
Proof.
  intros H Hk Hb Hx.
  assert (Hlt : (Z.to_nat k < length l)%nat) by (apply nth_error_Some; congruence).
  destruct H as [l y|l y i l' Hi|i|l i y l' Hne Hi]; cbn [edits_beyond] in Hb.
  - rewrite nth_error_app1 by exact Hlt. exact Hx.
  - destruct Hi as (b & a & -> & Hlen & ->). 
    assert (Z.to_nat k < length b)%nat by (rewrite <- Hlen in Hb; unfold zlen in Hb; lia).
    rewrite nth_error_app1 in * by assumption. exact Hx.
  - cbn in Hlt. lia.
  - destruct Hi as (b & a & -> & Hlen & ->).
    assert (Z.to_nat k < length b)%nat by (rewrite <- Hlen in Hb; unfold zlen in Hb; lia).
    rewrite nth_error_app1 in * by assumption. exact Hx.
Qed.

(** Every edit of the run takes place beyond index [k] of the list it meets. *)
Definition edits_beyond_along (k : Z) (s : pstate) (acts : list action) : Prop :=
  forall a1 e a2 s1 es1, acts = a1 ++ AEdit e :: a2 -> prun s a1 = Some (s1, es1) ->
    edits_beyond k (zlen (songs s1)) e.

Definition InvNext (p : Z) (x : song) (s : pstate) (es : list event) : Prop :=
  tokens s = 0%nat /\ pending_jumps s = 0%nat /\ opening_ok s /\
  nth_error (songs s) (Z.to_nat (p + 1)) = Some x /\
  match names_of es with
  | [] => match at_pc s with
          | AtTop => position s = p + 1
          | Opening f => f = x
          | Crashed => True
          | _ => position s = p
          end
  | f :: _ => f = x
  end.

Lemma step_next p x s es a s' e :
  0 <= p -> x <> [] -> decode x <> None ->
  InvNext p x s es -> is_jump a = false ->
  (forall ed, a = AEdit ed -> edits_beyond (p + 1) (zlen (songs s)) ed) ->
  pstep s a = Some (s', e) -> InvNext p x s' (es ++ e).
Proof.
  intros Hp Hx Hd (Ht & Hpj & Hop & Hnth & Hpc) Hj He H.
  assert (Hop' : opening_ok s').
  { eapply (step_idx (idx_write s) s []); [|exact H].
    split; [exact Hop|]. split; [unfold zlen; cbn; lia|exact I]. }
  assert (Hlt : (Z.to_nat (p + 1) < length (songs s))%nat) by (apply nth_error_Some; congruence).
  assert (Hnext : next_song (songs s) (p + 1) = Ok (p + 1, x)).
  { rewrite next_song_nonneg; [|intros E; rewrite E in Hlt; cbn in Hlt; lia|lia].
    unfold cyclic_song. rewrite Z.add_0_r, Z.mod_small by (unfold zlen; lia).
    rewrite (nth_error_nth _ _ _ Hnth). reflexivity. }
  unfold InvNext. rewrite names_of_app.
  destruct (names_of es) as [|f0 r0] eqn:En.
  - inv_step H; psimpl; try discriminate;
    try match goal with Hc : at_pc s = _ |- _ => rewrite Hc in Hpc end.
    + rewrite Hpc, Hnext in *. discriminate.
    + rewrite Hpc, Hnext in *. congruence.
    + rewrite Hpc, Hnext in *. cbn [app names_of new_songs_of flat_map map]. repeat split; auto. congruence.
    + subst f. congruence.
    + repeat split; auto. cbn. rewrite (Hop f) by assumption. exact Hpc.
    + repeat split; auto.
    + repeat split; auto.
    + repeat split; auto.
    + repeat split; auto.
    + repeat split; auto.
    + repeat split; auto.
    + lia.
    + repeat split; auto. cbn. lia.
    + repeat split; auto.
    + repeat split; auto.
    + repeat split; auto.
    + repeat split; auto. eapply edit_keeps_prefix; [eapply apply_edit_list_edit; eassumption|lia| |exact Hnth].
      apply He; reflexivity.
  - cbn [app]. inv_step H; psimpl; try discriminate; repeat split; auto; try lia.
    eapply edit_keeps_prefix; [eapply apply_edit_list_edit; eassumption|lia| |exact Hnth].
    apply He; reflexivity.
Qed.

Lemma run_next p x acts : forall s es0 s' es,
  0 <= p -> x <> [] -> decode x <> None ->
  InvNext p x s es0 -> Forall (fun a => is_jump a = false) acts ->
  edits_beyond_along (p + 1) s acts ->
  prun s acts = Some (s', es) -> InvNext p x s' (es0 ++ es).
Proof.
  induction acts as [|a acts IH]; intros s es0 s' es Hp Hx Hd HI Hj He Hr; cbn [PlaylistModel.prun] in Hr.
  - injection Hr as <- <-. rewrite app_nil_r. exact HI.
  - inversion Hj as [|? ? Hja Hjr]; subst.
    destruct (pstep s a) as [[s1 e1]|] eqn:E; [|discriminate].
    destruct (prun s1 acts) as [[s2 e2]|] eqn:E2; [|discriminate].
    injection Hr as <- <-. rewrite app_assoc.
    eapply IH; try eassumption.
    + eapply step_next; try eassumption.
      intros ed ->. apply (He [] ed acts s []); reflexivity.
    + intros a1 ed a2 s3 es3 -> H3. apply (He (a :: a1) ed a2 s3 (e1 ++ es3)); [reflexivity|].
      cbn [PlaylistModel.prun]. rewrite E, H3. reflexivity.
Qed.
End L.
