(** Further lemmas about reading: only the bytes matter, what is delivered is well formed,
    and exactly when the reader crashes. *)
From Verif Require Import GoBase GoBaseFacts GoUtf8 GoUtf8Facts WireModel WireSpec WireProofs WireMoreSpec.
From Coq Require Import ZifyBool ZifyNat ZifyN.
Local Open Scope N_scope.

(** * Only the bytes matter *)
Lemma read_loop_bytes c1 c2 need acc : concat c1 = concat c2 ->
  fst (read_loop need acc c1) = fst (read_loop need acc c2)
  /\ concat (snd (read_loop need acc c1)) = concat (snd (read_loop need acc c2)).
Proof.
  intros H. destruct (Z.leb_spec need (zlen (concat c1))) as [L|L].
  - destruct (read_loop_spec c1 need acc L) as (d1 & R1 & C1).
    destruct (read_loop_spec c2 need acc) as (d2 & R2 & C2); [rewrite <- H; exact L|].
    rewrite R1, R2, <- H. cbn [fst snd]. split; [reflexivity|]. rewrite C1, C2, H. reflexivity.
  - rewrite (read_loop_short c1) by exact L. rewrite (read_loop_short c2) by (rewrite <- H; exact L). split; reflexivity.
Qed.

Definition same_read (a b : outcome (option message * conn_in)) : Prop :=
  match a, b with
  | Panic, Panic => True
  | Ok (m1, c1), Ok (m2, c2) => m1 = m2 /\ concat c1 = concat c2
  | _, _ => False
  end.

Lemma read_wire_bytes w c1 c2 : concat c1 = concat c2 -> same_read (read_wire w c1) (read_wire w c2).
Proof.
  intros H. unfold read_wire, read_bytes.
  change ((8 <? 0) || (max_alloc <? 8))%bool%Z with false. cbn [obind].
  destruct (read_loop_bytes c1 c2 8 [] H) as [F S].
  destruct (read_loop 8 [] c1) as [o1 d1], (read_loop 8 [] c2) as [o2 d2]. cbn [fst snd] in *. subst o2.
  destruct o1 as [sb|]; [|split; [reflexivity|exact S]].
  destruct ((i64 (get_le sb) <? 0) || (max_alloc <? i64 (get_le sb)))%bool%Z; cbn [obind]; [exact I|].
  destruct (read_loop_bytes d1 d2 (i64 (get_le sb)) [] S) as [F' S'].
  destruct (read_loop (i64 (get_le sb)) [] d1) as [p1 e1], (read_loop (i64 (get_le sb)) [] d2) as [p2 e2].
  cbn [fst snd] in *. subst p2.
  destruct (decode fld_envelope ([], []) _) as [[ty zd]|]; [|split; [reflexivity|exact S']].
  destruct (message_type w ty); [|split; [reflexivity|exact S']].
  destruct (zinflate w zd); [split; [reflexivity|exact S']|exact I].
Qed.

Lemma serve_bytes w n : forall c1 c2, concat c1 = concat c2 -> serve w n c1 = serve w n c2.
Proof.
  induction n as [|n IH]; intros c1 c2 H; [reflexivity|]. cbn [serve].
  pose proof (read_wire_bytes w c1 c2 H) as R.
  destruct (read_wire w c1) as [[[m1|] d1]|], (read_wire w c2) as [[[m2|] d2]|]; cbn in R; try contradiction; try reflexivity.
  - destruct R as [E C]. injection E as <-. rewrite (IH d1 d2 C). reflexivity.
  - destruct R as [[=] _].
  - destruct R as [[=] _].
Qed.

(** * Bytes stay bytes *)
Lemma get_varint_bytes k : forall b v r, Forall byte b -> get_varint k b = Some (v, r) -> Forall byte r.
Proof.
  induction k as [|k IH]; intros b v r Hb; destruct b as [|x b]; cbn [get_varint]; try discriminate.
  - inversion Hb; subst. destruct (x <? 2); [|discriminate]. intros [= <- <-]; assumption.
  - inversion Hb; subst. destruct (x <? 128); [intros [= <- <-]; assumption|].
    destruct (get_varint k b) as [[v' r']|] eqn:E; [|discriminate]. intros [= <- <-]. eauto.
Qed.
Lemma get_varint_range k : forall b v r, Forall byte b -> get_varint k b = Some (v, r) -> v < 2 * 128 ^ N.of_nat k.
Proof.
  induction k as [|k IH]; intros b v r Hb; destruct b as [|x b]; cbn [get_varint]; try discriminate.
  - destruct (x <? 2) eqn:E; [|discriminate]. intros [= <- <-]. cbn. lia.
  - inversion Hb as [|? ? Hx Hb']; subst. unfold byte in Hx.
    rewrite Nat2N.inj_succ, N.pow_succ_r'.
    assert (P : 0 < 128 ^ N.of_nat k) by (apply N.neq_0_lt_0, N.pow_nonzero; discriminate).
    destruct (x <? 128) eqn:E; [intros [= <- <-]; lia|].
    destruct (get_varint k b) as [[v' r']|] eqn:E'; [|discriminate]. intros [= <- <-].
    specialize (IH _ _ _ Hb' E'). clear - IH Hx E. apply N.ltb_ge in E.
    generalize dependent (128 ^ N.of_nat k). intros q IH. change (x - 128 + 128 * v' < 2 * (128 * q)). lia.
Qed.
Lemma get_varint9_range b v r : Forall byte b -> get_varint 9 b = Some (v, r) -> v < 2 ^ 64.
Proof. intros Hb H. pose proof (get_varint_range 9 b v r Hb H) as R. exact R. Qed.

Lemma Forall_firstn {A} (P : A -> Prop) k l : Forall P l -> Forall P (firstn k l).
Proof. revert l; induction k; intros l H; [constructor|]. destruct H; cbn; constructor; auto. Qed.
Lemma Forall_skipn {A} (P : A -> Prop) k l : Forall P l -> Forall P (skipn k l).
Proof. revert l; induction k; intros l H; [exact H|]. destruct H; cbn; auto. Qed.

Lemma take_exact_bytes k b x r : Forall byte b -> take_exact k b = Some (x, r) -> Forall byte x /\ Forall byte r /\ N.of_nat (length x) = k.
Proof.
  unfold take_exact. intros Hb. destruct (N.of_nat (length b) <? k) eqn:E; [discriminate|]. intros [= <- <-].
  split; [now apply Forall_firstn|]. split; [now apply Forall_skipn|]. rewrite firstn_length. lia.
Qed.
Lemma get_bytes_bytes b x r : Forall byte b -> get_bytes b = Some (x, r) -> Forall byte x /\ Forall byte r.
Proof.
  unfold get_bytes. intros Hb. destruct (get_varint 9 b) as [[n r']|] eqn:E; [|discriminate].
  intros H. apply take_exact_bytes in H; [tauto|]. eapply get_varint_bytes; eauto.
Qed.
Lemma get_le_range b : Forall byte b -> get_le b < 256 ^ N.of_nat (length b).
Proof.
  induction 1 as [|x b Hx Hb IH]; [cbn; lia|]. cbn [get_le length]. rewrite Nat2N.inj_succ, N.pow_succ_r'. unfold byte in Hx. lia.
Qed.
Lemma get_fixed64_bytes b v r : Forall byte b -> get_fixed64 b = Some (v, r) -> float_bits v /\ Forall byte r.
Proof.
  unfold get_fixed64. intros Hb. destruct (take_exact 8 b) as [[x r']|] eqn:E; [|discriminate].
  apply take_exact_bytes in E as (Hx & Hr & L); [|exact Hb]. intros [= <- <-]. split; [|exact Hr].
  unfold float_bits. pose proof (get_le_range x Hx) as R. rewrite L in R. exact R.
Qed.
Lemma get_tag_bytes b num wt r : Forall byte b -> get_tag b = Some (num, wt, r) -> Forall byte r.
Proof.
  unfold get_tag. intros Hb. destruct (get_varint 9 b) as [[t r']|] eqn:E; [|discriminate].
  destruct ((t / 8 <? 1) || (536870911 <? t / 8))%bool; [discriminate|]. intros [= <- <- <-]. eapply get_varint_bytes; eauto.
Qed.
Lemma get_doubles_bytes k : forall b l, Forall byte b -> get_doubles k b = Some l -> Forall float_bits l.
Proof.
  induction k as [|k IH]; intros b l Hb; destruct b as [|x b]; cbn [get_doubles]; try discriminate; try (intros [= <-]; constructor).
  destruct (get_fixed64 (x :: b)) as [[v r]|] eqn:E; [|discriminate].
  apply get_fixed64_bytes in E as [Hv Hr]; [|exact Hb].
  destruct (get_doubles k r) as [l'|] eqn:E'; [|discriminate]. intros [= <-]. constructor; [exact Hv|eauto].
Qed.

Section Members.
Variable skip : N -> N -> bytes -> option bytes.
Variable num : N.
Fixpoint group_members (g : nat) (b : bytes) : option bytes :=
  match g with
  | O => None
  | S g' =>
      match get_tag b with
      | None => None
      | Some (num', wt', r) =>
          if wt' =? wt_end_group then (if num' =? num then Some r else None)
          else match skip num' wt' r with
               | Some r' => group_members g' r'
               | None => None
               end
      end
  end.
End Members.
Lemma skip_value_eq fuel num wt b : skip_value (S fuel) num wt b =
  (if wt =? wt_varint then match get_varint 9 b with Some (_, r) => Some r | None => None end
   else if wt =? wt_fixed64 then match take_exact 8 b with Some (_, r) => Some r | None => None end
   else if wt =? wt_bytes then match get_bytes b with Some (_, r) => Some r | None => None end
   else if wt =? wt_fixed32 then match take_exact 4 b with Some (_, r) => Some r | None => None end
   else if wt =? wt_start_group then group_members (skip_value fuel) num (S fuel) b
   else None).
Proof. reflexivity. Qed.
Lemma skip_value_bytes fuel : forall num wt b r, Forall byte b -> skip_value fuel num wt b = Some r -> Forall byte r.
Proof.
  induction fuel as [|fuel IH]; intros num wt b r Hb; [discriminate|]. rewrite skip_value_eq.
  destruct (wt =? wt_varint).
  { destruct (get_varint 9 b) as [[? ?]|] eqn:E; [|discriminate]. intros [= <-]. eapply get_varint_bytes; eauto. }
  destruct (wt =? wt_fixed64).
  { destruct (take_exact 8 b) as [[? ?]|] eqn:E; [|discriminate]. intros [= <-]. apply take_exact_bytes in E; tauto. }
  destruct (wt =? wt_bytes).
  { destruct (get_bytes b) as [[? ?]|] eqn:E; [|discriminate]. intros [= <-]. apply get_bytes_bytes in E; tauto. }
  destruct (wt =? wt_fixed32).
  { destruct (take_exact 4 b) as [[? ?]|] eqn:E; [|discriminate]. intros [= <-]. apply take_exact_bytes in E; tauto. }
  destruct (wt =? wt_start_group); [|discriminate].
  generalize (S fuel) at 1. intro g. revert b Hb. induction g as [|g IHg]; intros b Hb; cbn [group_members]; [discriminate|].
  destruct (get_tag b) as [[[n' w'] r']|] eqn:E; [|discriminate]. apply get_tag_bytes in E; [|exact Hb].
  destruct (w' =? wt_end_group); [destruct (n' =? num); [|discriminate]; intros [= <-]; exact E|].
  destruct (skip_value fuel n' w' r') as [r''|] eqn:E'; [|discriminate]. apply IHg. eapply IH; eauto.
Qed.

(** * An invariant of the fields is an invariant of the decoded value *)
Definition keeps {A} (P : A -> Prop) (field : N -> N -> A -> bytes -> field_result A) : Prop :=
  forall num wt a b a' r, Forall byte b -> P a -> field num wt a b = FieldOk a' r -> P a' /\ Forall byte r.

Lemma decode_loop_keeps {A} (P : A -> Prop) field : keeps P field ->
  forall fuel a b x, Forall byte b -> P a -> decode_loop field fuel a b = Some x -> P x.
Proof.
  intros K. induction fuel as [|fuel IH]; intros a b x Hb Ha; destruct b as [|y b]; cbn [decode_loop]; try discriminate;
    try (intros [= <-]; exact Ha).
  destruct (get_tag (y :: b)) as [[[num wt] r]|] eqn:E; [|discriminate]. apply get_tag_bytes in E; [|exact Hb].
  destruct (wt =? wt_end_group); [discriminate|].
  destruct (field num wt a r) as [a' r'| |] eqn:F; [|discriminate|].
  - destruct (K _ _ _ _ _ _ E Ha F) as [Ha' Hr']. eauto.
  - destruct (skip_value (S (length r)) num wt r) as [r'|] eqn:S; [|discriminate]. apply skip_value_bytes in S; eauto.
Qed.
Lemma decode_keeps {A} (P : A -> Prop) field a b x : keeps P field -> Forall byte b -> P a -> decode field a b = Some x -> P x.
Proof. intros K. apply decode_loop_keeps. exact K. Qed.

Lemma on_varint_inv {A} wt b (set : N -> A) a r : Forall byte b -> on_varint wt b set = FieldOk a r ->
  exists v, a = set v /\ v < 2 ^ 64 /\ Forall byte r.
Proof.
  unfold on_varint. intros Hb. destruct (wt =? wt_varint); [|discriminate].
  destruct (get_varint 9 b) as [[v r']|] eqn:E; [|discriminate]. intros [= <- <-]. exists v.
  split; [reflexivity|]. split; [eapply get_varint9_range; eauto|eapply get_varint_bytes; eauto].
Qed.
Lemma on_fixed64_inv {A} wt b (set : N -> A) a r : Forall byte b -> on_fixed64 wt b set = FieldOk a r ->
  exists v, a = set v /\ float_bits v /\ Forall byte r.
Proof.
  unfold on_fixed64. intros Hb. destruct (wt =? wt_fixed64); [|discriminate].
  destruct (get_fixed64 b) as [[v r']|] eqn:E; [|discriminate]. apply get_fixed64_bytes in E as [? ?]; [|exact Hb].
  intros [= <- <-]. eauto.
Qed.
Lemma on_bytes_inv {A} wt b (set : bytes -> option A) a r : Forall byte b -> on_bytes wt b set = FieldOk a r ->
  exists v, set v = Some a /\ Forall byte v /\ Forall byte r.
Proof.
  unfold on_bytes. intros Hb. destruct (wt =? wt_bytes); [|discriminate].
  destruct (get_bytes b) as [[v r']|] eqn:E; [|discriminate]. apply get_bytes_bytes in E as [? ?]; [|exact Hb].
  destruct (set v) eqn:Es; [|discriminate]. intros [= <- <-]. eauto.
Qed.
Lemma on_string_inv {A} wt b (set : bytes -> A) a r : Forall byte b -> on_string wt b set = FieldOk a r ->
  exists v, a = set v /\ utf8_valid v = true /\ Forall byte r.
Proof.
  intros Hb H. apply on_bytes_inv in H as (v & E & _ & Hr); [|exact Hb].
  destruct (utf8_valid v) eqn:U; [|discriminate]. injection E as <-. eauto.
Qed.
Lemma on_doubles_inv {A} wt b (add : list N -> A) a r : Forall byte b -> on_doubles wt b add = FieldOk a r ->
  exists l, a = add l /\ Forall float_bits l /\ Forall byte r.
Proof.
  unfold on_doubles. intros Hb. destruct (wt =? wt_bytes).
  - destruct (get_bytes b) as [[v r']|] eqn:E; [|discriminate]. apply get_bytes_bytes in E as [Hv Hr]; [|exact Hb].
    destruct (get_doubles (length v) v) as [l|] eqn:D; [|discriminate]. intros [= <- <-].
    exists l. split; [reflexivity|]. split; [exact (get_doubles_bytes _ _ _ Hv D)|exact Hr].
  - intros H. apply on_fixed64_inv in H as (v & -> & F & Hr); [|exact Hb]. exists [v]. auto.
Qed.

Lemma i64_range n : in_int64 (i64 n).
Proof. unfold i64, in_int64, wrap64. lia. Qed.
Lemma e32_range n : in_int32 (e32 n).
Proof. unfold e32, in_int32, wrap32. lia. Qed.
Lemma uint_range v : v < 2 ^ 64 -> in_uint64 (Z.of_N v).
Proof. unfold in_uint64. lia. Qed.

Definition atom_ok (a : Z * bytes) : Prop := in_int64 (fst a) /\ utf8_valid (snd a) = true.
Lemma keeps_atom : keeps atom_ok fld_atom.
Proof.
  intros num wt a b a' r Hb [H1 H2]. unfold fld_atom. destruct (num =? 1).
  { intros H. apply on_varint_inv in H as (v & -> & _ & Hr); [|exact Hb]. split; [split; [apply i64_range|exact H2]|exact Hr]. }
  destruct (num =? 2); [|discriminate].
  intros H. apply on_string_inv in H as (v & -> & U & Hr); [|exact Hb]. split; [split; [exact H1|exact U]|exact Hr].
Qed.
Lemma keeps_line : keeps (Forall atom_ok) fld_line.
Proof.
  intros num wt l b a' r Hb Hl. unfold fld_line. destruct (num =? 1); [|discriminate].
  intros H. apply on_bytes_inv in H as (v & E & Hv & Hr); [|exact Hb].
  destruct (decode fld_atom (0%Z, []) v) as [a|] eqn:D; [|discriminate]. injection E as <-. split; [|exact Hr].
  apply Forall_app. split; [exact Hl|]. constructor; [|constructor].
  apply (decode_keeps atom_ok _ _ _ _ keeps_atom Hv) in D; [exact D|]. split; [split; cbn; lia|reflexivity].
Qed.
Definition meta_ok (m : bytes * bytes * bytes) : Prop :=
  let '(x, y, z) := m in utf8_valid x = true /\ utf8_valid y = true /\ utf8_valid z = true.
Lemma keeps_metadata : keeps meta_ok fld_metadata.
Proof.
  intros num wt [[x y] z] b a' r Hb (H1 & H2 & H3). unfold fld_metadata.
  destruct (num =? 1); [|destruct (num =? 2); [|destruct (num =? 3); [|discriminate]]];
    intros H; apply on_string_inv in H as (v & -> & U & Hr); try exact Hb; repeat split; auto.
Qed.

(** what is known about a decoded message *)
Definition decoded_ok (m : message) : Prop :=
  match m with OtherMessage _ => True | _ => field_values m end /\ forallb utf8_valid (strings_of m) = true.
Lemma strings_song f file len ly md : forallb utf8_valid (strings_of (NewSongInfo f file len ly md)) = true <->
  utf8_valid file = true /\ Forall (Forall (fun a => utf8_valid (snd a) = true)) ly /\
  match md with None => True | Some m => meta_ok m end.
Proof.
  cbn [strings_of forallb]. rewrite forallb_app, !andb_true_iff.
  assert (L : forallb utf8_valid (flat_map (map snd) ly) = true <-> Forall (Forall (fun a : Z * bytes => utf8_valid (snd a) = true)) ly).
  { rewrite forallb_forall, Forall_forall. setoid_rewrite Forall_forall. split.
    - intros H l Hl a Ha. apply H, in_flat_map. exists l. split; [exact Hl|now apply in_map].
    - intros H x Hx. apply in_flat_map in Hx as (l & Hl & Hx). apply in_map_iff in Hx as (a & <- & Ha). eauto. }
  rewrite L. destruct md as [[[a b] c]|]; cbn [forallb meta_ok]; rewrite ?andb_true_iff; tauto.
Qed.

Ltac field_case Hb :=
  match goal with
  | |- on_varint _ _ _ = _ -> _ =>
      let v := fresh "v" in let V := fresh "V" in let Hr := fresh "Hr" in
      intros H; apply on_varint_inv in H as (v & -> & V & Hr); [|exact Hb]; split; [|exact Hr]
  | |- on_fixed64 _ _ _ = _ -> _ =>
      let v := fresh "v" in let V := fresh "V" in let Hr := fresh "Hr" in
      intros H; apply on_fixed64_inv in H as (v & -> & V & Hr); [|exact Hb]; split; [|exact Hr]
  | |- on_string _ _ _ = _ -> _ =>
      let v := fresh "v" in let V := fresh "V" in let Hr := fresh "Hr" in
      intros H; apply on_string_inv in H as (v & -> & V & Hr); [|exact Hb]; split; [|exact Hr]
  | |- on_doubles _ _ _ = _ -> _ =>
      let v := fresh "v" in let V := fresh "V" in let Hr := fresh "Hr" in
      intros H; apply on_doubles_inv in H as (v & -> & V & Hr); [|exact Hb]; split; [|exact Hr]
  | |- (if ?c then _ else _) = _ -> _ => destruct c; [|]
  | |- FieldUnknown = _ -> _ => discriminate
  end.

Lemma keeps_message : keeps decoded_ok fld_message.
Proof.
  intros num wt m b a' r Hb [Hf Hs]. unfold fld_message. destruct m; cbn [field_values] in Hf.
  all: try solve [repeat field_case Hb; split; try exact Hs; cbn [field_values];
    repeat match goal with H : _ /\ _ |- _ => destruct H end; repeat split;
    try apply i64_range; try apply uint_range; try apply e32_range; try (apply Forall_app; split); try tauto; try assumption;
    try (match goal with H : in_int64 _ |- _ => apply H end); try (match goal with H : in_uint64 _ |- _ => apply H end)].
  destruct Hf as (F1 & F2 & F3). apply strings_song in Hs as (S1 & S2 & S3).
  field_case Hb.
  { field_case Hb. split; [cbn; split; [apply uint_range; exact V|auto]|apply strings_song; auto]. }
  field_case Hb.
  { field_case Hb. split; [cbn; auto|apply strings_song; auto]. }
  field_case Hb.
  { field_case Hb. split; [cbn; split; [auto|split; [apply i64_range|auto]]|apply strings_song; auto]. }
  field_case Hb.
  { intros H. apply on_bytes_inv in H as (v & E & Hv & Hr); [|exact Hb].
    destruct (decode fld_line [] v) as [l|] eqn:D; [|discriminate]. injection E as <-. split; [|exact Hr].
    apply (decode_keeps _ _ _ _ _ keeps_line Hv) in D; [|constructor].
    assert (D1 : Forall (fun a : Z * bytes => in_int64 (fst a)) l) by (eapply Forall_impl; [|exact D]; intros ? [? _]; auto).
    assert (D2 : Forall (fun a : Z * bytes => utf8_valid (snd a) = true) l) by (eapply Forall_impl; [|exact D]; intros ? [_ ?]; auto).
    split; [cbn; split; [auto|split; [auto|apply Forall_app; auto]]|apply strings_song; split; [auto|split; [apply Forall_app; auto|auto]]]. }
  field_case Hb; [|discriminate].
  intros H. apply on_bytes_inv in H as (v & E & Hv & Hr); [|exact Hb].
  destruct (decode fld_metadata (match metadata with Some x => x | None => ([], [], []) end) v) as [x|] eqn:D; [|discriminate].
  injection E as <-. split; [|exact Hr].
  apply (decode_keeps _ _ _ _ _ keeps_metadata Hv) in D; [|destruct metadata; [exact S3|repeat split]].
  split; [cbn; auto|apply strings_song; auto].
Qed.

Definition keeps_envelope_bytes (e : bytes * bytes) : Prop := Forall byte (snd e).
Lemma keeps_envelope : keeps keeps_envelope_bytes fld_envelope.
Proof.
  intros num wt [x y] b a' r Hb H. unfold fld_envelope. destruct (num =? 1).
  - intros E. apply on_string_inv in E as (v & -> & _ & Hr); [|exact Hb]. split; [exact H|exact Hr].
  - destruct (num =? 2); [|discriminate]. intros E. apply on_bytes_inv in E as (v & E & Hv & Hr); [|exact Hb].
    injection E as <-. split; [exact Hv|exact Hr].
Qed.

Lemma Forall_concat_bytes (c : conn_in) : Forall (Forall byte) c -> Forall byte (concat c).
Proof. induction 1; cbn; [constructor|]. apply Forall_app; auto. Qed.

Lemma message_type_ok w ty m : message_type w ty = Some m -> decoded_ok m.
Proof.
  unfold message_type. destruct (find _ empty_messages) as [x|] eqn:F.
  - intros [= <-]. apply find_some in F as [I _]. 
    repeat (destruct I as [<-|I]; [split; [cbn; unfold in_int64, in_uint64, in_int32, float_bits; repeat split; try lia; constructor|reflexivity]|]).
    destruct I.
  - destruct (foreign w (after_slash ty)); [|discriminate]. intros [= <-]. split; [exact I|reflexivity].
Qed.

Lemma unmarshal_ok w m data x : Forall byte data -> decoded_ok m -> unmarshal w m data = Some x -> decoded_ok x.
Proof.
  intros Hb Hm. unfold unmarshal.
  destruct m; try (intros H; exact (decode_keeps decoded_ok _ _ _ _ keeps_message Hb Hm H)).
  destruct (foreign w name) as [acc|]; [|discriminate]. destruct (acc data); [|discriminate]. intros [= <-]. exact Hm.
Qed.

Lemma read_wire_ok w c m c' : (forall d x, Forall byte d -> zinflate w d = Some x -> Forall byte x) ->
  Forall byte (concat c) -> read_wire w c = Ok (Some m, c') -> decoded_ok m /\ Forall byte (concat c').
Proof.
  intros Z Hc H.
  split; [|destruct (read_wire_suffix _ _ _ _ H) as [pre E]; rewrite E in Hc; now apply Forall_app in Hc].
  unfold read_wire, read_bytes in H.
  change ((8 <? 0) || (max_alloc <? 8))%bool%Z with false in H. cbn [obind] in H.
  destruct (zlen (concat c) <? 8)%Z eqn:E8.
  { rewrite read_loop_short in H by lia. discriminate. }
  destruct (read_loop_spec c 8 []) as [c1 [R1 C1]]; [lia|]. rewrite R1 in H.
  set (size := i64 _) in H.
  destruct ((size <? 0) || (max_alloc <? size))%bool%Z; [discriminate|]. cbn [obind] in H.
  assert (Hc1 : Forall byte (concat c1)) by (rewrite C1; now apply Forall_skipn).
  assert (G : forall e, Forall byte e -> forall c2,
    match decode fld_envelope ([], []) e with
    | None => Ok (None, c2)
    | Some (type, zdata) =>
        match message_type w type with
        | None => Ok (None, c2)
        | Some m => match zinflate w zdata with None => Panic | Some data => Ok (unmarshal w m data, c2) end
        end
    end = Ok (Some m, c') -> decoded_ok m).
  { intros e He c2. destruct (decode fld_envelope ([], []) e) as [[ty zd]|] eqn:D; [|discriminate].
    apply (decode_keeps _ _ _ _ _ keeps_envelope He) in D; [|constructor]. cbn [keeps_envelope_bytes snd] in D.
    destruct (message_type w ty) as [m0|] eqn:M; [|discriminate]. destruct (zinflate w zd) as [x|] eqn:I; [|discriminate].
    intros U. injection U as U _. apply (unmarshal_ok w m0 x m); [eapply Z; eauto|eapply message_type_ok; eauto|exact U]. }
  destruct (zlen (concat c1) <? size)%Z eqn:Es.
  - rewrite read_loop_short in H by lia. exact (G [] (Forall_nil _) [] H).
  - destruct (read_loop_spec c1 size []) as [c2 [R2 C2]]; [lia|]. rewrite R2 in H. cbn [app] in H.
    refine (G _ _ _ H). now apply Forall_firstn.
Qed.

Lemma serve_ok w n : (forall d x, Forall byte d -> zinflate w d = Some x -> Forall byte x) ->
  forall c, Forall byte (concat c) -> Forall decoded_ok (fst (serve w n c)).
Proof.
  intros Z. induction n as [|n IH]; intros c Hc; cbn [serve]; [constructor|].
  destruct (read_wire w c) as [[[m|] c']|] eqn:E; [|constructor|constructor].
  destruct (read_wire_ok w c m c' Z Hc E) as [Hm Hc']. specialize (IH c' Hc').
  destruct (serve w n c') as [ms e]. cbn [fst] in *. constructor; auto.
Qed.

(** * Exactly when the reader goes on, stops and crashes *)
Lemma read_wire_iff w c m : foreign w [] = None ->
  ((exists c', read_wire w c = Ok (Some m, c')) <-> exists rest, good_frame w m (concat c) rest).
Proof.
  intros Hfo. split.
  - intros [c' H]. unfold read_wire, read_bytes in H.
    change ((8 <? 0) || (max_alloc <? 8))%bool%Z with false in H. cbn [obind] in H.
    destruct (zlen (concat c) <? 8)%Z eqn:E8.
    { rewrite read_loop_short in H by lia. discriminate. }
    destruct (read_loop_spec c 8 []) as [c1 [R1 C1]]; [lia|]. rewrite R1 in H. cbn [app] in H.
    change (Z.to_nat 8) with 8%nat in *. unfold zlen in E8.
    set (size := i64 (get_le (firstn 8 (concat c)))) in H.
    destruct ((size <? 0) || (max_alloc <? size))%bool%Z eqn:Eb; [discriminate|]. cbn [obind] in H.
    destruct (zlen (concat c1) <? size)%Z eqn:Es.
    + rewrite read_loop_short in H by lia.
      change (decode fld_envelope ([], []) []) with (Some (@nil N, @nil N)) in H.
      unfold message_type in H.
      change (find (fun m0 : message => text_eqb (message_name m0) (after_slash [])) empty_messages) with (@None message) in H.
      change (after_slash []) with (@nil N) in H. rewrite Hfo in H. discriminate.
    + destruct (read_loop_spec c1 size []) as [c2 [R2 C2]]; [lia|]. rewrite R2 in H. cbn [app] in H.
      destruct (decode fld_envelope ([], []) (firstn (Z.to_nat size) (concat c1))) as [[ty zd]|] eqn:Ed; [|discriminate].
      destruct (message_type w ty) as [m0|] eqn:Em; [|discriminate].
      destruct (zinflate w zd) as [x|] eqn:Ez; [|discriminate]. injection H as U _.
      exists (skipn (Z.to_nat size) (concat c1)).
      exists (firstn 8 (concat c)), (firstn (Z.to_nat size) (concat c1)), ty, zd, x, m0.
      split; [rewrite firstn_skipn, C1; symmetry; apply firstn_skipn|].
      split; [rewrite firstn_length; lia|].
      assert (zlen (firstn (Z.to_nat size) (concat c1)) = size) by (unfold zlen in *; rewrite firstn_length; lia).
      split; [fold size; lia|]. split; [lia|]. auto.
  - intros (rest & hd & env & ty & zd & x & m0 & Hc & Hl & Hsz & Hmax & Hd & Hm & Hi & Hu).
    unfold read_wire, read_bytes at 1.
    change ((8 <? 0) || (max_alloc <? 8))%bool%Z with false. cbn [obind].
    destruct (read_loop_spec c 8 []) as [c1 [R1 C1]].
    { rewrite Hc, !zlen_app. pose proof (zlen_nonneg env). pose proof (zlen_nonneg rest). unfold zlen at 1. lia. }
    rewrite R1. cbn [app]. change (Z.to_nat 8) with 8%nat in *. rewrite Hc in *.
    rewrite firstn_app, firstn_all2 by lia. rewrite Hl, Nat.sub_diag, firstn_O, app_nil_r.
    rewrite skipn_app, (skipn_all2 hd) in C1 by lia. rewrite Hl, Nat.sub_diag in C1. cbn [app skipn] in C1.
    rewrite Hsz. pose proof (zlen_nonneg env). unfold read_bytes.
    replace ((zlen env <? 0) || (max_alloc <? zlen env))%bool%Z with false by lia. cbn [obind].
    destruct (read_loop_spec c1 (zlen env) []) as [c2 [R2 C2]].
    { rewrite C1, zlen_app. pose proof (zlen_nonneg rest). lia. }
    rewrite R2. cbn [app]. rewrite C1. replace (Z.to_nat (zlen env)) with (length env) by (unfold zlen; lia).
    rewrite firstn_app, firstn_all, Nat.sub_diag, firstn_O, app_nil_r. rewrite Hd, Hm, Hi, Hu. eauto.
Qed.

Lemma read_wire_rest w c m c' rest : read_wire w c = Ok (Some m, c') -> foreign w [] = None ->
  good_frame w m (concat c) rest -> concat c' = rest.
Proof.
  intros H Hfo (hd & env & ty & zd & x & m0 & Hc & Hl & Hsz & Hmax & Hd & Hm & Hi & Hu).
  unfold read_wire, read_bytes in H.
  change ((8 <? 0) || (max_alloc <? 8))%bool%Z with false in H. cbn [obind] in H.
  destruct (read_loop_spec c 8 []) as [c1 [R1 C1]].
  { rewrite Hc, !zlen_app. pose proof (zlen_nonneg env). pose proof (zlen_nonneg rest). unfold zlen at 1. lia. }
  rewrite R1 in H. cbn [app] in H. change (Z.to_nat 8) with 8%nat in *. rewrite Hc in H, C1.
  rewrite firstn_app, firstn_all2 in H by lia. rewrite Hl, Nat.sub_diag, firstn_O, app_nil_r in H.
  rewrite skipn_app, (skipn_all2 hd) in C1 by lia. rewrite Hl, Nat.sub_diag in C1. cbn [app skipn] in C1.
  rewrite Hsz in H. pose proof (zlen_nonneg env).
  replace ((zlen env <? 0) || (max_alloc <? zlen env))%bool%Z with false in H by lia. cbn [obind] in H.
  destruct (read_loop_spec c1 (zlen env) []) as [c2 [R2 C2]].
  { rewrite C1, zlen_app. pose proof (zlen_nonneg rest). lia. }
  rewrite R2 in H. cbn [app] in H. rewrite C1 in C2, H. replace (Z.to_nat (zlen env)) with (length env) in * by (unfold zlen; lia).
  rewrite firstn_app, firstn_all, Nat.sub_diag, firstn_O, app_nil_r in H. rewrite Hd, Hm, Hi in H. injection H as _ <-.
  rewrite C2, skipn_app, skipn_all, Nat.sub_diag. reflexivity.
Qed.

Lemma handle_iff w : foreign w [] = None -> forall n c ms e, (length (concat c) < n)%nat ->
  handle_connection w c = (ms, e) ->
  exists rest, good_frames w ms (concat c) rest /\
    match e with Crashed => poison w rest | Closed => ~ poison w rest /\ forall m r, ~ good_frame w m rest r end.
Proof.
  intros Hfo. induction n as [|n IH]; intros c ms e Hn H; [lia|].
  destruct (read_wire w c) as [[[m|] c']|] eqn:E.
  - rewrite (handle_connection_step _ _ _ _ E) in H. injection H as <- <-.
    destruct (proj1 (read_wire_iff w c m Hfo) (ex_intro _ c' E)) as [rest G].
    pose proof (read_wire_rest w c m c' rest E Hfo G) as R.
    pose proof (read_wire_consumes _ _ _ _ E) as L.
    destruct (IH c' (fst (handle_connection w c')) (snd (handle_connection w c'))) as (r & G' & P); [lia|now destruct (handle_connection w c')|].
    exists r. split; [|exact P]. econstructor; [exact G|]. rewrite <- R. exact G'.
  - rewrite (handle_connection_stop _ _ _ E) in H. injection H as <- <-.
    exists (concat c). split; [constructor|]. split.
    + intros P. apply read_wire_poison in P. congruence.
    + intros m r G. destruct (proj2 (read_wire_iff w c m Hfo) (ex_intro _ r G)) as [c2 E2]. congruence.
  - rewrite (handle_connection_crash _ _ E) in H. injection H as <- <-.
    exists (concat c). split; [constructor|]. now apply read_wire_panic.
Qed.

Lemma good_frame_fun w m m' s r r' : good_frame w m s r -> good_frame w m' s r' -> m = m' /\ r = r'.
Proof.
  intros (hd & env & ty & zd & x & m0 & Hc & Hl & Hsz & Hmax & Hd & Hm & Hi & Hu)
         (hd' & env' & ty' & zd' & x' & m0' & Hc' & Hl' & Hsz' & Hmax' & Hd' & Hm' & Hi' & Hu').
  rewrite Hc in Hc'. assert (hd = hd') by (apply (f_equal (firstn 8)) in Hc'; rewrite <- Hl in Hc' at 1; rewrite <- Hl' in Hc';
    rewrite !firstn_app, !firstn_all, !Nat.sub_diag, !firstn_O, !app_nil_r in Hc'; exact Hc'). subst hd'.
  apply app_inv_head in Hc'. assert (L : length env = length env') by (unfold zlen in *; lia).
  assert (env = env') by (apply (f_equal (firstn (length env))) in Hc'; rewrite L in Hc' at 2;
    rewrite !firstn_app, !firstn_all, !Nat.sub_diag, !firstn_O, !app_nil_r in Hc'; exact Hc'). subst env'.
  apply app_inv_head in Hc'. split; [congruence|congruence].
Qed.

Lemma handle_good w c ms rest : foreign w [] = None -> good_frames w ms (concat c) rest ->
  forall c', concat c' = rest ->
  handle_connection w c = (ms ++ fst (handle_connection w c'), snd (handle_connection w c')).
Proof.
  intros Hfo G. remember (concat c) as s eqn:Es. revert c Es. induction G as [s|m ms s r rest G Gs IH]; intros c Es c' Ec'.
  - cbn [app]. unfold handle_connection at 1. subst s. rewrite (serve_bytes w _ c c') by congruence.
    rewrite <- Ec'. unfold handle_connection. now destruct (serve w _ c').
  - subst s. destruct (proj2 (read_wire_iff w c m Hfo) (ex_intro _ r G)) as [c1 E].
    pose proof (read_wire_rest w c m c1 r E Hfo G) as R.
    rewrite (handle_connection_step _ _ _ _ E). rewrite (IH c1 (eq_sym R) c' Ec'). reflexivity.
Qed.
