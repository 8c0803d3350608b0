(** Lemmas about the Go constructs of GoBase. *)
From Verif Require Import GoBase.
From Coq Require Import ZifyBool ZifyNat ZifyN.
Ltac Zify.zify_post_hook ::= Z.div_mod_to_equations.

Lemma zlen_nil {A} : zlen (@nil A) = 0%Z. Proof. reflexivity. Qed.
Lemma zlen_cons {A} (a : A) l : zlen (a :: l) = (zlen l + 1)%Z.
Proof. unfold zlen; cbn [length]; lia. Qed.
Lemma zlen_app {A} (l l' : list A) : zlen (l ++ l') = (zlen l + zlen l')%Z.
Proof. unfold zlen; rewrite app_length; lia. Qed.
Lemma zlen_nonneg {A} (l : list A) : (0 <= zlen l)%Z.
Proof. unfold zlen; lia. Qed.

Lemma zlen_pos {A} (l : list A) : l <> [] -> (0 < zlen l)%Z.
Proof. destruct l as [|a l]; [congruence|]. intros _. rewrite zlen_cons. pose proof (zlen_nonneg l). lia. Qed.

Lemma text_eqb_eq a b : text_eqb a b = true <-> a = b.
Proof.
  revert b; induction a as [|x a IH]; intros [|y b]; cbn [text_eqb];
    try (split; congruence).
  rewrite andb_true_iff, N.eqb_eq, IH; split; [intros [-> ->]; reflexivity|].
  intros H; injection H; auto.
Qed.
Lemma text_eqb_refl a : text_eqb a a = true.
Proof. apply text_eqb_eq; reflexivity. Qed.
Lemma text_eqb_neq a b : text_eqb a b = false <-> a <> b.
Proof.
  split.
  - intros H E; apply text_eqb_eq in E; congruence.
  - intros H; destruct (text_eqb a b) eqn:E; [|reflexivity].
    apply text_eqb_eq in E; contradiction.
Qed.
Lemma text_eq_dec (a b : text) : {a = b} + {a <> b}.
Proof. destruct (text_eqb a b) eqn:E; [left; apply text_eqb_eq; exact E|right; apply text_eqb_neq; exact E]. Qed.

Lemma has_prefix_spec s p : has_prefix s p = true <-> exists r, s = p ++ r.
Proof.
  revert s; induction p as [|y p IH]; intros s; cbn [has_prefix].
  - split; [intros _; exists s; reflexivity|reflexivity].
  - destruct s as [|x s].
    + split; [discriminate|intros [r Hr]; discriminate].
    + rewrite andb_true_iff, N.eqb_eq, IH; split.
      * intros [-> [r ->]]; exists r; reflexivity.
      * intros [r Hr]; cbn in Hr; injection Hr as -> ->; split; [reflexivity|exists r; reflexivity].
Qed.

Lemma has_suffix_spec s p : has_suffix s p = true <-> exists r, s = r ++ p.
Proof.
  unfold has_suffix; rewrite has_prefix_spec; split; intros [r Hr].
  - exists (rev r). rewrite <- (rev_involutive s), Hr, rev_app_distr, rev_involutive; reflexivity.
  - exists (rev r). rewrite Hr, rev_app_distr; reflexivity.
Qed.

Lemma wrap64_id z : in_int64 z -> wrap64 z = z.
Proof. unfold in_int64, wrap64; intros H. rewrite Z.mod_small by lia. lia. Qed.
Lemma wrap64_range z : in_int64 (wrap64 z).
Proof. unfold in_int64, wrap64. pose proof (Z.mod_pos_bound (z + 2^63) (2^64) ltac:(lia)). lia. Qed.

Lemma slice_get_ok {A} (l : list A) i a :
  slice_get l i = Ok a <-> ((0 <= i)%Z /\ nth_error l (Z.to_nat i) = Some a).
Proof.
  unfold slice_get. destruct (Z.ltb_spec i 0) as [Hlt|Hge].
  - split; [discriminate|lia].
  - destruct (nth_error l (Z.to_nat i)) as [x|] eqn:E.
    + split; [intros H; injection H as ->; auto with zarith|intros [_ H]; congruence].
    + split; [discriminate|intros [_ H]; discriminate].
Qed.

Lemma slice_get_in_range {A} (l : list A) i :
  (0 <= i < zlen l)%Z -> exists a, slice_get l i = Ok a /\ In a l.
Proof.
  intros H. destruct (nth_error l (Z.to_nat i)) as [a|] eqn:E.
  - exists a; split; [apply slice_get_ok; split; [lia|exact E]|eapply nth_error_In; exact E].
  - apply nth_error_None in E. unfold zlen in H; lia.
Qed.

Lemma skipn_skipn {A} (l : list A) a b : skipn a (skipn b l) = skipn (a + b) l.
Proof.
  revert l; induction b as [|b IH]; intros l; [rewrite Nat.add_0_r; reflexivity|].
  destruct l as [|x l]; [rewrite !skipn_nil; reflexivity|].
  rewrite Nat.add_succ_r. cbn [skipn]. apply IH.
Qed.
