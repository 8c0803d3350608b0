(** strconv.Atoi reads exactly the decimal numbers. *)
From Verif Require Import GoBase GoFmt NumberSpec.
From Coq Require Import Decimal DecimalN ZifyBool ZifyN.
Local Open Scope Z_scope.

Notation dstep := (fun v c => 10 * v + (Z.of_N c - 48)).
Lemma of_uint_acc_value u : forall p, Z.pos (Pos.of_uint_acc u p) = fold_left dstep (uint_text u) (Z.pos p).
Proof.
  induction u as [|u IH|u IH|u IH|u IH|u IH|u IH|u IH|u IH|u IH|u IH]; intros p; [reflexivity|..];
    cbn [Pos.of_uint_acc uint_text fold_left]; rewrite IH; f_equal; lia.
Qed.
Lemma of_uint_value u : Z.of_N (N.of_uint u) = value_of (uint_text u).
Proof.
  unfold value_of, N.of_uint.
  induction u as [|u IH|u IH|u IH|u IH|u IH|u IH|u IH|u IH|u IH|u IH]; [reflexivity|exact IH|..];
    cbn [Pos.of_uint uint_text fold_left Z.of_N]; rewrite of_uint_acc_value; reflexivity.
Qed.

Lemma text_uint_inv t : forall u, text_uint t = Some u -> t = uint_text u /\ Forall decimal_digit t.
Proof.
  induction t as [|c t IH]; intros u H; cbn [text_uint] in H; [injection H as <-; split; [reflexivity|constructor]|].
  destruct (text_uint t) as [v|]; [|discriminate]. destruct (IH v eq_refl) as [E F].
  repeat match type of H with (if N.eqb c ?n then _ else _) = _ => destruct (N.eqb_spec c n) as [->|?];
    [injection H as <-; cbn [uint_text]; split; [f_equal; exact E|constructor; [unfold decimal_digit; lia|exact F]]|] end.
  discriminate.
Qed.
Lemma text_uint_digits t : Forall decimal_digit t -> exists u, text_uint t = Some u.
Proof.
  induction 1 as [|c t Hc _ [u E]]; [exists Nil; reflexivity|]. cbn [text_uint]. rewrite E. unfold decimal_digit in Hc.
  repeat match goal with |- exists _, (if N.eqb c ?n then _ else _) = _ => destruct (N.eqb_spec c n); [eexists; reflexivity|] end. lia.
Qed.

Lemma magnitude_spec t z : magnitude t = Some z <-> t <> [] /\ Forall decimal_digit t /\ z = value_of t.
Proof.
  destruct t as [|c t]; [split; [discriminate|intros [H _]; congruence]|].
  unfold magnitude. split.
  - intros H. destruct (text_uint (c :: t)) as [u|] eqn:E; [|discriminate]. apply text_uint_inv in E as [E F].
    injection H as <-. rewrite of_uint_value, <- E. split; [discriminate|auto].
  - intros (_ & F & ->). destruct (text_uint_digits _ F) as [u E]. rewrite E. apply text_uint_inv in E as [E _].
    rewrite of_uint_value, <- E. reflexivity.
Qed.

Theorem atoi_reads t z : atoi t = Some z <-> reads t z.
Proof.
  assert (R : forall v, match v with Some z' => if ((- 2 ^ 63 <=? z') && (z' <? 2 ^ 63))%bool then Some z' else None | None => None end = Some z
    <-> v = Some z /\ - 2 ^ 63 <= z < 2 ^ 63).
  { intros [z'|].
    - destruct ((- 2 ^ 63 <=? z') && (z' <? 2 ^ 63))%bool eqn:E; split.
      + intros [= ->]. split; [reflexivity|lia].
      + intros [[= ->] _]. reflexivity.
      + discriminate.
      + intros [[= ->] H]. lia.
    - split; [discriminate|]. intros [H _]. discriminate H. }
  unfold atoi. rewrite R. clear R. unfold reads. split.
  - intros [H Hz].
    assert (P : magnitude t = Some z -> exists ds, ds <> [] /\ Forall decimal_digit ds /\ - 2 ^ 63 <= z < 2 ^ 63 /\
      (t = ds /\ z = value_of ds \/ t = 43%N :: ds /\ z = value_of ds \/ t = 45%N :: ds /\ z = - value_of ds)).
    { intros M. apply magnitude_spec in M as (A & B & C). exists t. auto 10. }
    destruct t as [|c r]; [apply P; exact H|].
    destruct (N.eq_dec c 45) as [->|N45].
    + destruct (magnitude r) as [m|] eqn:M; [|discriminate]. apply magnitude_spec in M as (A & B & C). injection H as <-.
      exists r. subst m. auto 10.
    + destruct (N.eq_dec c 43) as [->|N43].
      * apply magnitude_spec in H as (A & B & C). exists r. auto 10.
      * apply P. destruct c as [|p]; [exact H|].
        do 7 (try destruct p as [p|p|]; try exact H; try congruence).
  - intros (ds & Hn & Hd & Hz & H). split; [|exact Hz].
    destruct H as [[-> E]|[[-> E]|[-> E]]].
    + assert (M : magnitude ds = Some z) by (apply magnitude_spec; auto).
      destruct ds as [|c r]; [congruence|]. inversion Hd as [|? ? Hc _]; subst. unfold decimal_digit in Hc.
      destruct c as [|p]; [exact M|]. do 7 (try destruct p as [p|p|]; try exact M; try lia).
    + apply magnitude_spec. auto.
    + assert (M : magnitude ds = Some (value_of ds)) by (apply magnitude_spec; auto). rewrite M. subst z. reflexivity.
Qed.

Lemma atoi_none t : atoi t = None <-> ~ exists z, reads t z.
Proof.
  split.
  - intros H [z Hz]. apply atoi_reads in Hz. congruence.
  - intros H. destruct (atoi t) as [z|] eqn:E; [|reflexivity]. exfalso. apply H. exists z. apply atoi_reads. exact E.
Qed.
