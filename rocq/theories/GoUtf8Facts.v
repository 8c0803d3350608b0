From Verif Require Import GoBase GoUtf8.
From Coq Require Import ZifyBool ZifyNat ZifyN.
Ltac Zify.zify_post_hook ::= Z.div_mod_to_equations.
Local Open Scope N_scope.

Lemma utf8_valid_encode_rune r b :
  scalar r -> utf8_valid (utf8_encode_rune r ++ b) = utf8_valid b.
Proof.
  unfold scalar, utf8_encode_rune; intros Hs.
  destruct (r <? 0x80) eqn:E1; [cbn [app utf8_valid]; rewrite E1; reflexivity|].
  destruct (r <? 0x800) eqn:E2.
  { cbn [app utf8_valid]. unfold cont, between.
    replace (0xC0 + r / 64 <? 0x80) with false by lia.
    replace ((0xC2 <=? 0xC0 + r / 64) && (0xC0 + r / 64 <=? 0xDF))%bool with true by lia.
    replace ((0x80 <=? 0x80 + r mod 64) && (0x80 + r mod 64 <=? 0xBF))%bool with true by lia.
    reflexivity. }
  destruct (r <? 0x10000) eqn:E3.
  { cbn [app utf8_valid]. unfold cont, between.
    replace (0xE0 + r / 4096 <? 0x80) with false by lia.
    replace ((0xC2 <=? 0xE0 + r / 4096) && (0xE0 + r / 4096 <=? 0xDF))%bool with false by lia.
    replace ((0xE0 <=? 0xE0 + r / 4096) && (0xE0 + r / 4096 <=? 0xEF))%bool with true by lia.
    replace ((0x80 <=? 0x80 + r mod 64) && (0x80 + r mod 64 <=? 0xBF))%bool with true by lia.
    destruct (0xE0 + r / 4096 =? 0xE0) eqn:Ea.
    - replace ((0xA0 <=? 0x80 + (r / 64) mod 64) && (0x80 + (r / 64) mod 64 <=? 0xBF))%bool with true by lia.
      reflexivity.
    - destruct (0xE0 + r / 4096 =? 0xED) eqn:Eb.
      + replace ((0x80 <=? 0x80 + (r / 64) mod 64) && (0x80 + (r / 64) mod 64 <=? 0x9F))%bool with true by lia.
        reflexivity.
      + replace ((0x80 <=? 0x80 + (r / 64) mod 64) && (0x80 + (r / 64) mod 64 <=? 0xBF))%bool with true by lia.
        reflexivity. }
  cbn [app utf8_valid]. unfold cont, between.
  replace (0xF0 + r / 262144 <? 0x80) with false by lia.
  replace ((0xC2 <=? 0xF0 + r / 262144) && (0xF0 + r / 262144 <=? 0xDF))%bool with false by lia.
  replace ((0xE0 <=? 0xF0 + r / 262144) && (0xF0 + r / 262144 <=? 0xEF))%bool with false by lia.
  replace ((0xF0 <=? 0xF0 + r / 262144) && (0xF0 + r / 262144 <=? 0xF4))%bool with true by lia.
  replace ((0x80 <=? 0x80 + r mod 64) && (0x80 + r mod 64 <=? 0xBF))%bool with true by lia.
  replace ((0x80 <=? 0x80 + (r / 64) mod 64) && (0x80 + (r / 64) mod 64 <=? 0xBF))%bool with true by lia.
  destruct (0xF0 + r / 262144 =? 0xF0) eqn:Ea.
  - replace ((0x90 <=? 0x80 + (r / 4096) mod 64) && (0x80 + (r / 4096) mod 64 <=? 0xBF))%bool with true by lia.
    reflexivity.
  - destruct (0xF0 + r / 262144 =? 0xF4) eqn:Eb.
    + replace ((0x80 <=? 0x80 + (r / 4096) mod 64) && (0x80 + (r / 4096) mod 64 <=? 0x8F))%bool with true by lia.
      reflexivity.
    + replace ((0x80 <=? 0x80 + (r / 4096) mod 64) && (0x80 + (r / 4096) mod 64 <=? 0xBF))%bool with true by lia.
      reflexivity.
Qed.

Lemma utf8_valid_encode t : Forall scalar t -> utf8_valid (utf8_encode t) = true.
Proof.
  induction 1 as [|r t Hr _ IH]; [reflexivity|].
  unfold utf8_encode; cbn [flat_map]. rewrite utf8_valid_encode_rune by exact Hr. exact IH.
Qed.

Lemma utf8_valid_decode_aux n : forall b, (length b <= n)%nat ->
  utf8_valid b = true -> exists t, Forall scalar t /\ b = utf8_encode t.
Proof.
  induction n as [|n IH]; intros b Hl Hv.
  { destruct b as [|x b]; [|cbn in Hl; lia]. exists []; split; [constructor|reflexivity]. }
  destruct b as [|x b]; [exists []; split; [constructor|reflexivity]|].
  assert (Hk : forall c r, x :: b = c ++ r -> (length r <= n)%nat -> utf8_valid r = true ->
             (exists k, scalar k /\ utf8_encode_rune k = c) ->
             exists t, Forall scalar t /\ x :: b = utf8_encode t).
  { intros c r Hb Hr Hvr [k [Hk Hc]]. destruct (IH r Hr Hvr) as [t [Ht Et]].
    exists (k :: t); split; [constructor; assumption|].
    unfold utf8_encode in *; cbn [flat_map]. rewrite Hc, Hb, Et; reflexivity. }
  cbn [utf8_valid] in Hv. cbn [length] in Hl.
  destruct (x <? 0x80) eqn:E0.
  { apply (Hk [x] b); [reflexivity|lia|exact Hv|]. exists x; split; [unfold scalar; lia|].
    unfold utf8_encode_rune; rewrite E0; reflexivity. }
  destruct b as [|y b]; [discriminate|]. cbn [length] in Hl.
  destruct (between 0xC2 0xDF x) eqn:E1.
  { apply andb_prop in Hv; destruct Hv as [Hy Hv]. unfold cont, between in *.
    apply (Hk [x; y] b); [reflexivity|lia|exact Hv|].
    exists ((x - 0xC0) * 64 + (y - 0x80)); split; [unfold scalar; lia|].
    unfold utf8_encode_rune.
    replace ((x - 0xC0) * 64 + (y - 0x80) <? 0x80) with false by lia.
    replace ((x - 0xC0) * 64 + (y - 0x80) <? 0x800) with true by lia.
    f_equal; [lia|f_equal; lia]. }
  destruct b as [|z b]; [discriminate|]. cbn [length] in Hl.
  destruct (between 0xE0 0xEF x) eqn:E2.
  { apply andb_prop in Hv; destruct Hv as [Hv Hvr]. apply andb_prop in Hv; destruct Hv as [Hy Hz].
    apply (Hk [x; y; z] b); [reflexivity|lia|exact Hvr|].
    assert (Hyr : 0x80 <= y <= 0xBF /\ (x = 0xE0 -> 0xA0 <= y) /\ (x = 0xED -> y <= 0x9F)).
    { unfold cont, between in *. destruct (x =? 0xE0) eqn:Ea; [lia|].
      destruct (x =? 0xED) eqn:Eb; lia. }
    unfold cont, between in *.
    exists ((x - 0xE0) * 4096 + (y - 0x80) * 64 + (z - 0x80)); split; [unfold scalar; lia|].
    unfold utf8_encode_rune. set (k := (x - 0xE0) * 4096 + (y - 0x80) * 64 + (z - 0x80)).
    assert (Hk2 : k / 4096 = x - 0xE0 /\ (k / 64) mod 64 = y - 0x80 /\ k mod 64 = z - 0x80) by (subst k; lia).
    replace (k <? 0x80) with false by (subst k; lia).
    replace (k <? 0x800) with false by (subst k; lia).
    replace (k <? 0x10000) with true by (subst k; lia).
    destruct Hk2 as [-> [-> ->]]. f_equal; [lia|f_equal; [lia|f_equal; lia]]. }
  destruct b as [|w b]; [discriminate|]. cbn [length] in Hl.
  apply andb_prop in Hv; destruct Hv as [Hv Hvr]. apply andb_prop in Hv; destruct Hv as [Hv Hw].
  apply andb_prop in Hv; destruct Hv as [Hv Hz]. apply andb_prop in Hv; destruct Hv as [Hx Hy].
  apply (Hk [x; y; z; w] b); [reflexivity|lia|exact Hvr|].
  assert (Hyr : 0x80 <= y <= 0xBF /\ (x = 0xF0 -> 0x90 <= y) /\ (x = 0xF4 -> y <= 0x8F)).
  { unfold cont, between in *. destruct (x =? 0xF0) eqn:Ea; [lia|].
    destruct (x =? 0xF4) eqn:Eb; lia. }
  unfold cont, between in *.
  set (k := (x - 0xF0) * 262144 + (y - 0x80) * 4096 + (z - 0x80) * 64 + (w - 0x80)).
  assert (Hk2 : k / 262144 = x - 0xF0 /\ (k / 4096) mod 64 = y - 0x80 /\ (k / 64) mod 64 = z - 0x80 /\ k mod 64 = w - 0x80)
    by (subst k; lia).
  exists k; split; [unfold scalar; subst k; lia|].
  unfold utf8_encode_rune.
  replace (k <? 0x80) with false by (subst k; lia).
  replace (k <? 0x800) with false by (subst k; lia).
  replace (k <? 0x10000) with false by (subst k; lia).
  destruct Hk2 as [-> [-> [-> ->]]]. f_equal; [lia|f_equal; [lia|f_equal; [lia|f_equal; lia]]].
Qed.

(** [utf8.Valid] accepts exactly the encodings of sequences of scalar values. *)
Theorem utf8_valid_spec b :
  utf8_valid b = true <-> exists t, Forall scalar t /\ b = utf8_encode t.
Proof.
  split; [apply (utf8_valid_decode_aux (length b)); lia|].
  intros [t [Ht ->]]. apply utf8_valid_encode; exact Ht.
Qed.
