(** Proofs for C108: durations, read and written. *)
From Verif Require Import GoBase GoBaseFacts GoFmt PlaylistModel PcmModel PcmProofs GoFloat GoFloatFacts NumberSpec NumberProofs FloatTextSpec FloatTextModel FloatTextProofs CliModel CliSpec CliNumProofs CliDurProofs CliFracProofs.
From Coq Require Import ZifyBool ZifyNat ZifyN.
Local Open Scope Z_scope.

Lemma ten_pos k : 0 <= k -> 0 < 10 ^ k. Proof. intros. apply Z.pow_pos_nonneg; lia. Qed.
Lemma zlen_nonneg {A} (l : list A) : 0 <= zlen l. Proof. unfold zlen. lia. Qed.
Lemma zlen_app {A} (a b : list A) : zlen (a ++ b) = zlen a + zlen b. Proof. unfold zlen. rewrite app_length. lia. Qed.
Lemma unit_bounds w u : In (w, u) units -> 0 < u <= 3600000000000.
Proof. unfold units. intros H. repeat (destruct H as [[= <- <-]|H]; [lia|]). destruct H. Qed.

Definition fraction (b1 : text) (u : Z) : Z := if 0 <? value_of b1 then frac (value_of b1) u (scale (length b1)) else 0.

Lemma no_divisor k u : 18 <= k -> 0 < u <= 3600000000000 -> ~ (10 ^ k | u).
Proof.
  intros Hk Hu [q E]. assert (10 ^ 18 <= 10 ^ k) by (apply Z.pow_le_mono_r; lia). assert (0 < 10 ^ k) by lia.
  assert (0 < q) by nia. assert (1 * 10 ^ k <= q * 10 ^ k) by (apply Z.mul_le_mono_nonneg_r; lia). lia.
Qed.
Lemma truncated T P f m u r : 0 < T -> 0 < P -> 0 <= m < P -> 0 < u <= 3600000000000 -> (m = 0 \/ 10 ^ 18 <= T) ->
  100 * Z.abs (r * T - f * u) <= 101 * T -> 100 * Z.abs (r * (T * P) - (f * P + m) * u) <= 102 * (T * P).
Proof.
  intros HT HP Hm Hu C H.
  assert (A : 100 * (P * Z.abs (r * T - f * u)) <= 101 * (T * P)) by nia. rewrite mul_abs in A by lia.
  assert (B : 0 <= 100 * (m * u) <= T * P).
  { split; [clear - Hm Hu; nia|]. destruct C as [-> |C]; [clear - HT HP; nia|].
    apply (Z.le_trans _ (10 ^ 18 * P)); [|apply Z.mul_le_mono_nonneg_r; lia]. clear - Hm Hu. nia. }
  replace (r * (T * P) - (f * P + m) * u) with (P * (r * T - f * u) - m * u) by ring.
  clear - A B. generalize dependent (P * (r * T - f * u)). intros x. generalize dependent (m * u). intros y. generalize dependent (T * P). intros. lia.
Qed.
Lemma fraction_spec b1 b2 u : Forall decimal_digit (b1 ++ b2) -> b2 = [] \/ 18 <= zlen b1 -> value_of b1 < 2 ^ 63 -> 0 < u <= 3600000000000 ->
  let k := zlen (b1 ++ b2) in let n := value_of (b1 ++ b2) in
  0 <= fraction b1 u /\ 100 * Z.abs (fraction b1 u * 10 ^ k - n * u) <= 102 * 10 ^ k /\ ((10 ^ k | u) -> fraction b1 u * 10 ^ k = n * u).
Proof.
  intros F C L Hu. cbn zeta. apply Forall_app in F as [F1 F2]. pose proof (value_bound _ F1) as B1. pose proof (value_bound _ F2) as B2.
  rewrite value_app, zlen_app, Z.pow_add_r by apply zlen_nonneg.
  pose proof (ten_pos _ (zlen_nonneg b1)) as HT. pose proof (ten_pos _ (zlen_nonneg b2)) as HP.
  assert (Hz : zlen b1 = Z.of_nat (length b1)) by reflexivity.
  assert (Hm : value_of b2 = 0 \/ 10 ^ 18 <= 10 ^ zlen b1).
  { destruct C as [-> |C]; [now left|right]. apply Z.pow_le_mono_r; lia. }
  assert (Core : 0 <= fraction b1 u /\ 100 * Z.abs (fraction b1 u * 10 ^ zlen b1 - value_of b1 * u) <= 101 * 10 ^ zlen b1).
  { unfold fraction. destruct (Z.ltb_spec 0 (value_of b1)) as [Pf|Pf].
    - destruct (le_lt_dec (length b1) 40) as [Lj|Lj].
      + rewrite Hz in *. apply frac_small; try assumption; lia.
      + assert (E : (length b1 = (length b1 - 40) + 40)%nat) by lia. rewrite E, frac_large by lia. clear E. split; [lia|].
        assert (10 ^ 40 <= 10 ^ zlen b1) by (apply Z.pow_le_mono_r; lia).
        assert (value_of b1 * u <= 2 ^ 63 * 3600000000000) by (apply Z.mul_le_mono_nonneg; lia).
        assert (0 <= value_of b1 * u) by nia. rewrite Z.mul_0_l, Z.sub_0_l, Z.abs_opp, Z.abs_eq by assumption. lia.
    - assert (value_of b1 = 0) as -> by lia. rewrite !Z.mul_0_l. split; [lia|]. change (Z.abs (0 - 0)) with 0. lia. }
  destruct Core as [R0 R1]. split; [exact R0|]. split; [now apply truncated|].
  intros D. rewrite <- Z.pow_add_r in D by apply zlen_nonneg. destruct C as [-> |C].
  - change (zlen []) with 0 in *. rewrite Z.add_0_r in D. change (value_of []) with 0. rewrite Z.pow_0_r, Z.add_0_r, !Z.mul_1_r.
    unfold fraction. destruct (Z.ltb_spec 0 (value_of b1)) as [Pf|Pf].
    + destruct D as [q D]. rewrite Hz in *. apply (frac_exact _ _ _ q); [lia|exact Hu|exact D].
    + assert (value_of b1 = 0) as -> by lia. reflexivity.
  - exfalso. apply (no_divisor (zlen b1 + zlen b2) u); [pose proof (zlen_nonneg b2); lia|exact Hu|exact D].
Qed.

(* ------------------------------------------------------------------ *)
(** ** The unit *)

Definition starts (r : text) : Prop := match r with [] => True | c :: _ => c = 46%N \/ decimal_digit c end.
Definition unit_char (c : N) : bool := negb ((c =? 46)%N || match dec_val c with Some _ => true | None => false end).
Lemma unit_text_cons c r : unit_text (c :: r) = if unit_char c then let '(u, r') := unit_text r in (c :: u, r') else ([], c :: r).
Proof. cbn [unit_text]. unfold unit_char. now destruct ((c =? 46)%N || _). Qed.
Lemma starts_char c r : starts (c :: r) <-> unit_char c = false.
Proof.
  unfold unit_char. cbn [starts]. rewrite negb_false_iff, orb_true_iff, N.eqb_eq. split; intros [H|H]; auto.
  - right. now rewrite (dec_val_digit c H).
  - right. destruct (dec_val c) as [d|] eqn:E; [|discriminate]. now apply (dec_val_some c d).
Qed.
Lemma unit_text_app w r : forallb unit_char w = true -> starts r -> unit_text (w ++ r) = (w, r).
Proof.
  intros H S. induction w as [|c w IH]; cbn [app].
  - destruct r as [|c r]; [reflexivity|]. apply starts_char in S. rewrite unit_text_cons, S. reflexivity.
  - cbn [forallb] in H. apply andb_true_iff in H as [H1 H2]. rewrite unit_text_cons, H1, (IH H2). reflexivity.
Qed.
Lemma unit_text_inv s : forall w r, unit_text s = (w, r) -> s = w ++ r /\ starts r.
Proof.
  induction s as [|c s IH]; intros w r H.
  - injection H as <- <-. split; [reflexivity|exact I].
  - rewrite unit_text_cons in H. destruct (unit_char c) eqn:E.
    + destruct (unit_text s) as [w' r'] eqn:U. injection H as <- <-. destruct (IH w' r' eq_refl) as [-> S]. split; [reflexivity|exact S].
    + injection H as <- <-. split; [reflexivity|]. now apply starts_char.
Qed.
Lemma units_chars w u : In (w, u) units -> forallb unit_char w = true /\ w <> [] /\ unit_map w = Some u.
Proof.
  unfold units. intros H. repeat (destruct H as [[= <- <-]|H]; [split; [vm_compute; reflexivity|split; [discriminate|vm_compute; reflexivity]]|]). destruct H.
Qed.
Lemma unit_map_in w u : unit_map w = Some u -> In (w, u) units.
Proof.
  unfold unit_map, units. intros H.
  repeat match type of H with
  | (if ?b then _ else _) = _ => let E := fresh in destruct b eqn:E
  | Some _ = Some _ => injection H as <-
  | None = _ => discriminate H
  end;
  repeat match goal with
  | E : (_ || _)%bool = true |- _ => apply orb_true_iff in E as [E|E]
  | E : text_eqb _ _ = true |- _ => apply text_eqb_eq in E; subst w
  end; cbn [In]; auto 12.
Qed.

(* ------------------------------------------------------------------ *)
(** ** One amount *)

Lemma char_no_digit c : unit_char c = true -> dec_val c = None /\ c <> 46%N.
Proof. unfold unit_char. destruct (N.eqb_spec c 46) as [->|N]; [discriminate|]. cbn [orb]. destruct (dec_val c); [discriminate|auto]. Qed.
Lemma first_ok a b : Forall decimal_digit a -> (a <> [] \/ exists b', b = 46%N :: b') ->
  match a ++ b with [] => True | c :: _ => (c =? 46)%N || match dec_val c with Some _ => true | None => false end = true end.
Proof.
  intros F [H|(b' & ->)]; destruct a as [|c a]; try contradiction; cbn [app]; try reflexivity; inversion F as [|? ? Hc _]; subst;
    rewrite (dec_val_digit c Hc); apply orb_true_r.
Qed.
Lemma length_differs {A} (a r : list A) : negb (length r =? length (a ++ r))%nat = match a with [] => false | _ => true end.
Proof. rewrite app_length. destruct a as [|x a]; cbn [length Nat.add]; [now rewrite Nat.eqb_refl|]. destruct (Nat.eqb_spec (length r) (S (length a + length r))); [lia|reflexivity]. Qed.

Definition finish (va u f : Z) (scale : f64) (r : text) : option (Z * text) :=
  if max_int64 / u <? va then None
  else let v' := va * u in
       let v'' := if 0 <? f then wrap64 (v' + to_int64 (fmul (f_of_int f) (unit_quotient u scale))) else v' in
       if v'' <? 0 then None else Some (v'', r).

Lemma finish_spec va u b1 r : 0 <= va < 2 ^ 63 -> 0 < u <= 3600000000000 -> 0 <= fraction b1 u <= u + 2 ->
  finish va u (value_of b1) (scale (length b1)) r = (let v := va * u + fraction b1 u in if v <? 2 ^ 63 then Some (v, r) else None).
Proof.
  intros Hv Hu. unfold finish, fraction, frac. cbn zeta.
  set (fr := to_int64 (fmul (f_of_int (value_of b1)) (unit_quotient u (scale (length b1))))). clearbody fr. generalize (0 <? value_of b1). intros b Hr.
  pose proof (Z.div_mod max_int64 u ltac:(lia)) as E. pose proof (Z.mod_pos_bound max_int64 u ltac:(lia)) as B. unfold max_int64 in *.
  destruct (Z.ltb_spec ((2 ^ 63 - 1) / u) va) as [L|L].
  - assert (2 ^ 63 <= va * u) by nia. destruct b; cbn iota in *; match goal with |- None = (if ?x <? ?y then _ else _) => destruct (Z.ltb_spec x y); [lia|reflexivity] end.
  - assert (H : 0 <= va * u <= 2 ^ 63 - 1) by nia. destruct b; cbn iota in *.
    + clear - Hr H Hu. set (x := va * u) in *. clearbody x. destruct (Z.ltb_spec (x + fr) (2 ^ 63)) as [G|G].
      * rewrite wrap64_id by (unfold in_int64; lia). destruct (Z.ltb_spec (x + fr) 0); [lia|reflexivity].
      * assert (W : wrap64 (x + fr) = x + fr - 2 ^ 64).
        { unfold wrap64. replace (x + fr + 2 ^ 63) with (x + fr - 2 ^ 63 + 1 * 2 ^ 64) by lia. rewrite Z.mod_add by lia. rewrite Z.mod_small by lia. lia. }
        rewrite W. destruct (Z.ltb_spec (x + fr - 2 ^ 64) 0); [reflexivity|lia].
    + rewrite Z.add_0_r. destruct (Z.ltb_spec (va * u) (2 ^ 63)); [|lia]. destruct (Z.ltb_spec (va * u) 0); [lia|reflexivity].
Qed.

(** the parts of an amount *)
Lemma part_unfold a tail rest w u b : Forall decimal_digit a -> Forall decimal_digit b -> a ++ b <> [] ->
  In (w, u) units -> starts rest -> (tail = w ++ rest /\ b = [] \/ tail = 46%N :: b ++ w ++ rest) ->
  exists b1 b2, b = b1 ++ b2 /\ (b2 = [] \/ 18 <= zlen b1) /\ value_of b1 < 2 ^ 63 /\
    duration_part (a ++ tail) = if value_of a <? 2 ^ 63 then finish (value_of a) u (value_of b1) (scale (length b1)) rest else None.
Proof.
  intros Fa Fb Ne Iu St Ht. destruct (units_chars w u Iu) as (Wc & Wn & Wm).
  destruct w as [|w0 w]; [contradiction|]. pose proof Wc as Wc'. cbn [forallb] in Wc'. apply andb_true_iff in Wc' as [W0 _].
  destruct (char_no_digit w0 W0) as [Wd Wp].
  assert (Nw : no_digit ((w0 :: w) ++ rest)) by exact Wd.
  assert (Nt : no_digit tail) by (destruct Ht as [[-> _]| ->]; [exact Nw|reflexivity]).
  assert (Fst : a <> [] \/ exists b', tail = 46%N :: b').
  { destruct Ht as [[_ ->]| ->]; [left; now rewrite app_nil_r in Ne|right; eauto]. }
  pose proof (first_ok a tail Fa Fst) as Fk.
  destruct (a ++ tail) as [|c s] eqn:Es; [destruct a; [|discriminate]; cbn in Es; subst tail; destruct Ht as [[Ht _]|Ht]; discriminate|].
  assert (LI : leading_int (c :: s) 0 = if value_of a <? 2 ^ 63 then Some (value_of a, tail) else None).
  { rewrite <- Es. apply leading_int_spec; [exact Fa|exact Nt|lia]. }
  unfold duration_part. rewrite Fk. cbn [negb]. rewrite LI. clear LI.
  assert (Pre : negb (length tail =? length (c :: s))%nat = match a with [] => false | _ => true end) by (rewrite <- Es; apply length_differs).
  destruct Ht as [[-> ->]| ->].
  - exists [], []. split; [reflexivity|]. split; [now left|]. split; [reflexivity|].
    destruct (value_of a <? 2 ^ 63); [|reflexivity]. rewrite Pre. cbn [app] in *. destruct (N.eqb_spec w0 46) as [->|_]; [contradiction|].
    rewrite app_nil_r in Ne. destruct a as [|a0 a]; [contradiction|]. cbn [negb andb].
    pose proof (unit_text_app (w0 :: w) rest Wc St) as UT. cbn [app] in UT. rewrite UT, Wm. reflexivity.
  - destruct (leading_fraction_spec b ((w0 :: w) ++ rest) Fb Nw [] (Forall_nil _) eq_refl) as (b1 & b2 & Eb & Cb & Vb & Lb).
    cbn [app] in Eb, Cb, Vb. exists b1, b2. split; [exact Eb|]. split; [exact Cb|]. split; [exact Vb|].
    destruct (value_of a <? 2 ^ 63); [|reflexivity]. rewrite Pre. change ((46 =? 46)%N) with true. cbn match.
    change (value_of []) with 0 in Lb. change (scale (length [])) with float_1 in Lb. change (value_of ([] ++ b1)) with (value_of b1) in Lb.
    change (scale (length ([] ++ b1))) with (scale (length b1)) in Lb. rewrite Lb. rewrite length_differs.
    assert (NN : negb match a with [] => false | _ => true end && negb match b with [] => false | _ => true end = false).
    { destruct a; [|reflexivity]. destruct b; [|reflexivity]. now destruct Ne. }
    rewrite NN. pose proof (unit_text_app (w0 :: w) rest Wc St) as UT. cbn [app] in UT |- *. rewrite UT, Wm. reflexivity.
Qed.

Lemma amount_value t n k w u rest : amount t n k -> In (w, u) units -> starts rest ->
  exists v, 0 <= v /\ reads_amount (n, k, u) v /\ duration_part (t ++ w ++ rest) = if v <? 2 ^ 63 then Some (v, rest) else None.
Proof.
  intros (a & b & Fa & Fb & Ne & Ht & -> & ->) Iu St. pose proof (unit_bounds w u Iu) as Hu.
  assert (Sh : exists tail, t ++ w ++ rest = a ++ tail /\ (tail = w ++ rest /\ b = [] \/ tail = 46%N :: b ++ w ++ rest)).
  { destruct Ht as [[-> ->]| ->]; [exists (w ++ rest); auto|]. exists (46%N :: b ++ w ++ rest). split; [now rewrite <- app_assoc|now right]. }
  destruct Sh as (tail & -> & Ht').
  destruct (part_unfold a tail rest w u b Fa Fb Ne Iu St Ht') as (b1 & b2 & -> & Cb & Vb & E).
  destruct (fraction_spec b1 b2 u Fb Cb Vb Hu) as (R0 & R1 & R2). pose proof (value_bound _ Fa) as Ba. pose proof (value_bound _ Fb) as Bb.
  pose proof (ten_pos _ (zlen_nonneg (b1 ++ b2))) as HK.
  rewrite E. exists (value_of a * u + fraction b1 u). rewrite value_app. unfold reads_amount. set (K := 10 ^ zlen (b1 ++ b2)) in *. set (vb := value_of (b1 ++ b2)) in *. set (va := value_of a) in *.
  clearbody K vb va. set (fr := fraction b1 u) in *.
  assert (Rb : fr <= u + 2).
  { clearbody fr. assert (vb * u <= K * u) by (clear - Bb Hu; apply Z.mul_le_mono_nonneg_r; lia).
    assert (100 * (fr * K) <= 100 * (K * u) + 102 * K).
    { clear - H R1. generalize dependent (fr * K). intros x. generalize dependent (vb * u). intros y. generalize dependent (K * u). intros z. lia. }
    assert (100 * fr * K <= (100 * u + 102) * K) by (clear - H0; lia). apply Z.mul_le_mono_pos_r in H1; [|exact HK]. clear - H1. lia. }
  split; [clear - R0 Ba Hu; clearbody fr; nia|]. split.
  - replace ((va * u + fr) * K - (va * K + vb) * u) with (fr * K - vb * u) by ring. split; [exact R1|].
    intros D. specialize (R2 D). replace ((va * u + fr) * K) with (va * u * K + fr * K) by ring. rewrite R2. ring.
  - destruct (Z.ltb_spec va (2 ^ 63)) as [L|L].
    + unfold fr. rewrite finish_spec; [reflexivity| | |]; fold fr; clear - Ba L Hu R0 Rb; clearbody fr; lia.
    + assert (2 ^ 63 <= va * u + fr) by (clear - L Hu R0; clearbody fr; nia). destruct (Z.ltb_spec (va * u + fr) (2 ^ 63)); [clear - H H0; clearbody fr; lia|reflexivity].
Qed.

Lemma part_sound s v rest : duration_part s = Some (v, rest) -> exists t n k w u, s = t ++ w ++ rest /\ amount t n k /\ In (w, u) units /\ starts rest.
Proof.
  unfold duration_part. destruct (split_digits s) as (a & r & -> & Fa & Nr).
  destruct (a ++ r) as [|c0 s0] eqn:Es; [discriminate|]. destruct (negb _); [discriminate|].
  assert (LI : leading_int (c0 :: s0) 0 = if value_of a <? 2 ^ 63 then Some (value_of a, r) else None) by (rewrite <- Es; apply leading_int_spec; [exact Fa|exact Nr|lia]).
  rewrite LI. clear LI. destruct (value_of a <? 2 ^ 63); [|discriminate].
  assert (Pre : negb (length r =? length (c0 :: s0))%nat = match a with [] => false | _ => true end) by (rewrite <- Es; apply length_differs).
  rewrite Pre. rewrite <- Es. clear Es c0 s0 Pre.
  assert (Fin : forall (x : text) (f : Z) sc, (let '(u, s3) := unit_text x in match u with [] => None | _ => match unit_map u with None => None | Some unit =>
      finish (value_of a) unit f sc s3 end end) = Some (v, rest) -> exists w u, x = w ++ rest /\ In (w, u) units /\ starts rest).
  { intros x f sc. destruct (unit_text x) as [w s3] eqn:U. apply unit_text_inv in U as [-> S3]. destruct w as [|w0 w]; [discriminate|].
    destruct (unit_map (w0 :: w)) as [u|] eqn:M; [|discriminate]. apply unit_map_in in M. unfold finish. cbn zeta.
    do 2 match goal with |- (if ?b then _ else _) = _ -> _ => destruct b; [discriminate|] end. intros [= _ <-]. eauto. }
  destruct r as [|p r].
  - destruct a; cbn [negb andb]; [discriminate|]. intros H. apply (Fin [] 0 float_1) in H as (w & u & E & Iu & S). apply units_chars in Iu as (_ & Wn & _).
    destruct w; [contradiction|discriminate].
  - destruct (N.eqb_spec p 46) as [->|Np].
    + destruct (split_digits r) as (b & r' & -> & Fb & Nr'). 
      destruct (leading_fraction_spec b r' Fb Nr' [] (Forall_nil _) eq_refl) as (b1 & b2 & _ & _ & _ & Lb).
      change (value_of []) with 0 in Lb. change (scale (length [])) with float_1 in Lb. rewrite Lb. rewrite length_differs.
      destruct (negb match a with [] => false | _ => true end && negb match b with [] => false | _ => true end) eqn:NN; [discriminate|].
      intros H. apply (Fin r' _ _) in H as (w & u & -> & Iu & S). exists (a ++ 46%N :: b), (value_of (a ++ b)), (zlen b), w, u. split; [now rewrite <- app_assoc|].
      split; [|auto]. exists a, b. repeat split; auto. destruct a; [|discriminate]. destruct b; [discriminate|discriminate].
    + destruct a as [|a0 a]; cbn [negb andb]; [discriminate|]. intros H. apply (Fin (p :: r) 0 float_1) in H as (w & u & E & Iu & S). 
      exists (a0 :: a), (value_of (a0 :: a)), 0, w, u. rewrite E. split; [reflexivity|]. split; [|auto].
      exists (a0 :: a), []. rewrite app_nil_r. repeat split; auto. discriminate.
Qed.

(* ------------------------------------------------------------------ *)
(** ** All the amounts *)

Definition total (l : list Z) : Z := fold_right Z.add 0 l.

Lemma amount_starts t n k : amount t n k -> t <> [] /\ forall r, starts (t ++ r).
Proof.
  intros (a & b & Fa & Fb & Ne & Ht & _). destruct Ht as [[-> ->]| ->].
  - rewrite app_nil_r in Ne. split; [exact Ne|]. intros r. destruct a as [|c a]; [contradiction|]. cbn. right. now inversion Fa.
  - split; [now destruct a|]. intros r. destruct a as [|c a]; cbn; [now left|right]. now inversion Fa.
Qed.
Lemma amounts_starts r l : amounts r l -> starts r /\ r <> [].
Proof.
  intros H. destruct H as [t n k w u A I|t n k w u r l A I _]; destruct (amount_starts t n k A) as [N S].
  - split; [apply S|]. destruct t; [contradiction|discriminate].
  - split; [apply S|]. destruct t; [contradiction|discriminate].
Qed.
Lemma wrap_sum d v : 0 <= d < 2 ^ 63 -> 0 <= v < 2 ^ 63 -> (wrap64 (d + v) <? 0) = negb (d + v <? 2 ^ 63) /\ (d + v < 2 ^ 63 -> wrap64 (d + v) = d + v).
Proof.
  intros Hd Hv. destruct (Z.ltb_spec (d + v) (2 ^ 63)) as [L|L].
  - rewrite wrap64_id by (unfold in_int64; lia). split; [|auto]. destruct (Z.ltb_spec (d + v) 0); [lia|reflexivity].
  - assert (W : wrap64 (d + v) = d + v - 2 ^ 64).
    { unfold wrap64. replace (d + v + 2 ^ 63) with (d + v - 2 ^ 63 + 1 * 2 ^ 64) by lia. rewrite Z.mod_add by lia. rewrite Z.mod_small by lia. lia. }
    rewrite W. split; [|lia]. destruct (Z.ltb_spec (d + v - 2 ^ 64) 0); [reflexivity|lia].
Qed.
Lemma loop_step fuel s d : s <> [] -> duration_loop (S fuel) s d =
  match duration_part s with None => None | Some (v, r) => let d' := wrap64 (d + v) in if d' <? 0 then None else duration_loop fuel r d' end.
Proof. destruct s; [contradiction|reflexivity]. Qed.
Lemma loop_complete r l : amounts r l -> exists rs, Forall2 reads_amount l rs /\ Forall (fun v => 0 <= v) rs /\
  forall fuel d, (length r <= fuel)%nat -> 0 <= d < 2 ^ 63 ->
    duration_loop fuel r d = if d + total rs <? 2 ^ 63 then Some (d + total rs) else None.
Proof.
  induction 1 as [t n k w u A I|t n k w u r l A I AM (rs & F2 & Fn & IH)].
  - destruct (amount_value t n k w u [] A I Logic.I) as (v & V0 & RV & E). rewrite app_nil_r in E. exists [v].
    split; [constructor; [exact RV|constructor]|]. split; [constructor; [exact V0|constructor]|]. intros fuel d Hf Hd.
    destruct (amount_starts t n k A) as [N _]. assert (NN : t ++ w <> []) by (now destruct t).
    destruct fuel as [|fuel]; [destruct (t ++ w); [contradiction|cbn in Hf; lia]|]. rewrite loop_step by exact NN. rewrite E. cbn [total fold_right]. rewrite Z.add_0_r.
    destruct (Z.ltb_spec v (2 ^ 63)) as [L|L].
    + destruct (wrap_sum d v Hd ltac:(lia)) as [W1 W2]. cbn zeta. rewrite W1. destruct (Z.ltb_spec (d + v) (2 ^ 63)) as [L2|L2]; cbn [negb]; [|reflexivity].
      rewrite W2 by exact L2. now destruct fuel.
    + destruct (Z.ltb_spec (d + v) (2 ^ 63)); [lia|reflexivity].
  - destruct (amounts_starts r l AM) as [St Nr]. destruct (amount_value t n k w u r A I St) as (v & V0 & RV & E). exists (v :: rs).
    split; [constructor; assumption|]. split; [constructor; assumption|]. intros fuel d Hf Hd.
    destruct (amount_starts t n k A) as [N _]. assert (NN : t ++ w ++ r <> []) by (now destruct t).
    assert (T0 : 0 <= total rs) by (clear - Fn; induction Fn; cbn [total fold_right]; [lia|unfold total in *; lia]).
    destruct fuel as [|fuel]; [destruct (t ++ w ++ r); [contradiction|cbn in Hf; lia]|]. rewrite loop_step by exact NN. rewrite E.
    change (total (v :: rs)) with (v + total rs). destruct (Z.ltb_spec v (2 ^ 63)) as [L|L].
    + destruct (wrap_sum d v Hd ltac:(lia)) as [W1 W2]. cbn zeta. rewrite W1. destruct (Z.ltb_spec (d + v) (2 ^ 63)) as [L2|L2]; cbn [negb].
      * rewrite W2 by exact L2. rewrite IH; [now rewrite Z.add_assoc| |lia]. rewrite !app_length in Hf. destruct t; [contradiction|]. cbn [length] in Hf. lia.
      * destruct (Z.ltb_spec (d + (v + total rs)) (2 ^ 63)); [lia|reflexivity].
    + destruct (Z.ltb_spec (d + (v + total rs)) (2 ^ 63)); [lia|reflexivity].
Qed.
Lemma loop_sound fuel : forall s d z, s <> [] -> duration_loop fuel s d = Some z -> exists l, amounts s l.
Proof.
  induction fuel as [|fuel IH]; intros s d z Ne H; [destruct s; [contradiction|discriminate]|].
  rewrite loop_step in H by exact Ne. destruct (duration_part s) as [[v r]|] eqn:P; [|discriminate].
  apply part_sound in P as (t & n & k & w & u & -> & A & I & St). cbn zeta in H. destruct (_ <? 0); [discriminate|].
  destruct r as [|c r].
  - exists [(n, k, u)]. rewrite app_nil_r. now apply amounts_one.
  - destruct (IH (c :: r) _ z ltac:(discriminate) H) as (l & AM). exists ((n, k, u) :: l). now apply amounts_more.
Qed.

Lemma starts_no_sign r : starts r -> forall c r', r = c :: r' -> c <> 43%N /\ c <> 45%N.
Proof. intros S c r' ->. cbn in S. unfold decimal_digit in S. destruct S as [->|S]; split; try discriminate; lia. Qed.
Lemma amounts_not_zero l : ~ amounts (T "0") l.
Proof.
  intros H. assert (G : forall t n k w u r, T "0" = t ++ w ++ r -> amount t n k -> In (w, u) units -> False).
  { intros t n k w u r E A I. destruct (amount_starts t n k A) as [Nt _]. apply units_chars in I as (_ & W & _).
    apply (f_equal (@length N)) in E. rewrite !app_length in E. destruct t; [contradiction|]. destruct w; [contradiction|]. cbn in E. lia. }
  inversion H as [t n k w u A I E|t n k w u r l' A I _ E]; subst.
  - apply (G t n k w u []); [now rewrite app_nil_r|exact A|exact I].
  - now apply (G t n k w u r).
Qed.

Theorem durations_read t neg l : duration_text t neg l -> exists rs, Forall2 reads_amount l rs /\
  parse_duration t = if total rs <? 2 ^ 63 then Some (if neg then - total rs else total rs) else None.
Proof.
  intros (sg & r & -> & Sg & C). unfold parse_duration.
  assert (St : starts r) by (destruct C as [[-> _]|C]; [right; split; discriminate|now apply (amounts_starts r l)]).
  rewrite (strip_sign_app sg neg r Sg (starts_no_sign r St)).
  destruct C as [[-> ->]|C].
  - exists []. split; [constructor|]. cbn. now destruct neg.
  - assert (Nz : text_eqb r (T "0") = false). { apply text_eqb_neq. intros ->. exact (amounts_not_zero l C). }
    rewrite Nz. destruct (loop_complete r l C) as (rs & F2 & _ & H). exists rs. split; [exact F2|].
    destruct (amounts_starts r l C) as [_ Nr]. destruct r as [|c r]; [contradiction|]. rewrite (H _ 0 (le_n _) (conj (Z.le_refl 0) eq_refl)). rewrite Z.add_0_l. now destruct (_ <? _).
Qed.
Theorem durations_only t z : parse_duration t = Some z -> exists neg l, duration_text t neg l.
Proof.
  unfold parse_duration. destruct (strip_sign t) as [neg s] eqn:S. apply strip_sign_inv in S as (sg & -> & Sg).
  destruct (text_eqb s (T "0")) eqn:Z.
  - apply text_eqb_eq in Z as ->. intros _. exists neg, [], sg, (T "0"). auto.
  - destruct s as [|c s]; [discriminate|]. destruct (duration_loop _ _ 0) as [d|] eqn:D; [|discriminate]. intros _.
    destruct (loop_sound _ (c :: s) 0 d ltac:(discriminate) D) as (l & A). exists neg, l, sg, (c :: s). auto.
Qed.

(* ------------------------------------------------------------------ *)
(** ** Duration.String is read back *)

Lemma value_cons c b : value_of (c :: b) = (Z.of_N c - 48) * 10 ^ zlen b + value_of b.
Proof. change (c :: b) with ([c] ++ b). rewrite value_app. f_equal. Qed.
Lemma zlen_cons {A} (x : A) l : zlen (x :: l) = zlen l + 1. Proof. unfold zlen. cbn [length]. lia. Qed.
Lemma fmt_frac_spec unit p : forall v b, 0 <= v -> Forall decimal_digit b ->
  exists b', Forall decimal_digit b' /\ zlen b' <= zlen b + Z.of_nat p /\ (b <> [] -> zlen b' = zlen b + Z.of_nat p) /\
    value_of b' * 10 ^ (zlen b + Z.of_nat p - zlen b') = (v mod 10 ^ Z.of_nat p) * 10 ^ zlen b + value_of b /\
    fmt_frac p v (match b with [] => false | _ => true end) (b ++ unit) = (match b' with [] => unit | _ => 46%N :: b' ++ unit end, v / 10 ^ Z.of_nat p).
Proof.
  induction p as [|p IH]; intros v b Hv Fb.
  - exists b. change (Z.of_nat 0) with 0. rewrite Z.pow_0_r, Z.mod_1_r, Z.div_1_r. split; [exact Fb|]. split; [lia|]. split; [lia|].
    split; [rewrite Z.add_0_r, Z.sub_diag, Z.pow_0_r; lia|]. now destruct b.
  - pose proof (Z.mod_pos_bound v 10 ltac:(lia)) as Bd. pose proof (Z.div_mod v 10 ltac:(lia)) as Ed. set (dg := v mod 10) in *. set (q := v / 10) in *.
    assert (Hq : 0 <= q) by (apply Z.div_pos; lia).
    assert (HP : 0 < 10 ^ Z.of_nat p) by (apply ten_pos; lia).
    assert (PS : 10 ^ Z.of_nat (S p) = 10 * 10 ^ Z.of_nat p) by (rewrite Nat2Z.inj_succ, Z.pow_succ_r by lia; reflexivity).
    assert (DV : v / 10 ^ Z.of_nat (S p) = q / 10 ^ Z.of_nat p) by (rewrite PS; symmetry; apply Z.div_div; lia).
    assert (MV : v mod 10 ^ Z.of_nat (S p) = 10 * (q mod 10 ^ Z.of_nat p) + dg).
    { rewrite PS. rewrite Z.rem_mul_r by lia. fold dg q. lia. }
    cbn [fmt_frac]. fold dg q. rewrite DV, MV. clear DV MV.
    destruct (match b with [] => false | _ => true end || negb (dg =? 0)) eqn:Pr.
    + assert (Fc : Forall decimal_digit (Z.to_N (dg + 48) :: b)) by (constructor; [unfold decimal_digit; lia|exact Fb]).
      destruct (IH q (Z.to_N (dg + 48) :: b) Hq Fc) as (b' & F' & L' & L2 & V' & E'). exists b'.
      specialize (L2 ltac:(discriminate)). rewrite zlen_cons in *. split; [exact F'|]. split; [lia|]. split; [lia|].
      assert (X : zlen b + 1 + Z.of_nat p = zlen b + Z.of_nat (S p)) by lia. rewrite X in V'. cbn [app] in E'. split; [|exact E'].
      rewrite V', value_cons. rewrite Z.pow_add_r by (try apply zlen_nonneg; lia). change (10 ^ 1) with 10.
      replace (Z.of_N (Z.to_N (dg + 48)) - 48) with dg by lia. ring.
    + apply orb_false_iff in Pr as [Pb Pd]. destruct b as [|c b]; [|discriminate]. apply negb_false_iff, Z.eqb_eq in Pd.
      destruct (IH q [] Hq (Forall_nil _)) as (b' & F' & L' & _ & V' & E'). exists b'. change (zlen []) with 0 in *. change (value_of []) with 0 in *.
      rewrite Z.add_0_l in *. split; [exact F'|]. split; [lia|]. split; [contradiction|]. split; [|exact E'].
      rewrite Pd. replace (Z.of_nat (S p) - zlen b') with (1 + (Z.of_nat p - zlen b')) by lia. rewrite Z.pow_add_r by lia. change (10 ^ 1) with 10.
      rewrite Z.pow_0_r in *. lia.
Qed.

Definition exactly (p : Z * Z * Z) (r : Z) : Prop := let '(n, k, u) := p in 0 <= k /\ (10 ^ k | u) /\ r * 10 ^ k = n * u.
Lemma exactly_reads l : forall rs vs, Forall2 reads_amount l rs -> Forall2 exactly l vs -> rs = vs.
Proof.
  induction l as [|[[n k] u] l IH]; intros rs vs H1 H2; inversion H1 as [|? r ? rs' R1 R2]; inversion H2 as [|? v ? vs' V1 V2]; subst; [reflexivity|].
  destruct R1 as [_ R1]. destruct V1 as (K0 & D & V1). specialize (R1 D). f_equal; [|now apply IH].
  rewrite <- V1 in R1. apply Z.mul_reg_r in R1; [exact R1|]. pose proof (ten_pos k K0). lia.
Qed.

(** a number with a fraction that was written, and its unit *)
Lemma written_amount x prec v unit u fr v' : 0 <= x -> 0 <= v -> u = 10 ^ Z.of_nat prec -> In (unit, u) units -> fmt_frac prec v false unit = (fr, v') ->
  v' = v / u /\ exists t n k, itoa x ++ fr = t ++ unit /\ amount t n k /\ exactly (n, k, u) (x * u + v mod u).
Proof.
  intros Hx Hv Hu I E. destruct (fmt_frac_spec unit prec v [] Hv (Forall_nil _)) as (b & Fb & Lb & _ & Vb & E'). cbn [app] in E'. rewrite E' in E.
  injection E as <- <-. rewrite <- Hu. split; [reflexivity|]. change (zlen []) with 0 in *. change (value_of []) with 0 in *. rewrite Z.pow_0_r, Z.mul_1_r, Z.add_0_r, Z.add_0_l in *.
  rewrite <- Hu in Vb. destruct (itoa_digits x Hx) as (Fx & Nx & Vx & _).
  exists (match b with [] => itoa x | _ => itoa x ++ 46%N :: b end), (value_of (itoa x ++ b)), (zlen b). split; [|split].
  - destruct b; [reflexivity|]. rewrite <- app_assoc. reflexivity.
  - exists (itoa x), b. split; [exact Fx|]. split; [exact Fb|]. split; [now destruct (itoa x)|]. split; [|split; reflexivity].
    destruct b; [left; auto|right; reflexivity].
  - pose proof (zlen_nonneg b) as Z0. assert (D : u = 10 ^ (Z.of_nat prec - zlen b) * 10 ^ zlen b) by (rewrite <- Z.pow_add_r by lia; rewrite Hu; f_equal; lia).
    split; [exact Z0|]. split; [exists (10 ^ (Z.of_nat prec - zlen b)); exact D|].
    rewrite value_app, Vx. rewrite <- Vb. rewrite Z.mul_add_distr_r, (Z.mul_add_distr_r _ (value_of b) u). rewrite D at 3. ring.
Qed.
Lemma whole_amount x : 0 <= x -> exists n, amount (itoa x) n 0 /\ forall u, exactly (n, 0, u) (x * u).
Proof.
  intros Hx. destruct (itoa_digits x Hx) as (Fx & Nx & Vx & _). exists x. split.
  - exists (itoa x), []. rewrite app_nil_r. repeat split; auto.
  - intros u. split; [lia|]. split; [exists u; lia|lia].
Qed.

Lemma unit_ns : In (T "ns", 1) units. Proof. cbn; auto. Qed.
Lemma unit_us : In ([0xC2; 0xB5; 115]%N, 1000) units. Proof. cbn; auto. Qed.
Lemma unit_ms : In (T "ms", 1000000) units. Proof. cbn; auto 10. Qed.
Lemma unit_s : In (T "s", 1000000000) units. Proof. cbn; auto 10. Qed.
Lemma unit_m : In (T "m", 60000000000) units. Proof. cbn; auto 10. Qed.
Lemma unit_h : In (T "h", 3600000000000) units. Proof. cbn; auto 10. Qed.

Lemma written d : 0 <= d -> exists l vs, amounts (duration_string d) l /\ Forall2 exactly l vs /\ total vs = d.
Proof.
  intros Hd. unfold duration_string. rewrite Z.abs_eq by exact Hd. destruct (Z.ltb_spec d 0); [lia|]. clear H.
  destruct (Z.ltb_spec d 1000000000) as [L|L].
  - destruct (Z.eqb_spec d 0) as [->|N0].
    + exists [(0, 0, 1000000000)], [0]. split; [|split; [|reflexivity]].
      * change (T "0s") with (T "0" ++ T "s"). apply amounts_one; [|exact unit_s]. exists (T "0"), []. split; [constructor; [split; discriminate|constructor]|]. split; [constructor|].
        split; [discriminate|]. split; [now left|]. split; reflexivity.
      * constructor; [|constructor]. split; [lia|]. split; [exists 1000000000; reflexivity|reflexivity].
    + assert (G : forall prec unit u, u = 10 ^ Z.of_nat prec -> In (unit, u) units -> exists l vs,
        amounts (let '(frac, v) := fmt_frac prec d false unit in itoa v ++ frac) l /\ Forall2 exactly l vs /\ total vs = d).
      { intros prec unit u Hu I. destruct (fmt_frac prec d false unit) as [fr v] eqn:E. assert (U0 : 0 < u) by (rewrite Hu; apply ten_pos; lia).
        assert (Hq : 0 <= d / u) by (apply Z.div_pos; lia).
        destruct (written_amount (d / u) prec d unit u fr v Hq Hd Hu I E) as (-> & t & n & k & -> & A & X).
        exists [(n, k, u)], [d / u * u + d mod u]. split; [now apply amounts_one|]. split; [constructor; [exact X|constructor]|].
        cbn [total fold_right]. pose proof (Z.div_mod d u ltac:(lia)). lia. }
      destruct (d <? 1000); [apply (G 0%nat _ 1); [reflexivity|exact unit_ns]|]. destruct (d <? 1000000); [apply (G 3%nat _ 1000); [reflexivity|exact unit_us]|].
      apply (G 6%nat _ 1000000); [reflexivity|exact unit_ms].
  - destruct (fmt_frac 9 d false (T "s")) as [fr secs] eqn:E. set (u := 1000000000) in *.
    assert (S0 : 0 <= d / u) by (apply Z.div_pos; unfold u; lia).
    assert (M0 : forall x, 0 <= x mod 60) by (intros x; apply Z.mod_pos_bound; lia).
    destruct (written_amount ((d / u) mod 60) 9 d (T "s") u fr secs (M0 _) Hd eq_refl unit_s E) as (-> & t & n & k & Et & A & X).
    rewrite Et. pose proof (Z.div_mod d u ltac:(unfold u; lia)) as D1. pose proof (Z.div_mod (d / u) 60 ltac:(lia)) as D2. set (sec := d / u) in *.
    assert (Am : amounts (t ++ T "s") [(n, k, u)]) by (apply amounts_one; [exact A|exact unit_s]).
    destruct (Z.ltb_spec 0 (sec / 60)) as [Lm|Lm].
    + pose proof (Z.div_mod (sec / 60) 60 ltac:(lia)) as D3. set (mn := sec / 60) in *. destruct (whole_amount (mn mod 60) (M0 _)) as (nm & Bm & Xm).
      assert (Am2 : amounts (itoa (mn mod 60) ++ T "m" ++ t ++ T "s") [(nm, 0, 60000000000); (n, k, u)]) by (apply amounts_more; [exact Bm|exact unit_m|exact Am]).
      destruct (Z.ltb_spec 0 (mn / 60)) as [Lh|Lh].
      * destruct (whole_amount (mn / 60) ltac:(lia)) as (nh & Bh & Xh).
        eexists _, [mn / 60 * 3600000000000; mn mod 60 * 60000000000; sec mod 60 * u + d mod u]. split; [apply amounts_more; [exact Bh|exact unit_h|exact Am2]|].
        split; [constructor; [apply Xh|constructor; [apply Xm|constructor; [exact X|constructor]]]|]. cbn [total fold_right]. unfold u in *. lia.
      * eexists _, [mn mod 60 * 60000000000; sec mod 60 * u + d mod u]. split; [exact Am2|].
        split; [constructor; [apply Xm|constructor; [exact X|constructor]]|]. cbn [total fold_right].
        assert (mn / 60 = 0) by (assert (0 <= mn / 60) by (apply Z.div_pos; lia); lia). unfold u in *. lia.
    + eexists _, [sec mod 60 * u + d mod u]. split; [exact Am|]. split; [constructor; [exact X|constructor]|]. cbn [total fold_right].
      assert (sec / 60 = 0) by (assert (0 <= sec / 60) by (apply Z.div_pos; lia); lia). unfold u in *. lia.
Qed.
Lemma string_neg d : d < 0 -> duration_string d = 45%N :: duration_string (- d).
Proof.
  intros H. unfold duration_string. rewrite Z.abs_opp. destruct (Z.ltb_spec d 0); [|lia]. destruct (Z.ltb_spec (- d) 0); [lia|]. reflexivity.
Qed.
Theorem duration_round_trip d : - 2 ^ 63 < d < 2 ^ 63 -> parse_duration (duration_string d) = Some d.
Proof.
  intros H. destruct (written (Z.abs d) ltac:(lia)) as (l & vs & A & X & S).
  assert (DT : duration_text (duration_string d) (d <? 0) l).
  { destruct (Z.ltb_spec d 0) as [L|L].
    - exists [45%N], (duration_string (- d)). rewrite string_neg by exact L. rewrite Z.abs_neq in A by lia. split; [reflexivity|]. split; [reflexivity|now right].
    - exists [], (duration_string d). rewrite Z.abs_eq in A by lia. split; [reflexivity|]. split; [now left|now right]. }
  destruct (durations_read _ _ _ DT) as (rs & R & E). rewrite (exactly_reads l rs vs R X), S in E. rewrite E.
  destruct (Z.ltb_spec (Z.abs d) (2 ^ 63)); [|lia]. destruct (Z.ltb_spec d 0); f_equal; lia.
Qed.
