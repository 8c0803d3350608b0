(** Proofs for C108: the fraction of a duration, in floating point. *)
From Verif Require Import GoBase GoBaseFacts GoFmt PlaylistModel PcmModel PcmProofs GoFloat GoFloatFacts NumberSpec NumberProofs FloatTextSpec FloatTextModel FloatTextProofs CliModel CliSpec CliNumProofs CliDurProofs.
From Coq Require Import ZifyBool ZifyNat ZifyN.
Local Open Scope Z_scope.

Definition frac (f u : Z) (s : f64) : Z := to_int64 (fmul (f_of_int f) (unit_quotient u s)).

Lemma mul_abs a x : 0 <= a -> a * Z.abs x = Z.abs (a * x).
Proof. intros H. rewrite Z.abs_mul, (Z.abs_eq a) by exact H. reflexivity. Qed.

(** Pure arithmetic.  [O] is 2^1074. *)
Lemma quotient_bound O u T S Q : 0 < u -> 0 < T -> 0 <= Q -> 0 < S -> 2 ^ 60 * T <= O ->
  2 ^ 50 * Z.abs (S - T * O) <= T * O -> 2 ^ 53 * Z.abs (Q * S - u * O * O) <= u * O * O + 2 ^ 52 * S ->
  2 ^ 53 * Z.abs (Q * T - u * O) <= 10 * (u * O).
Proof.
  intros Hu HT HQ HS HO H2 H3. assert (PO : 0 < O) by lia.
  assert (S2 : S <= 2 * (T * O)) by lia.
  assert (A : O * Z.abs (Q * T - u * O) <= Z.abs (Q * S - u * O * O) + Q * Z.abs (S - T * O)).
  { rewrite !mul_abs by lia.
    replace (O * (Q * T - u * O)) with (Q * S - u * O * O - Q * (S - T * O)) by ring. lia. }
  assert (B : 2 ^ 50 * (Q * Z.abs (S - T * O)) <= Q * (T * O)) by nia.
  assert (C : O * (2 ^ 53 * Z.abs (Q * T - u * O)) <= O * (u * O + 2 ^ 53 * T + 8 * (Q * T))) by nia.
  assert (D : 2 ^ 53 * Z.abs (Q * T - u * O) <= u * O + 2 ^ 53 * T + 8 * (Q * T)) by (apply Z.mul_le_mono_pos_l with (p := O); assumption).
  assert (E : 2 ^ 60 * T <= u * O) by nia.
  set (X := Q * T) in *. set (Y := u * O) in *. clearbody X Y. lia.
Qed.
Lemma product_bound O f u T F Q : 0 < f -> 0 < u -> 0 < T -> 0 <= Q -> 0 <= F -> 0 < O ->
  2 ^ 53 * Z.abs (F - f * O) <= f * O -> 2 ^ 53 * Z.abs (Q * T - u * O) <= 10 * (u * O) ->
  2 ^ 53 * Z.abs (F * Q * T - f * u * O * O) <= 12 * (f * u * O * O).
Proof.
  intros Hf Hu HT HQ HF PO H1 H2.
  assert (A : Z.abs (F * Q * T - f * u * O * O) <= F * Z.abs (Q * T - u * O) + u * O * Z.abs (F - f * O)).
  { rewrite !mul_abs by nia.
    replace (F * Q * T - f * u * O * O) with (F * (Q * T - u * O) + u * O * (F - f * O)) by ring. lia. }
  assert (F2 : 2 ^ 53 * F <= (2 ^ 53 + 1) * (f * O)) by lia.
  assert (B : 2 ^ 53 * (F * Z.abs (Q * T - u * O)) <= F * (10 * (u * O))) by nia.
  assert (C : 2 ^ 53 * (u * O * Z.abs (F - f * O)) <= u * O * (f * O)) by nia.
  assert (D : 10 * (F * (u * O)) <= 11 * (f * u * O * O)).
  { assert (10 * F <= 11 * (f * O)) by lia. replace (11 * (f * u * O * O)) with (11 * (f * O) * (u * O)) by ring. nia. }
  replace (u * O * (f * O)) with (f * u * O * O) in C by ring. lia.
Qed.
Lemma result_bound O f u T P Y : 0 < f -> 0 < u -> 0 < T -> 0 < O -> 0 <= P ->
  2 ^ 53 * Z.abs (P * T - f * u * O * O) <= 12 * (f * u * O * O) ->
  2 ^ 53 * Z.abs (Y * O - P) <= P + 2 ^ 52 * O ->
  2 ^ 53 * Z.abs (Y * T - f * u * O) <= 14 * (f * u * O) + 2 ^ 53 * T.
Proof.
  intros Hf Hu HT PO HP H1 H2.
  assert (A : O * Z.abs (Y * T - f * u * O) <= T * Z.abs (Y * O - P) + Z.abs (P * T - f * u * O * O)).
  { rewrite !mul_abs by lia.
    replace (O * (Y * T - f * u * O)) with (T * (Y * O - P) + (P * T - f * u * O * O)) by ring. lia. }
  assert (B : 2 ^ 53 * (T * Z.abs (Y * O - P)) <= T * P + 2 ^ 52 * (T * O)) by nia.
  replace (P * T) with (T * P) in * by ring. replace (f * u * O * O) with (O * (f * u * O)) in * by ring.
  set (X := f * u * O) in *. assert (0 <= T * P) by nia. assert (0 <= O * X) by (unfold X; nia).
  assert (C : O * (2 ^ 53 * Z.abs (Y * T - X)) <= O * (14 * X + 2 ^ 53 * T)).
  { replace (O * (14 * X + 2 ^ 53 * T)) with (14 * (O * X) + 2 ^ 53 * (T * O)) by ring. 
    replace (O * (2 ^ 53 * Z.abs (Y * T - X))) with (2 ^ 53 * (O * Z.abs (Y * T - X))) by ring.
    assert (0 <= T * O) by nia.
    generalize dependent (T * Z.abs (Y * O - P)). intros a. generalize dependent (O * Z.abs (Y * T - X)). intros b.
    generalize dependent (T * P). intros c. generalize dependent (O * X). intros d. generalize dependent (T * O). intros e. lia. }
  apply Z.mul_le_mono_pos_l with (p := O); assumption.
Qed.
(** in the end: the whole part *)
Lemma floor_bound O f u T Y : 0 < f < T -> 0 < u <= 3600000000000 -> 2 ^ 60 <= O -> 0 <= Y ->
  2 ^ 53 * Z.abs (Y * T - f * u * O) <= 14 * (f * u * O) + 2 ^ 53 * T ->
  100 * Z.abs (Y / O * T - f * u) <= 101 * T.
Proof.
  intros Hf Hu HO HY H.
  pose proof (Z.div_mod Y O ltac:(lia)) as E. pose proof (Z.mod_pos_bound Y O ltac:(lia)) as B. set (r := Y / O) in *. set (m := Y mod O) in *.
  assert (A : O * Z.abs (r * T - f * u) <= Z.abs (Y * T - f * u * O) + m * T).
  { rewrite mul_abs by lia. assert (0 <= m * T) by nia.
    replace (O * (r * T - f * u)) with (Y * T - f * u * O - m * T) by (rewrite E; ring). lia. }
  assert (C : f * u * O <= 3600000000000 * (T * O)).
  { replace (3600000000000 * (T * O)) with (T * 3600000000000 * O) by ring. apply Z.mul_le_mono_nonneg_r; [lia|]. apply Z.mul_le_mono_nonneg; lia. }
  assert (D : m * T <= T * O) by (rewrite (Z.mul_comm T); apply Z.mul_le_mono_nonneg_r; lia).
  assert (G : 2 ^ 60 * T <= T * O) by (rewrite (Z.mul_comm T); apply Z.mul_le_mono_nonneg_r; lia).
  assert (K : O * (100 * Z.abs (r * T - f * u)) <= O * (101 * T)).
  { replace (O * (101 * T)) with (101 * (T * O)) by ring. replace (O * (100 * Z.abs (r * T - f * u))) with (100 * (O * Z.abs (r * T - f * u))) by ring.
    clear E. generalize dependent (O * Z.abs (r * T - f * u)). intros a. generalize dependent (Z.abs (Y * T - f * u * O)). intros b.
    generalize dependent (m * T). intros c. generalize dependent (f * u * O). intros d. generalize dependent (T * O). intros x. lia. }
  apply Z.mul_le_mono_pos_l with (p := O); [lia|assumption].
Qed.

(* ------------------------------------------------------------------ *)
(** ** The floats *)

Lemma of_int_pos z : 0 < z < 2 ^ 63 -> let x := f_of_int z in
  is_nan x = false /\ is_inf x = false /\ f_sign x = false /\ 2 ^ 53 * Z.abs (f_mag x - z * f_one) <= z * f_one /\
  (z < 2 ^ 53 -> f_mag x = z * f_one).
Proof.
  intros H. cbn zeta. unfold f_of_int. destruct (Z.ltb_spec z 0); [lia|]. rewrite Z.abs_eq by lia.
  pose proof f_one_pos as P. assert (N : 0 <= z * f_one) by nia.
  assert (R : representable (rnd (z * f_one) 1)) by (apply rnd_representable; [lia|exact N]).
  assert (E : 2 ^ 53 * Z.abs (rnd (z * f_one) 1 - z * f_one) <= z * f_one).
  { destruct (rnd_error (z * f_one) 1 ltac:(lia) N) as [E|E]; rewrite Z.mul_1_r in E; [|exact E].
    assert (A : Z.abs (rnd (z * f_one) 1 - z * f_one) = 0) by lia. rewrite A, Z.mul_0_r. exact N. }
  destruct (pack_false _ R) as ([A B] & C & D). split; [exact A|].
  assert (L : rnd (z * f_one) 1 < f_max).
  { apply max_large. assert (z * f_one <= 2 ^ 63 * f_one) by (apply Z.mul_le_mono_nonneg_r; lia).
    replace (2 ^ 100 * f_one) with (2 ^ 37 * (2 ^ 63 * f_one)) by (rewrite Z.mul_assoc; reflexivity).
    generalize dependent (2 ^ 63 * f_one). intros y. generalize dependent (z * f_one). intros. lia. }
  rewrite D, C, Z.min_l by (now apply Z.lt_le_incl). split; [now apply Z.leb_gt|]. split; [exact B|]. split; [exact E|].
  intros Hz. rewrite <- (Z.mul_1_r (z * f_one)) at 1. apply rnd_exact; [lia|]. apply representable_int. lia.
Qed.
Lemma fmul_pos x y : is_nan x = false -> is_inf x = false -> f_sign x = false -> is_nan y = false -> is_inf y = false -> f_sign y = false ->
  rnd (f_mag x * f_mag y) f_one < f_max -> f_mag (fmul x y) = rnd (f_mag x * f_mag y) f_one.
Proof.
  intros A B C A' B' C' L. unfold fmul. rewrite A, B, C, A', B', C'. cbn [orb xorb].
  assert (R : representable (rnd (f_mag x * f_mag y) f_one)).
  { apply rnd_representable; [apply f_one_pos|]. pose proof (f_mag_nonneg x). pose proof (f_mag_nonneg y). nia. }
  destruct (pack_false _ R) as (_ & -> & _). apply Z.min_l. now apply Z.lt_le_incl.
Qed.
Lemma fdiv_pos x y : f_sign x = false -> f_sign y = false -> 0 < f_mag y -> let q := rnd (f_mag x * f_one) (f_mag y) in q < f_max ->
  is_nan (fdiv x y) = false /\ is_inf (fdiv x y) = false /\ f_sign (fdiv x y) = false /\ f_mag (fdiv x y) = q.
Proof.
  cbn zeta. intros A B C L. unfold fdiv. rewrite A, B. cbn [xorb].
  assert (R : representable (rnd (f_mag x * f_one) (f_mag y))).
  { apply rnd_representable; [exact C|]. pose proof (f_mag_nonneg x). pose proof f_one_pos. nia. }
  destruct (pack_false _ R) as ([N S] & M & I). rewrite I, M. repeat split; auto; [now apply Z.leb_gt|apply Z.min_l; now apply Z.lt_le_incl].
Qed.

Lemma small_arith O f u T S F Q Y : 0 < f < T -> 0 < u <= 3600000000000 -> T <= 10 ^ 40 -> 2 ^ 300 <= O -> 0 < S -> 0 <= F -> 0 <= Q -> 0 <= Y ->
  2 ^ 50 * Z.abs (S - T * O) <= T * O -> 2 ^ 53 * Z.abs (F - f * O) <= f * O ->
  2 ^ 53 * Z.abs (Q * S - u * O * O) <= u * O * O + 2 ^ 52 * S ->
  2 ^ 53 * Z.abs (Y * O - F * Q) <= F * Q + 2 ^ 52 * O ->
  Q <= 2 ^ 100 * O /\ Y <= 2 ^ 100 * O /\ 100 * Z.abs (Y / O * T - f * u) <= 101 * T.
Proof.
  intros Hf Hu BT BO HS F0 Q0 Y0 H2 H1 H3 H4.
  assert (HO : 2 ^ 60 * T <= O).
  { clear - BT BO. apply (Z.le_trans _ (2 ^ 60 * 10 ^ 40)); [lia|]. apply (Z.le_trans _ (2 ^ 300)); [vm_compute; discriminate|exact BO]. }
  assert (PO : 0 < O) by (clear - BO; apply (Z.lt_le_trans _ (2 ^ 300)); [reflexivity|exact BO]).
  assert (HT : 0 < T) by (clear - Hf; lia). assert (Hf0 : 0 < f) by (clear - Hf; lia). assert (Hu0 : 0 < u) by (clear - Hu; lia).
  pose proof (quotient_bound O u T S Q Hu0 HT Q0 HS HO H2 H3) as HQ.
  pose proof (product_bound O f u T F Q Hf0 Hu0 HT Q0 F0 PO H1 HQ) as HP.
  assert (PP : 0 <= F * Q) by (clear - F0 Q0; nia).
  pose proof (result_bound O f u T (F * Q) Y Hf0 Hu0 HT PO PP HP H4) as HY.
  split; [|split].
  - clear - HQ Hu PO HT Q0. assert (A : u * O <= 2 ^ 42 * O) by (clear - Hu PO; apply Z.mul_le_mono_nonneg_r; lia).
    assert (Q <= Q * T) by (clear - HT Q0; nia). replace (2 ^ 100 * O) with (2 ^ 58 * (2 ^ 42 * O)) by (rewrite Z.mul_assoc; reflexivity).
    clear Hu. generalize dependent (2 ^ 42 * O). intros y. generalize dependent (u * O). intros x. generalize dependent (Q * T). intros. lia.
  - clear - HY Hu Hf PO HT Hf0 Hu0 Y0. assert (A : f * u * O <= T * (2 ^ 42 * O)).
    { clear - Hu Hf PO. rewrite <- Z.mul_assoc. apply Z.mul_le_mono_nonneg; [lia|lia|nia|]. apply Z.mul_le_mono_nonneg_r; lia. }
    assert (B : T <= T * (2 ^ 42 * O)) by (clear - HT PO; nia).
    assert (C : Y * T <= 3 * (T * (2 ^ 42 * O))).
    { clear - A B HY. generalize dependent (T * (2 ^ 42 * O)). intros y. generalize dependent (f * u * O). intros x. generalize dependent (Y * T). intros. lia. }
    assert (D : Y <= 3 * (2 ^ 42 * O)) by (clear - C HT; apply Z.mul_le_mono_pos_r with (p := T); [exact HT|]; lia).
    replace (2 ^ 100 * O) with (2 ^ 58 * (2 ^ 42 * O)) by (rewrite Z.mul_assoc; reflexivity).
    assert (0 < 2 ^ 42 * O) by (clear - PO; lia). clear - D H. generalize dependent (2 ^ 42 * O). intros; lia.
  - apply floor_bound; try assumption. clear - BO. apply (Z.le_trans _ (2 ^ 300)); [discriminate|exact BO].
Qed.

Lemma frac_small f u j : 0 < f < 2 ^ 63 -> f < 10 ^ Z.of_nat j -> 0 < u <= 3600000000000 -> (j <= 40)%nat ->
  0 <= frac f u (scale j) /\ 100 * Z.abs (frac f u (scale j) * 10 ^ Z.of_nat j - f * u) <= 101 * 10 ^ Z.of_nat j.
Proof.
  intros Hf HfT Hu Hj. pose proof (scale_small j Hj) as SN. generalize dependent (scale j). intros s SN. unfold scale_near in SN.
  apply andb_true_iff in SN as [SN _]. apply andb_true_iff in SN as [SN Ss]. apply andb_true_iff in SN as [SN Si]. apply andb_true_iff in SN as [SN Sn].
  apply Z.leb_le in SN. apply negb_true_iff in Ss, Si, Sn.
  assert (BT : 10 ^ Z.of_nat j <= 10 ^ 40) by (apply Z.pow_le_mono_r; [reflexivity|clear - Hj; lia]). set (T := 10 ^ Z.of_nat j) in *. clearbody T.
  pose proof f_one_pos as PO. pose proof f_one_big as BO.
  assert (HT : 0 < f < T) by (clear - Hf HfT; lia). assert (TO : 0 < T * f_one) by (clear - PO HT; nia).
  assert (HS : 0 < f_mag s) by (clear - SN TO; lia).
  assert (Hu63 : 0 < u < 2 ^ 63) by (clear - Hu; lia). assert (Hu53 : u < 2 ^ 53) by (clear - Hu; lia).
  destruct (of_int_pos f Hf) as (Fn & Fi & Fs & F1 & _). destruct (of_int_pos u Hu63) as (Un & Ui & Us & _ & U1). specialize (U1 Hu53).
  assert (UO : 0 <= u * f_one * f_one) by (clear - Hu PO; nia).
  assert (X : unit_quotient u s = fdiv (f_of_int u) s) by (unfold unit_quotient; rewrite Si; reflexivity).
  pose proof (f_mag_nonneg (f_of_int f)) as F0.
  pose proof (rnd_nonneg (f_mag (f_of_int u) * f_one) (f_mag s) HS) as Q0. rewrite U1 in Q0. specialize (Q0 UO).
  pose proof (rnd_error_sum _ _ HS UO) as Q1.
  pose proof (fdiv_pos (f_of_int u) s Us Ss HS) as QD. cbn zeta in QD. rewrite U1 in QD.
  remember (rnd (u * f_one * f_one) (f_mag s)) as Q eqn:EQ.
  assert (PP : 0 <= f_mag (f_of_int f) * Q) by (clear - F0 Q0; nia).
  pose proof (rnd_nonneg (f_mag (f_of_int f) * Q) f_one PO PP) as Y0. pose proof (rnd_error_sum _ _ PO PP) as Y1.
  destruct (small_arith f_one f u T (f_mag s) (f_mag (f_of_int f)) Q (rnd (f_mag (f_of_int f) * Q) f_one) HT Hu BT BO HS F0 Q0 Y0 SN F1 Q1 Y1) as (QL & YL & R).
  apply max_large in QL, YL. destruct (QD QL) as (Dn & Di & Ds & Dm).
  assert (E : frac f u s = rnd (f_mag (f_of_int f) * Q) f_one / f_one).
  { unfold frac, to_int64. rewrite X. rewrite fmul_pos; try assumption; rewrite Dm; [reflexivity|exact YL]. }
  rewrite E. split; [now apply Z.div_pos|exact R].
Qed.

Lemma frac_exact f u j q : 0 < f < 10 ^ Z.of_nat j -> 0 < u <= 3600000000000 -> u = q * 10 ^ Z.of_nat j ->
  frac f u (scale j) * 10 ^ Z.of_nat j = f * u.
Proof.
  intros Hf Hu E. assert (Hj : (j <= 12)%nat).
  { destruct (le_lt_dec j 12) as [L|L]; [exact L|]. exfalso. assert (10 ^ 13 <= 10 ^ Z.of_nat j) by (apply Z.pow_le_mono_r; lia). clear - H E Hu. set (T := 10 ^ Z.of_nat j) in *. clearbody T. assert (0 < q) by nia. assert (1 * T <= q * T) by (apply Z.mul_le_mono_nonneg_r; lia). lia. }
  assert (Hj40 : (j <= 40)%nat) by (clear - Hj; lia). assert (Hj22 : (Z.of_nat j <=? 22) = true) by (clear - Hj; lia).
  pose proof (scale_small j Hj40) as SN. generalize dependent (scale j). intros s SN. unfold scale_near in SN. rewrite Hj22 in SN.
  apply andb_true_iff in SN as [SN Se]. apply andb_true_iff in SN as [SN Ss]. apply andb_true_iff in SN as [SN Si].
  apply Z.eqb_eq in Se. apply negb_true_iff in Ss, Si. clear SN.
  assert (BT : 10 ^ Z.of_nat j <= 10 ^ 12) by (clear - Hj; apply Z.pow_le_mono_r; lia). set (T := 10 ^ Z.of_nat j) in *. clearbody T.
  pose proof f_one_pos as PO. assert (TO : 0 < T * f_one) by (clear - Hf PO; nia).
  assert (HS : 0 < f_mag s) by (rewrite Se; exact TO). assert (Hq : 0 < q) by (clear - Hf Hu E; nia). assert (Hq2 : q <= u) by (clear - Hf Hu E Hq; nia).
  assert (Hf63 : 0 < f < 2 ^ 63) by (clear - Hf BT; lia). assert (Hf53 : f < 2 ^ 53) by (clear - Hf BT; lia).
  assert (Hu63 : 0 < u < 2 ^ 63) by (clear - Hu; lia). assert (Hu53 : u < 2 ^ 53) by (clear - Hu; lia).
  destruct (of_int_pos f Hf63) as (Fn & Fi & Fs & _ & F1). destruct (of_int_pos u Hu63) as (Un & Ui & Us & _ & U1).
  specialize (F1 Hf53). specialize (U1 Hu53).
  assert (Small : forall z, 0 <= z < 2 ^ 53 -> z * f_one < f_max).
  { clear. intros z Hz. apply max_large. pose proof f_one_pos. apply Z.mul_le_mono_nonneg_r; lia. }
  assert (Q : rnd (f_mag (f_of_int u) * f_one) (f_mag s) = q * f_one).
  { rewrite U1, Se, E. replace (q * T * f_one * f_one) with (q * f_one * (T * f_one)) by ring. apply rnd_exact; [exact TO|].
    apply representable_int. clear - Hq Hq2 Hu53. lia. }
  assert (Hfq : 0 <= f * q < 2 ^ 53) by (clear - Hf Hq E Hu; nia).
  destruct (fdiv_pos (f_of_int u) s Us Ss HS) as (Dn & Di & Ds & Dm). { rewrite Q. apply Small. clear - Hq Hq2 Hu53. lia. }
  rewrite Q in Dm.
  assert (Y : rnd (f_mag (f_of_int f) * f_mag (fdiv (f_of_int u) s)) f_one = f * q * f_one).
  { rewrite F1, Dm. replace (f * f_one * (q * f_one)) with (f * q * f_one * f_one) by ring. apply rnd_exact; [exact PO|]. apply representable_int. exact Hfq. }
  assert (R : frac f u s = f * q).
  { unfold frac, to_int64, unit_quotient. rewrite Si. rewrite fmul_pos; try assumption; rewrite Y; [apply Z.div_mul; clear - PO; lia|apply Small; exact Hfq]. }
  rewrite R, E. ring.
Qed.

(** more than 40 digits: the fraction is nothing *)
Lemma large_quotient O q u S : 0 < O -> q * 2 ^ 80 = O -> 0 < u <= 3600000000000 -> 10 ^ 39 * O <= S -> u * O * O * S <= q * S * S.
Proof.
  intros PO E Hu HS. assert (q0 : 0 < q) by lia. assert (S0 : 0 < S) by lia.
  apply Z.mul_le_mono_nonneg_r; [lia|]. apply (Z.le_trans _ (q * (10 ^ 39 * O))); [|apply Z.mul_le_mono_nonneg_l; lia].
  rewrite <- E at 1. replace (u * (q * 2 ^ 80) * O) with (u * 2 ^ 80 * (q * O)) by ring. replace (q * (10 ^ 39 * O)) with (10 ^ 39 * (q * O)) by ring.
  apply Z.mul_le_mono_nonneg_r; [clear - PO q0; nia|]. lia.
Qed.
Lemma large_factor O f F : 0 < O -> 0 < f < 2 ^ 63 -> 2 ^ 53 * Z.abs (F - f * O) <= f * O -> F <= 2 ^ 64 * O.
Proof.
  intros PO Hf H. assert (A : f * O <= 2 ^ 63 * O) by (clear - Hf PO; apply Z.mul_le_mono_nonneg_r; lia).
  replace (2 ^ 64 * O) with (2 * (2 ^ 63 * O)) by ring. clear Hf.
  generalize dependent (2 ^ 63 * O). intros y. generalize dependent (f * O). intros. lia.
Qed.
Lemma f_one_80 : exists q, q * 2 ^ 80 = f_one /\ representable q.
Proof.
  exists (2 ^ 994). Transparent f_one. unfold f_one. Opaque f_one. split; [rewrite <- Z.pow_add_r by discriminate; reflexivity|].
  exists 1, 994. split; [rewrite Z.mul_1_l; reflexivity|]. clear. lia.
Qed.
Lemma frac_large f u i : 0 < f < 2 ^ 63 -> 0 < u <= 3600000000000 -> frac f u (scale (i + 40)) = 0.
Proof.
  intros Hf Hu. destruct (scale_large i) as (Sn & Ss & Sb). generalize dependent (scale (i + 40)). intros s Sn Ss Sb.
  unfold frac, to_int64, unit_quotient. pose proof f_one_pos as PO.
  assert (Hu63 : 0 < u < 2 ^ 63) by (clear - Hu; lia). assert (Hu53 : u < 2 ^ 53) by (clear - Hu; lia).
  destruct (of_int_pos f Hf) as (Fn & Fi & Fs & F1 & _). destruct (of_int_pos u Hu63) as (Un & Ui & Us & _ & U1). specialize (U1 Hu53).
  destruct (is_inf s) eqn:Si.
  - assert (Z0 : is_nan 0%N = false /\ is_inf 0%N = false /\ f_sign 0%N = false /\ f_mag 0%N = 0) by (vm_compute; auto).
    destruct Z0 as (Z1 & Z2 & Z3 & Z4).
    assert (R00 : representable 0) by (clear; apply representable_small; lia).
    pose proof (rnd_exact 0 f_one PO R00) as R0. rewrite Z.mul_0_l in R0.
    rewrite fmul_pos; try assumption; rewrite Z4, Z.mul_0_r, R0; [reflexivity|]. apply max_large. clear - PO. lia.
  - assert (HS : 0 < f_mag s). { apply (Z.lt_le_trans _ (10 ^ 39 * f_one)); [|exact Sb]. apply Z.mul_pos_pos; [reflexivity|exact PO]. }
    destruct f_one_80 as (q & Eq & Rq). assert (q0 : 0 <= q) by (clear - Eq PO; lia).
    pose proof (large_quotient f_one q u (f_mag s) PO Eq Hu Sb) as B1.
    assert (UO : 0 <= u * f_one * f_one) by (clear - Hu PO; nia). assert (QS : 0 <= q * f_mag s) by (clear - q0 HS; nia).
    assert (HQ : rnd (u * f_one * f_one) (f_mag s) <= q).
    { rewrite <- (rnd_exact q (f_mag s) HS Rq). apply rnd_mono; assumption. }
    assert (HQ0 : 0 <= rnd (u * f_one * f_one) (f_mag s)) by (apply rnd_nonneg; assumption).
    pose proof (fdiv_pos (f_of_int u) s Us Ss HS) as QD. cbn zeta in QD. rewrite U1 in QD.
    remember (rnd (u * f_one * f_one) (f_mag s)) as Q eqn:EQ. clear EQ.
    assert (QL : Q <= 2 ^ 100 * f_one) by (clear - HQ Eq PO; lia). apply max_large in QL.
    destruct (QD QL) as (Dn & Di & Ds & Dm). clear QD.
    pose proof (f_mag_nonneg (f_of_int f)) as F0. pose proof (large_factor _ _ _ PO Hf F1) as FB.
    assert (RY : representable (q * 2 ^ 64)) by (apply representable_shift; [discriminate|exact Rq]).
    assert (HY : rnd (f_mag (f_of_int f) * Q) f_one <= q * 2 ^ 64).
    { rewrite <- (rnd_exact (q * 2 ^ 64) f_one PO RY). apply rnd_mono; try assumption.
      - clear - F0 HQ0. nia.
      - clear - q0 PO. nia.
      - clear - F0 FB HQ0 HQ PO. apply Z.mul_le_mono_nonneg_r; [lia|]. replace (q * 2 ^ 64 * f_one) with (2 ^ 64 * f_one * q) by ring. apply Z.mul_le_mono_nonneg; assumption. }
    assert (Y0 : 0 <= rnd (f_mag (f_of_int f) * Q) f_one) by (apply rnd_nonneg; [exact PO|]; clear - F0 HQ0; nia).
    rewrite fmul_pos; try assumption; rewrite Dm.
    + generalize dependent (rnd (f_mag (f_of_int f) * Q) f_one). intros Y HY Y0. clear - Y0 HY Eq PO. apply Z.div_small. lia.
    + apply max_large. generalize dependent (rnd (f_mag (f_of_int f) * Q) f_one). intros Y HY Y0. clear - Y0 HY Eq PO. lia.
Qed.
