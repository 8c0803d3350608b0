(** Facts about the rounding and the encoding of GoFloat. *)
From Verif Require Import GoBase GoBaseFacts PlaylistModel PcmModel PcmProofs GoFloat.
From Coq Require Import ZifyBool ZifyNat ZifyN.
Local Open Scope Z_scope.

(* ------------------------------------------------------------------ *)
(** ** Rounding to integers *)

Lemma rhe_bounds n d : 0 < d -> 2 * Z.abs (rhe n d * d - n) <= d.
Proof.
  intros Hd. unfold rhe. cbn zeta. pose proof (Z.div_mod n d ltac:(lia)) as E.
  pose proof (Z.mod_pos_bound n d Hd) as B. set (q := n / d) in *. set (r := n mod d) in *.
  destruct (Z.ltb_spec (2 * r) d); [nia|].
  destruct (Z.ltb_spec d (2 * r)); [nia|].
  destruct (Z.even q); nia.
Qed.

Lemma rhe_floor n d : 0 < d -> n / d <= rhe n d <= n / d + 1.
Proof.
  intros Hd. unfold rhe. cbn zeta. destruct (2 * (n mod d) <? d); [lia|]. destruct (d <? 2 * (n mod d)); [lia|].
  destruct (Z.even _); lia.
Qed.

Lemma rhe_mono n1 d1 n2 d2 : 0 < d1 -> 0 < d2 -> n1 * d2 <= n2 * d1 -> rhe n1 d1 <= rhe n2 d2.
Proof.
  intros H1 H2 H. unfold rhe. cbn zeta.
  pose proof (Z.div_mod n1 d1 ltac:(lia)) as E1. pose proof (Z.mod_pos_bound n1 d1 H1) as B1.
  pose proof (Z.div_mod n2 d2 ltac:(lia)) as E2. pose proof (Z.mod_pos_bound n2 d2 H2) as B2.
  set (q1 := n1 / d1) in *. set (r1 := n1 mod d1) in *. set (q2 := n2 / d2) in *. set (r2 := n2 mod d2) in *.
  assert (Hq : q1 <= q2).
  { destruct (Z.le_gt_cases q1 q2); [assumption|exfalso].
    assert (q2 + 1 <= q1) by lia. assert (q2 * d2 + r2 < (q2 + 1) * d2) by nia.
    assert (n2 * d1 < (q2 + 1) * d2 * d1) by nia. assert ((q2 + 1) * d2 * d1 <= n1 * d2) by nia. lia. }
  destruct (Z.eq_dec q1 q2) as [Eq|Nq].
  - assert (Hr : r1 * d2 <= r2 * d1) by nia. rewrite <- Eq.
    destruct (Z.ltb_spec (2 * r1) d1) as [A1|A1].
    + destruct (2 * r2 <? d2); [lia|]. destruct (d2 <? 2 * r2); [lia|]. destruct (Z.even q1); lia.
    + destruct (Z.ltb_spec (2 * r2) d2) as [A2|A2]; [exfalso; nia|].
      destruct (Z.ltb_spec d1 (2 * r1)) as [A3|A3].
      * destruct (Z.ltb_spec d2 (2 * r2)) as [A4|A4]; [lia|exfalso; nia].
      * destruct (Z.ltb_spec d2 (2 * r2)); destruct (Z.even q1); lia.
  - destruct (2 * r1 <? d1), (d1 <? 2 * r1), (Z.even q1), (2 * r2 <? d2), (d2 <? 2 * r2), (Z.even q2); lia.
Qed.

Lemma rhe_exact a d : 0 < d -> rhe (a * d) d = a.
Proof.
  intros Hd. unfold rhe. cbn zeta. rewrite Z.div_mul, Z.mod_mul by lia.
  destruct (Z.ltb_spec (2 * 0) d); [reflexivity|lia].
Qed.

(** a value closer than one half to an integer is rounded to it *)
Lemma rhe_near n d a : 0 < d -> 2 * Z.abs (n - a * d) < d -> rhe n d = a.
Proof.
  intros Hd H. pose proof (rhe_bounds n d Hd) as B. set (q := rhe n d) in *.
  destruct (Z.eq_dec q a) as [|N]; [assumption|exfalso].
  assert (Z.abs ((q - a) * d) < d) by nia. assert (1 <= Z.abs (q - a)) by lia.
  rewrite Z.abs_mul in H0. nia.
Qed.

(* ------------------------------------------------------------------ *)
(** ** Rounding to 53 bits *)

Lemma ulp_exp_nonneg n d : 0 <= ulp_exp n d. Proof. unfold ulp_exp. lia. Qed.

Lemma pow_pos s : 0 <= s -> 0 < 2 ^ s. Proof. intros. apply Z.pow_pos_nonneg; lia. Qed.

Lemma ulp_small n d : 0 < d -> 0 <= n -> n / d < 2 ^ (ulp_exp n d + 53).
Proof.
  intros Hd Hn. assert (H0 : 0 <= n / d) by (apply Z.div_pos; lia).
  destruct (Z.eq_dec (n / d) 0) as [->|N]; [apply pow_pos; unfold ulp_exp; lia|].
  pose proof (Z.log2_spec (n / d) ltac:(lia)) as [_ H].
  eapply Z.lt_le_trans; [exact H|]. apply Z.pow_le_mono_r; [lia|]. unfold ulp_exp. lia.
Qed.

Lemma ulp_big n d : 0 < d -> 0 <= n -> 0 < ulp_exp n d -> 2 ^ (ulp_exp n d + 52) <= n / d.
Proof.
  intros Hd Hn Hs. assert (H0 : 0 <= n / d) by (apply Z.div_pos; lia).
  unfold ulp_exp in *. assert (0 < Z.log2 (n / d)) by lia.
  assert (0 < n / d). { destruct (Z.eq_dec (n / d) 0) as [E|]; [rewrite E in *; cbn in *; lia|lia]. }
  pose proof (Z.log2_spec (n / d) ltac:(lia)) as [H2 _].
  replace (Z.max 0 (Z.log2 (n / d) - 52) + 52) with (Z.log2 (n / d)) by lia. exact H2.
Qed.

Lemma rnd_upper n d : 0 < d -> 0 <= n -> rnd n d <= 2 ^ (ulp_exp n d + 53).
Proof.
  intros Hd Hn. unfold rnd. cbn zeta. set (s := ulp_exp n d). assert (Hs : 0 <= s) by apply ulp_exp_nonneg.
  pose proof (ulp_small n d Hd Hn) as H. fold s in H. pose proof (pow_pos s Hs) as P.
  assert (rhe n (d * 2 ^ s) <= 2 ^ 53).
  { rewrite <- (rhe_exact (2 ^ 53) 1) by lia. apply rhe_mono; [nia|lia|].
    assert (n < (n / d + 1) * d) by (pose proof (Z.div_mod n d ltac:(lia)); pose proof (Z.mod_pos_bound n d Hd); nia).
    assert (n / d + 1 <= 2 ^ (s + 53)) by lia. rewrite Z.pow_add_r in * by lia. nia. }
  rewrite Z.pow_add_r by lia. nia.
Qed.

Lemma rnd_lower n d : 0 < d -> 0 <= n -> 0 < ulp_exp n d -> 2 ^ (ulp_exp n d + 52) <= rnd n d.
Proof.
  intros Hd Hn Hs. pose proof (ulp_big n d Hd Hn Hs) as H. unfold rnd. cbn zeta. set (s := ulp_exp n d) in *.
  pose proof (pow_pos s ltac:(lia)) as P.
  assert (2 ^ 52 <= rhe n (d * 2 ^ s)).
  { rewrite <- (rhe_exact (2 ^ 52) 1) by lia. apply rhe_mono; [lia|nia|].
    assert (n / d * d <= n) by (pose proof (Z.div_mod n d ltac:(lia)); pose proof (Z.mod_pos_bound n d Hd); nia).
    rewrite Z.pow_add_r in * by lia. nia. }
  rewrite Z.pow_add_r by lia. nia.
Qed.

Lemma rnd_nonneg n d : 0 < d -> 0 <= n -> 0 <= rnd n d.
Proof.
  intros Hd Hn. unfold rnd. cbn zeta. pose proof (ulp_exp_nonneg n d) as Hs. pose proof (pow_pos _ Hs) as P.
  apply Z.mul_nonneg_nonneg; [|lia]. pose proof (rhe_floor n (d * 2 ^ ulp_exp n d) ltac:(nia)).
  pose proof (Z.div_pos n (d * 2 ^ ulp_exp n d) ltac:(lia) ltac:(nia)). lia.
Qed.

Theorem rnd_mono n1 d1 n2 d2 : 0 < d1 -> 0 < d2 -> 0 <= n1 -> 0 <= n2 ->
  n1 * d2 <= n2 * d1 -> rnd n1 d1 <= rnd n2 d2.
Proof.
  intros H1 H2 N1 N2 H.
  assert (Hf : n1 / d1 <= n2 / d2).
  { apply Z.div_le_lower_bound; [lia|].
    assert (n1 / d1 * d1 <= n1) by (pose proof (Z.div_mod n1 d1 ltac:(lia)); pose proof (Z.mod_pos_bound n1 d1 H1); nia).
    assert (0 <= n1 / d1) by (apply Z.div_pos; lia). nia. }
  assert (Hs : ulp_exp n1 d1 <= ulp_exp n2 d2).
  { unfold ulp_exp. pose proof (Z.log2_le_mono _ _ Hf). lia. }
  destruct (Z.eq_dec (ulp_exp n1 d1) (ulp_exp n2 d2)) as [E|N].
  - unfold rnd. cbn zeta. rewrite E. pose proof (pow_pos _ (ulp_exp_nonneg n2 d2)) as P.
    apply Z.mul_le_mono_nonneg_r; [lia|]. apply rhe_mono; nia.
  - eapply Z.le_trans; [apply rnd_upper; assumption|].
    eapply Z.le_trans; [|apply rnd_lower; [assumption|assumption|pose proof (ulp_exp_nonneg n1 d1); lia]].
    apply Z.pow_le_mono_r; lia.
Qed.

Lemma rnd_representable n d : 0 < d -> 0 <= n -> representable (rnd n d).
Proof.
  intros Hd Hn. pose proof (rnd_upper n d Hd Hn) as H. pose proof (rnd_nonneg n d Hd Hn) as H0.
  pose proof (ulp_exp_nonneg n d) as Hs. unfold rnd in *. cbn zeta in *. set (s := ulp_exp n d) in *.
  pose proof (pow_pos s Hs) as P. rewrite Z.pow_add_r in H by lia.
  set (m := rhe n (d * 2 ^ s)) in *. assert (0 <= m <= 2 ^ 53) by nia.
  destruct (Z.eq_dec m (2 ^ 53)) as [->|].
  - exists (2 ^ 52), (s + 1). rewrite Z.pow_add_r by lia. split; [|lia].
    change (2 ^ 53) with (2 ^ 52 * 2). change (2 ^ 1) with 2. ring.
  - exists m, s. lia.
Qed.

Lemma representable_nonneg v : representable v -> 0 <= v.
Proof. intros (m & e & -> & H & He). pose proof (pow_pos e He). nia. Qed.

Theorem rnd_exact v d : 0 < d -> representable v -> rnd (v * d) d = v.
Proof.
  intros Hd (m & e & -> & Hm & He). unfold rnd. cbn zeta. unfold ulp_exp. rewrite Z.div_mul by lia.
  set (v := m * 2 ^ e). pose proof (pow_pos e He) as Pe.
  destruct (Z.eq_dec m 0) as [->|N].
  { replace v with 0 by (unfold v; lia). cbn [Z.log2]. replace (Z.max 0 (0 - 52)) with 0 by lia.
    rewrite Z.pow_0_r, !Z.mul_1_r. change (0 * d) with (0 * d). rewrite rhe_exact by lia. lia. }
  assert (L : Z.log2 v <= 52 + e).
  { unfold v. rewrite Z.log2_mul_pow2 by lia. assert (Z.log2 m < 53) by (apply Z.log2_lt_pow2; lia). lia. }
  set (s := Z.max 0 (Z.log2 v - 52)). assert (Hs : 0 <= s <= e) by lia.
  assert (Ev : v = m * 2 ^ (e - s) * 2 ^ s).
  { unfold v. rewrite <- Z.mul_assoc, <- Z.pow_add_r by lia. do 2 f_equal. lia. }
  pose proof (pow_pos s ltac:(lia)) as Ps.
  replace (v * d) with (m * 2 ^ (e - s) * (d * 2 ^ s)) by (rewrite Ev; ring).
  rewrite rhe_exact by nia. symmetry. exact Ev.
Qed.

Corollary rnd_le n d v : 0 < d -> 0 <= n -> representable v -> n <= v * d -> rnd n d <= v.
Proof.
  intros Hd Hn Hv H. rewrite <- (rnd_exact v d Hd Hv). pose proof (representable_nonneg v Hv).
  apply rnd_mono; try assumption; nia.
Qed.
Corollary rnd_ge n d v : 0 < d -> 0 <= n -> representable v -> v * d <= n -> v <= rnd n d.
Proof.
  intros Hd Hn Hv H. rewrite <- (rnd_exact v d Hd Hv) at 1. pose proof (representable_nonneg v Hv).
  apply rnd_mono; try assumption; nia.
Qed.

(** The error is at most half a unit (2^-1075) or 2^-53 of the value. *)
Theorem rnd_error n d : 0 < d -> 0 <= n ->
  2 * Z.abs (rnd n d * d - n) <= d \/ 2 ^ 53 * Z.abs (rnd n d * d - n) <= n.
Proof.
  intros Hd Hn. pose proof (ulp_exp_nonneg n d) as Hs. unfold rnd. cbn zeta. set (s := ulp_exp n d) in *.
  pose proof (pow_pos s Hs) as P. pose proof (rhe_bounds n (d * 2 ^ s) ltac:(nia)) as B.
  replace (rhe n (d * 2 ^ s) * 2 ^ s * d) with (rhe n (d * 2 ^ s) * (d * 2 ^ s)) by ring.
  destruct (Z.eq_dec s 0) as [E|N].
  - left. rewrite E, Z.pow_0_r, Z.mul_1_r in *. exact B.
  - right. pose proof (ulp_big n d Hd Hn ltac:(fold s; lia)) as H. fold s in H.
    assert (n / d * d <= n) by (pose proof (Z.div_mod n d ltac:(lia)); pose proof (Z.mod_pos_bound n d Hd); nia).
    rewrite Z.pow_add_r in H by lia. change (2 ^ 53) with (2 ^ 52 * 2). nia.
Qed.

(** in particular: *)
Lemma rnd_error_sum n d : 0 < d -> 0 <= n -> 2 ^ 53 * Z.abs (rnd n d * d - n) <= n + 2 ^ 52 * d.
Proof.
  intros Hd Hn. destruct (rnd_error n d Hd Hn) as [H|H]; [|nia].
  change (2 ^ 53) with (2 ^ 52 * 2). nia.
Qed.

(* ------------------------------------------------------------------ *)
(** ** Representable magnitudes *)

Lemma representable_small v : 0 <= v < 2 ^ 53 -> representable v.
Proof. intros H. exists v, 0. rewrite Z.pow_0_r. lia. Qed.
Lemma representable_shift v k : 0 <= k -> representable v -> representable (v * 2 ^ k).
Proof.
  intros Hk (m & e & -> & Hm & He). exists m, (e + k). rewrite Z.pow_add_r by lia. split; [ring|lia].
Qed.
Lemma representable_one : representable f_one.
Proof. exists 1, 1074. unfold f_one. lia. Qed.
Lemma representable_int z : 0 <= z < 2 ^ 53 -> representable (z * f_one).
Proof. intros H. exists z, 1074. unfold f_one. lia. Qed.

(** the integers that are no values of float64 patterns *)
Lemma f_fields x : (x < 2 ^ 64)%N -> 0 <= f_exp x < 2048 /\ 0 <= f_man x < 2 ^ 52.
Proof.
  intros _. unfold f_exp, f_man. split.
  - pose proof (N.mod_lt (x / 2 ^ 52) (2 ^ 11) ltac:(lia)). change (2 ^ 11)%N with 2048%N in *. lia.
  - pose proof (N.mod_lt x (2 ^ 52) ltac:(lia)). change (2 ^ 52)%N with 4503599627370496%N in *. lia.
Qed.
Lemma f_exp_range x : 0 <= f_exp x < 2048.
Proof. unfold f_exp. pose proof (N.mod_lt (x / 2 ^ 52) (2 ^ 11) ltac:(lia)). change (2 ^ 11)%N with 2048%N in *. lia. Qed.
Lemma f_man_range x : 0 <= f_man x < 2 ^ 52.
Proof. unfold f_man. pose proof (N.mod_lt x (2 ^ 52) ltac:(lia)). change (2 ^ 52)%N with 4503599627370496%N in *. lia. Qed.

Lemma f_mag_representable x : representable (f_mag x).
Proof.
  pose proof (f_exp_range x) as He. pose proof (f_man_range x) as Hm. unfold f_mag.
  destruct (Z.eqb_spec (f_exp x) 0) as [E|N]; [apply representable_small; lia|].
  exists (2 ^ 52 + f_man x), (f_exp x - 1). lia.
Qed.
Lemma f_mag_nonneg x : 0 <= f_mag x.
Proof. apply representable_nonneg, f_mag_representable. Qed.

Lemma nan_fields x : is_nan x = (f_exp x =? 2047) && negb (f_man x =? 0).
Proof.
  unfold is_nan, f_exp, f_man. change 2047%N with (N.ones 11) at 1. rewrite !N.land_ones, N.shiftr_div_pow2.
  change (2 ^ 52)%N with 0x10000000000000%N. change (2 ^ 11)%N with 2048%N.
  f_equal; [|f_equal]; apply eq_true_iff_eq; rewrite N.eqb_eq, Z.eqb_eq; lia.
Qed.

(** a float is NaN, infinite or below 2^1024 *)
Lemma f_mag_lt_max x : is_nan x = false -> is_inf x = false -> f_mag x < f_max.
Proof.
  intros Hn Hi. pose proof (f_exp_range x) as He. pose proof (f_man_range x) as Hm. unfold f_mag, f_max.
  assert (f_exp x <> 2047).
  { intro E. unfold is_inf in Hi. rewrite E in Hi. cbn in Hi.
    rewrite nan_fields, E in Hn. cbn in Hn. destruct (f_man x =? 0); discriminate. }
  destruct (Z.eqb_spec (f_exp x) 0) as [E|N].
  - eapply Z.lt_trans; [apply Hm|]. apply Z.pow_lt_mono_r; lia.
  - assert (f_exp x - 1 <= 2045) by lia.
    apply Z.lt_le_trans with (2 ^ 53 * 2 ^ (f_exp x - 1)).
    + pose proof (pow_pos (f_exp x - 1) ltac:(lia)). nia.
    + rewrite <- Z.pow_add_r by lia. apply Z.pow_le_mono_r; lia.
Qed.

(* ------------------------------------------------------------------ *)
(** ** Encoding *)

Lemma pack_fields (neg : bool) k m : 0 <= k < 2048 -> 0 <= m < 2 ^ 52 ->
  let x := Z.to_N (if neg then 2 ^ 63 + (k * 2 ^ 52 + m) else k * 2 ^ 52 + m) in
  (x < 2 ^ 64)%N /\ f_sign x = neg /\ f_exp x = k /\ f_man x = m.
Proof.
  intros Hk Hm. cbn zeta. set (z := k * 2 ^ 52 + m). assert (Hz : 0 <= z < 2 ^ 63) by (unfold z; lia).
  assert (Hx : forall w, w = (if neg then 2 ^ 63 + z else z) -> (Z.to_N w < 2 ^ 64)%N).
  { intros w ->. destruct neg; apply N2Z.inj_lt; rewrite Z2N.id by lia; change (Z.of_N (2 ^ 64)) with (2 ^ 64); lia. }
  split; [apply (Hx _ eq_refl)|]. split; [|split].
  - unfold f_sign. rewrite <- Z.testbit_of_N. rewrite Z2N.id by (destruct neg; lia).
    change (Z.of_N 63) with 63. apply eq_true_iff_eq. rewrite Z.testbit_true by lia. destruct neg.
    + replace ((2 ^ 63 + z) / 2 ^ 63) with 1; [split; reflexivity|].
      apply Z.div_unique with z; lia.
    + rewrite Z.div_small by lia. split; discriminate.
  - unfold f_exp. rewrite N2Z.inj_mod, N2Z.inj_div by lia. rewrite Z2N.id by (destruct neg; lia).
    change (Z.of_N (2 ^ 52)) with (2 ^ 52). change (Z.of_N (2 ^ 11)) with (2 ^ 11).
    destruct neg; unfold z; [|].
    + symmetry. apply Z.mod_unique with 1; [lia|]. symmetry. apply Z.div_unique with m; lia.
    + symmetry. apply Z.mod_unique with 0; [lia|]. symmetry. apply Z.div_unique with m; lia.
  - unfold f_man. rewrite N2Z.inj_mod by lia. rewrite Z2N.id by (destruct neg; lia).
    change (Z.of_N (2 ^ 52)) with (2 ^ 52). destruct neg; unfold z.
    + symmetry. apply Z.mod_unique with (2 ^ 11 + k); lia.
    + symmetry. apply Z.mod_unique with k; lia.
Qed.

Theorem f_pack_spec (neg : bool) v : representable v ->
  let x := f_pack neg v in
  (x < 2 ^ 64)%N /\ f_sign x = neg /\ is_nan x = false /\ f_mag x = Z.min v f_max /\
  is_inf x = (f_max <=? v).
Proof.
  intros Hr. cbn zeta. unfold f_pack. pose proof (representable_nonneg v Hr) as H0.
  assert (Pm : 2 ^ 53 < f_max) by (unfold f_max; apply Z.pow_lt_mono_r; lia).
  destruct (Z.ltb_spec v (2 ^ 52)) as [A|A].
  - destruct (pack_fields neg 0 v ltac:(lia) ltac:(lia)) as (E1 & E2 & E3 & E4).
    change (0 * 2 ^ 52 + v) with v in *.
    set (x := Z.to_N (if neg then 2 ^ 63 + v else v)) in *.
    split; [exact E1|]. split; [exact E2|]. rewrite (nan_fields x), E3. cbn [Z.eqb andb].
    split; [reflexivity|]. unfold f_mag, is_inf. rewrite E3, E4. cbn [Z.eqb andb]. lia.
  - destruct (Z.leb_spec f_max v) as [B|B].
    + destruct (pack_fields neg 2047 0 ltac:(lia) ltac:(lia)) as (E1 & E2 & E3 & E4).
      rewrite Z.add_0_r in *. set (x := Z.to_N (if neg then 2 ^ 63 + 2047 * 2 ^ 52 else 2047 * 2 ^ 52)) in *.
      split; [exact E1|]. split; [exact E2|]. rewrite (nan_fields x), E3, E4.
      split; [reflexivity|]. unfold f_mag, is_inf. rewrite E3, E4. split; [|reflexivity].
      change (2047 =? 0) with false. cbn match. rewrite Z.min_r by lia. unfold f_max.
      rewrite Z.add_0_r, <- Z.pow_add_r by lia. reflexivity.
    + set (k := Z.log2 v - 52). assert (Hk : 0 <= k).
      { unfold k. assert (52 <= Z.log2 v) by (apply Z.log2_le_pow2; lia). lia. }
      assert (Hk2 : k <= 2045).
      { unfold k. assert (Z.log2 v < 2098) by (apply Z.log2_lt_pow2; [lia|exact B]). lia. }
      pose proof (pow_pos k Hk) as Pk.
      assert (Ed : v = v / 2 ^ k * 2 ^ k).
      { destruct Hr as (m & e & Ev & Hm & He). assert (m <> 0) by (intro; subst; lia).
        assert (k <= e). { unfold k. rewrite Ev, Z.log2_mul_pow2 by lia. assert (Z.log2 m < 53) by (apply Z.log2_lt_pow2; lia). lia. }
        rewrite Ev. replace (m * 2 ^ e) with (m * 2 ^ (e - k) * 2 ^ k).
        - rewrite Z.div_mul by lia. reflexivity.
        - rewrite <- Z.mul_assoc, <- Z.pow_add_r by lia. do 2 f_equal. lia. }
      pose proof (Z.log2_spec v ltac:(lia)) as [L1 L2].
      replace (Z.log2 v) with (52 + k) in L1 by (unfold k; lia).
      replace (Z.succ (Z.log2 v)) with (53 + k) in L2 by (unfold k; lia).
      rewrite Z.pow_add_r in L1, L2 by lia. set (m := v / 2 ^ k) in *.
      assert (Hm : 2 ^ 52 <= m < 2 ^ 53) by nia.
      destruct (pack_fields neg (k + 1) (m - 2 ^ 52) ltac:(lia) ltac:(lia)) as (E1 & E2 & E3 & E4).
      cbn zeta. fold k. fold m.
      set (x := Z.to_N (if neg then 2 ^ 63 + ((k + 1) * 2 ^ 52 + (m - 2 ^ 52)) else (k + 1) * 2 ^ 52 + (m - 2 ^ 52))) in *.
      split; [exact E1|]. split; [exact E2|]. rewrite (nan_fields x), E3.
      replace (k + 1 =? 2047) with false by lia. cbn [andb]. split; [reflexivity|].
      unfold f_mag, is_inf. rewrite E3, E4. replace (k + 1 =? 2047) with false by lia. cbn [andb].
      replace (k + 1 =? 0) with false by lia. split; [|reflexivity].
      rewrite Z.min_l by lia. replace (k + 1 - 1) with k by lia.
      replace (2 ^ 52 + (m - 2 ^ 52)) with m by lia. symmetry. exact Ed.
Qed.
