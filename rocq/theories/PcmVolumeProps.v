(** Property C81: the volume scales the sound (playback/playback.go:133-152 with the exact
    float64 product). *)
From Verif Require Import GoBase GoBaseFacts PlaylistModel PcmModel PcmProofs GoFloat GoFloatFacts.
From Coq Require Import ZifyBool ZifyNat ZifyN.
Local Open Scope Z_scope.

(** a number: neither NaN nor infinite *)
Definition finite (x : N) : Prop := is_nan x = false /\ is_inf x = false.
(** The exact product of two floats is [f_scaled x * f_scaled y / full_scale]. *)
Definition full_scale : Z := f_one * f_one.

Definition f_val (neg : bool) (m : Z) : Z := if neg then - m else m.
Lemma scaled_val x : f_scaled x = f_val (f_sign x) (f_mag x). Proof. reflexivity. Qed.
Lemma abs_scaled x : Z.abs (f_scaled x) = f_mag x.
Proof. unfold f_scaled. pose proof (f_mag_nonneg x). destruct (f_sign x); lia. Qed.

Lemma fmul_spec x y : finite x -> finite y ->
  let p := fmul x y in
  is_nan p = false /\
  f_scaled p = f_val (xorb (f_sign x) (f_sign y)) (Z.min (rnd (f_mag x * f_mag y) f_one) f_max).
Proof.
  intros [Nx Ix] [Ny Iy]. cbn zeta. unfold fmul. rewrite Nx, Ny, Ix, Iy. cbn [orb].
  assert (H : 0 <= f_mag x * f_mag y) by (pose proof (f_mag_nonneg x); pose proof (f_mag_nonneg y); nia).
  destruct (f_pack_spec (xorb (f_sign x) (f_sign y)) _ (rnd_representable _ _ f_one_pos H)) as (_ & S1 & N1 & M1 & _).
  split; [exact N1|]. rewrite scaled_val, S1, M1. reflexivity.
Qed.

Lemma sign_product x y : f_scaled x * f_scaled y = f_val (xorb (f_sign x) (f_sign y)) (f_mag x * f_mag y).
Proof. unfold f_scaled, f_val. destruct (f_sign x), (f_sign y); cbn [xorb]; ring. Qed.

Lemma one_lt_max : f_one < f_max. Proof. unfold f_one, f_max. apply Z.pow_lt_mono_r; lia. Qed.
Definition f_step : Z := 2 ^ 1021.     (* the distance between floats just below 1 *)
Lemma half_ulp_below : f_one = 2 ^ 53 * f_step. Proof. unfold f_one, f_step. rewrite <- Z.pow_add_r; [reflexivity|discriminate|discriminate]. Qed.
Lemma step_pos : 0 < f_step. Proof. apply pow_pos. discriminate. Qed.

(** The largest float below 1 *)
Definition f_below_one : Z := f_one - f_step.
Lemma below_one_representable : representable f_below_one.
Proof. exists (2 ^ 53 - 1), 1021. unfold f_below_one. rewrite half_ulp_below. fold f_step. pose proof step_pos. lia. Qed.

Lemma rnd_below m : 0 <= m <= f_below_one * f_one -> rnd m f_one <= f_below_one.
Proof. intros H. apply rnd_le; [apply f_one_pos|lia|apply below_one_representable|lia]. Qed.
Lemma below_one_lt : 0 < f_below_one < f_one.
Proof. unfold f_below_one. rewrite half_ulp_below. pose proof step_pos. lia. Qed.

(** the arithmetic of the error bound: [one] full scale, [m] the exact product, [r] its
    rounding, [q] the truncated 16-bit value *)
Lemma error_bound one m r q : 2 ^ 52 <= one -> 0 <= m -> m <= one * one ->
  2 ^ 53 * Z.abs (r * one - m) <= m + 2 ^ 52 * one ->
  q * one <= r * 2 ^ 15 < (q + 1) * one ->
  2 ^ 37 * Z.abs (q * (one * one) - m * 32768) <= (2 ^ 37 + 1) * (one * one).
Proof.
  intros H1 H2 H3 H4 H5.
  assert (H6 : 2 ^ 52 * one <= one * one) by (apply Z.mul_le_mono_nonneg_r; lia).
  assert (H7 : 2 ^ 52 * Z.abs (r * one - m) <= one * one) by (change (2 ^ 53) with (2 * 2 ^ 52) in H4; lia).
  assert (H8 : Z.abs (q * one - r * 2 ^ 15) <= one) by lia.
  assert (H9 : Z.abs (q * (one * one) - m * 32768) <= one * one + Z.abs (r * one - m) * 32768).
  { replace (q * (one * one) - m * 32768) with ((q * one - r * 2 ^ 15) * one + (r * one - m) * 32768) by (change (2 ^ 15) with 32768; ring).
    eapply Z.le_trans; [apply Z.abs_triangle|]. rewrite !Z.abs_mul. rewrite (Z.abs_eq one), (Z.abs_eq 32768) by lia.
    apply Z.add_le_mono_r. apply Z.mul_le_mono_nonneg_r; lia. }
  change (2 ^ 52) with (2 ^ 37 * 32768) in H7. lia.
Qed.
Lemma one_big : 2 ^ 52 <= f_one. Proof. rewrite half_ulp_below. pose proof step_pos. lia. Qed.

(** As long as the product stays below 1 (does not exceed the largest float below 1), the
    16-bit number sent to the sound card is the exact product times 32768 to within one
    step (plus the rounding of the product, below 2^-37 of a step), and has its sign. *)
Theorem C81_accuracy : forall x vol, finite x -> finite vol ->
  Z.abs (f_scaled x * f_scaled vol) <= f_below_one * f_one ->
  let v := pcm16 (convert_sample (fmul x vol)) in
  let p := f_scaled x * f_scaled vol in
  2 ^ 37 * Z.abs (v * full_scale - p * 32768) <= (2 ^ 37 + 1) * full_scale /\ 0 <= v * p.
Proof.
  intros x vol Hx Hv H. cbn zeta. destruct (fmul_spec x vol Hx Hv) as [Np Sp].
  rewrite sign_product in *. pose proof (f_mag_nonneg x) as Px. pose proof (f_mag_nonneg vol) as Pv.
  set (m := f_mag x * f_mag vol) in *. assert (Hm : 0 <= m <= f_below_one * f_one).
  { split; [unfold m; nia|]. unfold f_val in H. destruct (xorb _ _); lia. }
  pose proof (rnd_below m Hm) as Hr. pose proof (rnd_nonneg m f_one f_one_pos ltac:(lia)) as Hr0.
  pose proof below_one_lt as Bo. pose proof one_lt_max as Om.
  rewrite Z.min_l in Sp by lia. set (r := rnd m f_one) in *.
  assert (Hlt : f_scaled (fmul x vol) < f_one) by (rewrite Sp; unfold f_val; destruct (xorb _ _); lia).
  rewrite (conv_eq _ Np), to_int16_id by (apply quot_range; exact Hlt).
  assert (Hc : clamped (fmul x vol) = f_val (xorb (f_sign x) (f_sign vol)) r).
  { unfold clamped. rewrite Sp. unfold f_val. destruct (xorb _ _); lia. }
  rewrite Hc. pose proof (rnd_error_sum m f_one f_one_pos ltac:(lia)) as He. fold r in He.
  pose proof f_one_pos as P1. unfold full_scale.
  destruct (quot_bounds (r * 2 ^ 15) f_one P1) as [Q1 Q2]. rewrite (Z.abs_eq (r * 2 ^ 15)) in Q1 by lia.
  set (q := Z.quot (r * 2 ^ 15) f_one) in *. assert (Hq : 0 <= q).
  { unfold q. apply Z.quot_pos; lia. }
  rewrite Z.abs_eq in Q1 by lia.
  assert (E : Z.quot (f_val (xorb (f_sign x) (f_sign vol)) r * 2 ^ 15) f_one = f_val (xorb (f_sign x) (f_sign vol)) q).
  { unfold f_val. destruct (xorb _ _); [|reflexivity]. rewrite Z.mul_opp_l, Z.quot_opp_l by lia. reflexivity. }
  rewrite E. set (neg := xorb _ _) in *.
  assert (G : 2 ^ 37 * Z.abs (q * (f_one * f_one) - m * 32768) <= (2 ^ 37 + 1) * (f_one * f_one)).
  { apply (error_bound f_one m r q one_big); [apply Hm| |exact He|exact Q1].
    eapply Z.le_trans; [apply Hm|]. apply Z.mul_le_mono_nonneg_r; [apply Z.lt_le_incl, f_one_pos|].
    apply Z.lt_le_incl, below_one_lt. }
  clear - G Hm Hq. clearbody q m neg. destruct Hm as [Hm _]. unfold f_val. split.
  - destruct neg; [|exact G].
    replace (- q * (f_one * f_one) - - m * 32768) with (- (q * (f_one * f_one) - m * 32768)) by ring.
    rewrite Z.abs_opp. exact G.
  - destruct neg; nia.
Qed.
Print Assumptions C81_accuracy.

(** Volume 1.0 changes nothing, volume 0 is silence. *)
Definition float_one : N := 0x3FF0000000000000%N.
Lemma one_fields : f_mag float_one = f_one /\ f_sign float_one = false.
Proof. split; vm_compute; reflexivity. Qed.

Theorem C81_volume_one : forall x, finite x -> convert_sample (fmul x float_one) = convert_sample x.
Proof.
  intros x Hx. destruct (fmul_spec x float_one Hx) as [Np Sp]; [split; reflexivity|].
  destruct one_fields as [M1 S1]. rewrite M1, S1, xorb_false_r in Sp.
  rewrite rnd_exact in Sp by (apply f_one_pos || apply f_mag_representable).
  rewrite Z.min_l in Sp by (destruct Hx; pose proof (f_mag_lt_max x); lia).
  fold (f_val (f_sign x) (f_mag x)) in Sp. rewrite <- scaled_val in Sp.
  unfold convert_sample. rewrite Np, Sp. destruct Hx as [-> _]. reflexivity.
Qed.
Print Assumptions C81_volume_one.

Theorem C81_volume_zero : forall x vol, finite x -> finite vol -> f_scaled vol = 0 ->
  convert_sample (fmul x vol) = (0, 0).
Proof.
  intros x vol Hx Hv Z0. destruct (fmul_spec x vol Hx Hv) as [Np Sp].
  assert (M0 : f_mag vol = 0) by (rewrite <- abs_scaled, Z0; reflexivity).
  rewrite M0, Z.mul_0_r in Sp. 
  assert (E : f_scaled (fmul x vol) = 0).
  { rewrite Sp. change 0 with (0 * f_one) at 1. rewrite rnd_exact; [|apply f_one_pos|apply representable_small; lia].
    rewrite Z.min_l by (pose proof one_lt_max; pose proof f_one_pos; lia). unfold f_val. destruct (xorb _ _); reflexivity. }
  unfold convert_sample. rewrite Np, E. pose proof f_one_pos. cbn zeta.
  replace (0 <? - f_one) with false by lia. replace (f_one <? 0) with false by lia. cbn. reflexivity.
Qed.
Print Assumptions C81_volume_zero.

(** A higher volume never makes a sample quieter (below full scale), nor changes its side. *)
Theorem C81_louder : forall x vol1 vol2, finite x -> finite vol1 -> finite vol2 ->
  0 <= f_scaled vol1 <= f_scaled vol2 -> Z.abs (f_scaled x * f_scaled vol2) <= f_below_one * f_one ->
  let v1 := pcm16 (convert_sample (fmul x vol1)) in
  let v2 := pcm16 (convert_sample (fmul x vol2)) in
  Z.abs v1 <= Z.abs v2 /\ 0 <= v1 * f_scaled x /\ 0 <= v2 * f_scaled x.
Proof.
  assert (K : forall x vol, finite x -> finite vol -> 0 <= f_scaled vol -> Z.abs (f_scaled x * f_scaled vol) <= f_below_one * f_one ->
    exists q, pcm16 (convert_sample (fmul x vol)) = f_val (f_sign x) q /\ q = Z.quot (rnd (f_mag x * f_mag vol) f_one * 2 ^ 15) f_one /\ 0 <= q /\
      0 <= f_mag x * f_mag vol <= f_below_one * f_one).
  { intros x vol Hx Hv H0 H. destruct (fmul_spec x vol Hx Hv) as [Np Sp].
    rewrite sign_product in *. pose proof (f_mag_nonneg x) as Px. pose proof (f_mag_nonneg vol) as Pv.
    set (m := f_mag x * f_mag vol) in *. assert (Hm : 0 <= m <= f_below_one * f_one).
    { split; [unfold m; nia|]. unfold f_val in H. destruct (xorb _ _); lia. }
    pose proof (rnd_below m Hm) as Hr. pose proof (rnd_nonneg m f_one f_one_pos ltac:(lia)) as Hr0.
    pose proof below_one_lt as Bo. pose proof one_lt_max as Om. pose proof f_one_pos as P1.
    rewrite Z.min_l in Sp by lia. set (r := rnd m f_one) in *.
    assert (Hlt : f_scaled (fmul x vol) < f_one) by (rewrite Sp; unfold f_val; destruct (xorb _ _); lia).
    rewrite (conv_eq _ Np), to_int16_id by (apply quot_range; exact Hlt).
    assert (Hc : clamped (fmul x vol) = f_val (f_sign x) r).
    { unfold clamped. rewrite Sp. unfold f_val. destruct (f_sign vol) eqn:Sv.
      - rewrite scaled_val, Sv in H0. cbn in H0. assert (f_mag vol = 0) by lia.
        assert (Er : r = 0). { unfold r, m. rewrite H1, Z.mul_0_r. change 0 with (0 * f_one) at 1. apply rnd_exact; [apply f_one_pos|apply representable_small; lia]. }
        rewrite Er. destruct (xorb _ _), (f_sign x); lia.
      - rewrite xorb_false_r. destruct (f_sign x); lia. }
    rewrite Hc. exists (Z.quot (r * 2 ^ 15) f_one). split; [|split; [reflexivity|split; [apply Z.quot_pos; lia|exact Hm]]].
    unfold f_val. destruct (f_sign x); [|reflexivity]. rewrite Z.mul_opp_l, Z.quot_opp_l by lia. reflexivity. }
  intros x v1 v2 Hx H1 H2 Hle H. cbn zeta.
  assert (Hp : Z.abs (f_scaled x * f_scaled v1) <= Z.abs (f_scaled x * f_scaled v2)).
  { rewrite !Z.abs_mul. apply Z.mul_le_mono_nonneg_l; lia. }
  destruct (K x v1 Hx H1 ltac:(lia) ltac:(lia)) as (q1 & E1 & Q1 & P1 & M1).
  destruct (K x v2 Hx H2 ltac:(lia) ltac:(lia)) as (q2 & E2 & Q2 & P2 & M2).
  rewrite E1, E2.
  assert (Hm : f_mag x * f_mag v1 <= f_mag x * f_mag v2).
  { rewrite <- !abs_scaled, <- !Z.abs_mul. exact Hp. }
  assert (Hq : q1 <= q2).
  { rewrite Q1, Q2. apply quot_mono; [apply f_one_pos|]. apply Z.mul_le_mono_nonneg_r; [lia|].
    apply rnd_mono; [apply f_one_pos|apply f_one_pos|apply M1|apply M2|].
    apply Z.mul_le_mono_nonneg_r; [apply Z.lt_le_incl, f_one_pos|exact Hm]. }
  pose proof (f_mag_nonneg x) as Px. rewrite scaled_val. clear - Hq P1 P2 Px. unfold f_val.
  set (mx := f_mag x) in *. clearbody mx. destruct (f_sign x); (split; [lia|split; nia]).
Qed.
Print Assumptions C81_louder.

(** With samples within [-1, 1] and a volume below 1 the product always stays below 1:
    the wrap-around of C25_full_scale_refuted cannot happen. *)
Theorem C81_no_overflow : forall x vol, finite x -> finite vol ->
  Z.abs (f_scaled x) <= f_one -> Z.abs (f_scaled vol) < f_one ->
  Z.abs (f_scaled x * f_scaled vol) <= f_below_one * f_one.
Proof.
  intros x vol Hx Hv A B. rewrite abs_scaled in *. rewrite Z.abs_mul, !abs_scaled.
  assert (L : f_mag vol <= f_below_one).
  { (* no float lies between *)
    rewrite <- (rnd_exact _ f_one f_one_pos (f_mag_representable vol)).
    destruct (Z.le_gt_cases (f_mag vol) f_below_one) as [C|C].
    - rewrite rnd_exact; [exact C|apply f_one_pos|apply f_mag_representable].
    - exfalso. destruct (f_mag_representable vol) as (m & e & E & Hm & He). unfold f_below_one in C.
      rewrite half_ulp_below in B, C. rewrite E in B, C. unfold f_step in B, C.
      destruct (Z.le_gt_cases 1021 e) as [D|D].
      + replace e with (e - 1021 + 1021) in B, C by lia. rewrite Z.pow_add_r in B, C by lia.
        pose proof step_pos as Pt. fold f_step in B, C. set (k := m * 2 ^ (e - 1021)).
        replace (m * (2 ^ (e - 1021) * f_step)) with (k * f_step) in * by (unfold k; ring).
        clearbody k. assert (2 ^ 53 - 1 < k) by nia. assert (k < 2 ^ 53) by nia. lia.
      + replace 1021 with (e + (1021 - e)) in B, C by lia. rewrite Z.pow_add_r in B, C by lia.
        assert (Pt : 0 < 2 ^ e) by (apply pow_pos; lia). set (t := 2 ^ e) in *. set (k := 2 ^ (1021 - e)) in *.
        assert (Hk : 2 <= k). { unfold k. change 2 with (2 ^ 1) at 1. apply Z.pow_le_mono_r; lia. }
        clearbody t k. assert ((2 ^ 53 - 1) * k < m) by nia. nia. }
  rewrite Z.mul_comm. apply Z.mul_le_mono_nonneg; try assumption; apply f_mag_nonneg.
Qed.
Print Assumptions C81_no_overflow.

(** 0.5 at volume 0.1, -0.75 at volume 0.9. *)
Example C81_nonvacuous :
  let half := 0x3FE0000000000000%N in let tenth := 0x3FB999999999999A%N in
  let m34 := 0xBFE8000000000000%N in let v9 := 0x3FECCCCCCCCCCCCD%N in
  finite half /\ finite tenth /\ finite m34 /\ finite v9 /\ fmul half tenth = 0x3FA999999999999A%N /\
  pcm16 (convert_sample (fmul half tenth)) = 1638 /\ pcm16 (convert_sample (fmul m34 v9)) = - 22118 /\
  Z.abs (f_scaled m34 * f_scaled v9) <= f_below_one * f_one.
Proof.
  cbn zeta. unfold finite.
  assert (E1 : fmul 0x3FE0000000000000 0x3FB999999999999A = 0x3FA999999999999A%N) by (vm_compute; reflexivity).
  assert (E2 : fmul 0xBFE8000000000000 0x3FECCCCCCCCCCCCD = 0xBFE599999999999A%N) by (vm_compute; reflexivity).
  rewrite E1, E2. repeat split; vm_compute; discriminate.
Qed.
