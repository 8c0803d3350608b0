(** Proofs about the progress bar. *)
From Verif Require Import GoBase GoBaseFacts PlaylistModel PcmModel PcmProofs GoFloat GoFloatFacts
  PcmVolumeProps VolumeModel VolumeProps InfoerModel DrawModel DrawSpec DrawProofs.
From Coq Require Import ZifyBool ZifyNat ZifyN.
Local Open Scope Z_scope.

Lemma one_nonneg : 0 <= f_one. Proof. apply Z.lt_le_incl, f_one_pos. Qed.
Lemma mul_one_nonneg z : 0 <= z -> 0 <= z * f_one. Proof. apply mul_nonneg_one. Qed.

Lemma below_large z : z <= 2 ^ 126 -> z * f_one < f_max.
Proof.
  intros H. eapply Z.le_lt_trans; [|apply large_lt_max]. unfold f_large. apply Z.mul_le_mono_nonneg_r; [apply one_nonneg|exact H].
Qed.

(** integers below 2^53 are exact *)
Lemma f_of_int_small z : 0 <= z < 2 ^ 53 ->
  finite (f_of_int z) /\ f_sign (f_of_int z) = false /\ f_mag (f_of_int z) = z * f_one.
Proof.
  intros H. unfold f_of_int. replace (z <? 0) with false by lia. rewrite Z.abs_eq by lia.
  assert (R : representable (z * f_one)) by (apply representable_int; exact H).
  pose proof (rnd_exact (z * f_one) 1 eq_refl R) as E. rewrite Z.mul_1_r in E. rewrite E.
  destruct (f_pack_spec false (z * f_one) R) as (_ & S & N & M & I).
  assert (B : z * f_one < f_max) by (apply below_large; change (2 ^ 126) with (2 ^ 53 * 2 ^ 73); lia).
  split; [split; [exact N|rewrite I; apply Z.leb_gt; exact B]|]. split; [exact S|]. rewrite M. apply Z.min_l, Z.lt_le_incl, B.
Qed.

(** the quotient and the product computed by the program *)
Definition quotient (a b : Z) : Z := rnd (a * f_one * f_one) (b * f_one).
Definition bar_value (L a b : Z) : Z := rnd (L * f_one * quotient a b) f_one.

Lemma pos_mul_one b : 0 < b -> 0 < b * f_one.
Proof. intros. apply Z.mul_pos_pos; [assumption|apply f_one_pos]. Qed.

Lemma quotient_le a b c : 0 <= a -> 0 < b -> 0 <= c < 2 ^ 53 -> a <= c * b -> quotient a b <= c * f_one.
Proof.
  intros Ha Hb Hc H. apply rnd_le; [apply pos_mul_one; exact Hb|apply mul_one_nonneg, mul_one_nonneg; exact Ha|apply representable_int; exact Hc|].
  replace (c * f_one * (b * f_one)) with (c * b * f_one * f_one) by ring.
  apply Z.mul_le_mono_nonneg_r; [apply one_nonneg|]. apply Z.mul_le_mono_nonneg_r; [apply one_nonneg|exact H].
Qed.
Lemma quotient_ge a b c : 0 <= a -> 0 < b -> 0 <= c < 2 ^ 53 -> c * b <= a -> c * f_one <= quotient a b.
Proof.
  intros Ha Hb Hc H. apply rnd_ge; [apply pos_mul_one; exact Hb|apply mul_one_nonneg, mul_one_nonneg; exact Ha|apply representable_int; exact Hc|].
  replace (c * f_one * (b * f_one)) with (c * b * f_one * f_one) by ring.
  apply Z.mul_le_mono_nonneg_r; [apply one_nonneg|]. apply Z.mul_le_mono_nonneg_r; [apply one_nonneg|exact H].
Qed.
Lemma quotient_nonneg a b : 0 <= a -> 0 < b -> 0 <= quotient a b.
Proof. intros. apply rnd_nonneg; [apply pos_mul_one; assumption|apply mul_one_nonneg, mul_one_nonneg; assumption]. Qed.
Lemma product_nonneg L q : 0 <= L -> 0 <= q -> 0 <= L * f_one * q.
Proof. intros. apply Z.mul_nonneg_nonneg; [apply mul_one_nonneg; assumption|assumption]. Qed.

Lemma bar_le L a b c d : 0 <= a -> 0 < b -> 0 <= L -> 0 <= c < 2 ^ 53 -> a <= c * b -> L * c <= d -> 0 <= d < 2 ^ 84 -> representable (d * f_one) ->
  bar_value L a b <= d * f_one.
Proof.
  intros Ha Hb HL Hc H1 H2 Hd Hr. pose proof (quotient_le a b c Ha Hb Hc H1) as Q. pose proof (quotient_nonneg a b Ha Hb) as Q0.
  apply rnd_le; [apply f_one_pos|apply product_nonneg; assumption|exact Hr|].
  replace (d * f_one * f_one) with (d * f_one * f_one) by ring.
  apply Z.le_trans with (L * f_one * (c * f_one)).
  - apply Z.mul_le_mono_nonneg_l; [apply mul_one_nonneg; exact HL|exact Q].
  - replace (L * f_one * (c * f_one)) with (L * c * f_one * f_one) by ring.
    apply Z.mul_le_mono_nonneg_r; [apply one_nonneg|]. apply Z.mul_le_mono_nonneg_r; [apply one_nonneg|exact H2].
Qed.
Lemma bar_ge L a b c : 0 <= a -> 0 < b -> 0 <= L -> 0 <= c < 2 ^ 53 -> c * b <= a -> 0 <= L * c < 2 ^ 53 ->
  L * c * f_one <= bar_value L a b.
Proof.
  intros Ha Hb HL Hc H1 H2. pose proof (quotient_ge a b c Ha Hb Hc H1) as Q. pose proof (quotient_nonneg a b Ha Hb) as Q0.
  apply rnd_ge; [apply f_one_pos|apply product_nonneg; assumption|apply representable_int; exact H2|].
  replace (L * c * f_one * f_one) with (L * f_one * (c * f_one)) by ring.
  apply Z.mul_le_mono_nonneg_l; [apply mul_one_nonneg; exact HL|exact Q].
Qed.
Lemma bar_mono L a a' b : 0 <= a <= a' -> 0 < b -> 0 <= L -> bar_value L a b <= bar_value L a' b.
Proof.
  intros Ha Hb HL. assert (Q : quotient a b <= quotient a' b).
  { pose proof (pos_mul_one b Hb). apply rnd_mono; try assumption; try (apply mul_one_nonneg, mul_one_nonneg; lia).
    apply Z.mul_le_mono_nonneg_r; [apply Z.lt_le_incl; assumption|].
    apply Z.mul_le_mono_nonneg_r; [apply one_nonneg|]. apply Z.mul_le_mono_nonneg_r; [apply one_nonneg|lia]. }
  pose proof (quotient_nonneg a b ltac:(lia) Hb). 
  apply rnd_mono; try apply f_one_pos; try (apply product_nonneg; lia).
  apply Z.mul_le_mono_nonneg_r; [apply one_nonneg|]. apply Z.mul_le_mono_nonneg_l; [apply mul_one_nonneg; exact HL|exact Q].
Qed.
Lemma bar_nonneg L a b : 0 <= L -> 0 <= a -> 0 < b -> 0 <= bar_value L a b.
Proof. intros. apply rnd_nonneg; [apply f_one_pos|]. apply product_nonneg; [assumption|apply quotient_nonneg; assumption]. Qed.

Lemma bar_error_arith o L a b q r : 2 ^ 84 <= o -> 0 <= L < 2 ^ 31 -> 0 <= a <= b -> 0 < b -> 0 <= q <= o ->
  2 ^ 53 * Z.abs (q * (b * o) - a * o * o) <= a * o * o + 2 ^ 52 * (b * o) ->
  2 ^ 53 * Z.abs (r * o - L * o * q) <= L * o * q + 2 ^ 52 * o ->
  2 ^ 20 * Z.abs (r * b - L * a * o) <= b * o.
Proof.
  intros Ho HL Ha Hb Hq H1 H2.
  assert (P : 0 < o) by lia.
  assert (H1' : 2 ^ 53 * Z.abs (q * b - a * o) <= a * o + 2 ^ 52 * b).
  { apply Z.mul_le_mono_pos_r with o; [exact P|]. rewrite <- Z.mul_assoc. rewrite <- (Z.abs_eq o) at 2 by lia. rewrite <- Z.abs_mul.
    replace ((q * b - a * o) * o) with (q * (b * o) - a * o * o) by ring. lia. }
  assert (H2' : 2 ^ 53 * Z.abs (r - L * q) <= L * q + 2 ^ 52).
  { apply Z.mul_le_mono_pos_r with o; [exact P|]. rewrite <- Z.mul_assoc. rewrite <- (Z.abs_eq o) at 1 by lia. rewrite <- Z.abs_mul.
    replace ((r - L * q) * o) with (r * o - L * o * q) by ring. lia. }
  clear H1 H2.
  assert (T : Z.abs (r * b - L * a * o) <= Z.abs (r - L * q) * b + L * Z.abs (q * b - a * o)).
  { replace (r * b - L * a * o) with ((r - L * q) * b + L * (q * b - a * o)) by ring.
    eapply Z.le_trans; [apply Z.abs_triangle|]. rewrite !Z.abs_mul, (Z.abs_eq b), (Z.abs_eq L) by lia. lia. }
  assert (A1 : 2 ^ 53 * (Z.abs (r - L * q) * b) <= (L * q + 2 ^ 52) * b).
  { rewrite Z.mul_assoc. apply Z.mul_le_mono_nonneg_r; [lia|exact H2']. }
  assert (A2 : 2 ^ 53 * (L * Z.abs (q * b - a * o)) <= L * (a * o + 2 ^ 52 * b)).
  { rewrite Z.mul_assoc, (Z.mul_comm (2 ^ 53) L), <- Z.mul_assoc. apply Z.mul_le_mono_nonneg_l; [lia|exact H1']. }
  assert (B1 : (L * q) * b <= 2 ^ 31 * o * b).
  { apply Z.mul_le_mono_nonneg_r; [lia|]. apply Z.mul_le_mono_nonneg; lia. }
  assert (B2 : L * (a * o) <= 2 ^ 31 * (b * o)).
  { apply Z.mul_le_mono_nonneg; [lia|lia|apply Z.mul_nonneg_nonneg; lia|apply Z.mul_le_mono_nonneg_r; lia]. }
  assert (B3 : L * (2 ^ 52 * b) <= 2 ^ 83 * b).
  { change (2 ^ 83) with (2 ^ 31 * 2 ^ 52). rewrite <- Z.mul_assoc. apply Z.mul_le_mono_nonneg_r; lia. }
  assert (B4 : 2 ^ 84 * b <= b * o).
  { rewrite (Z.mul_comm b o). apply Z.mul_le_mono_nonneg_r; lia. }
  assert (S : 2 ^ 53 * Z.abs (r * b - L * a * o) <= (2 ^ 31 * o + 2 ^ 52) * b + 2 ^ 31 * (b * o) + 2 ^ 83 * b).
  { apply Z.le_trans with (2 ^ 53 * (Z.abs (r - L * q) * b + L * Z.abs (q * b - a * o))).
    - apply Z.mul_le_mono_nonneg_l; [lia|exact T].
    - rewrite Z.mul_add_distr_l, Z.mul_add_distr_r. rewrite Z.mul_add_distr_r in A1. rewrite Z.mul_add_distr_l in A2. 
      clear - A1 A2 B1 B2 B3.
      generalize dependent (2 ^ 31 * o * b). generalize dependent (2 ^ 31 * (b * o)). generalize dependent (2 ^ 83 * b).
      generalize dependent (L * q * b). generalize dependent (L * (a * o)). generalize dependent (L * (2 ^ 52 * b)). 
      generalize dependent (2 ^ 53 * (Z.abs (r - L * q) * b)). generalize dependent (2 ^ 53 * (L * Z.abs (q * b - a * o))).
      generalize dependent (2 ^ 52 * b). intros. lia. }
  clear T A1 A2 B1 B2 B3 H1' H2'.
  change (2 ^ 53) with (2 ^ 20 * 2 ^ 33) in S.
  set (E := Z.abs (r * b - L * a * o)) in *. clearbody E.
  set (bo := b * o) in *. replace ((2 ^ 31 * o + 2 ^ 52) * b) with (2 ^ 31 * bo + 2 ^ 52 * b) in S by (unfold bo; ring). clearbody bo.
  change (2 ^ 83) with 9671406556917033397649408 in *. change (2 ^ 84) with 19342813113834066795298816 in *.
  change (2 ^ 52) with 4503599627370496 in *. change (2 ^ 31) with 2147483648 in *. change (2 ^ 20) with 1048576 in *.
  change (1048576 * 2 ^ 33) with 9007199254740992 in S. lia.
Qed.

Lemma one_84 : 2 ^ 84 <= f_one.
Proof. eapply Z.le_trans; [|apply one_huge]. discriminate. Qed.

Lemma bar_error L a b : 0 <= L < 2 ^ 31 -> 0 <= a <= b -> 0 < b ->
  2 ^ 20 * Z.abs (bar_value L a b * b - L * a * f_one) <= b * f_one.
Proof.
  intros HL Ha Hb. apply (bar_error_arith f_one L a b (quotient a b)); try assumption; [apply one_84| | |].
  - split; [apply quotient_nonneg; lia|]. pose proof (quotient_le a b 1 ltac:(lia) Hb ltac:(lia) ltac:(lia)). rewrite Z.mul_1_l in H. exact H.
  - apply rnd_error_sum; [apply pos_mul_one; exact Hb|apply mul_one_nonneg, mul_one_nonneg; lia].
  - apply rnd_error_sum; [apply f_one_pos|apply product_nonneg; [lia|apply quotient_nonneg; lia]].
Qed.

(** ** The runes *)

(** rune of cell k of a bar of length L when the program's product is r *)
Definition head_rune_of (L r : Z) : N :=
  if r / f_one =? L - 1 then r_full
  else if r mod f_one <? f_scaled float_03 then r_empty
  else if r mod f_one <? f_scaled float_07 then r_half
  else r_full.
Definition bar_rune (L r k : Z) : N :=
  if k <? r / f_one then r_full else if r / f_one =? k then head_rune_of L r else r_empty.

Lemma progress_finite a b : 0 <= a < 2 ^ 53 -> 0 < b < 2 ^ 53 ->
  finite (progress_float (a, b)) /\ f_sign (progress_float (a, b)) = false /\ f_mag (progress_float (a, b)) = quotient a b.
Proof.
  intros Ha Hb. unfold progress_float, fdiv. cbn [fst snd].
  destruct (f_of_int_small a Ha) as (_ & Sa & Ma). destruct (f_of_int_small b ltac:(lia)) as (_ & Sb & Mb).
  rewrite Sa, Sb, Ma, Mb. cbn [xorb]. fold (quotient a b).
  assert (R : representable (quotient a b)) by (apply rnd_representable; [apply pos_mul_one; lia|apply mul_one_nonneg, mul_one_nonneg; lia]).
  destruct (f_pack_spec false (quotient a b) R) as (_ & S & N & M & I).
  assert (B : quotient a b < f_max).
  { eapply Z.le_lt_trans; [apply (quotient_le a b a); [lia|lia|lia|]|].
    - nia.
    - apply below_large. change (2 ^ 126) with (2 ^ 53 * 2 ^ 73). lia. }
  split; [split; [exact N|rewrite I; apply Z.leb_gt; exact B]|]. split; [exact S|]. rewrite M. apply Z.min_l, Z.lt_le_incl, B.
Qed.

Lemma rep_62 : representable (2 ^ 62 * f_one).
Proof.
  exists 1, (62 + 1074). split; [|split; [split; [discriminate|reflexivity]|discriminate]].
  rewrite Z.pow_add_r by discriminate. rewrite Z.mul_1_l. reflexivity.
Qed.
Lemma bar_bound L a b : 0 <= L < 2 ^ 31 -> 0 <= a -> 0 < b -> a <= 2 ^ 31 * b -> bar_value L a b <= 2 ^ 62 * f_one.
Proof.
  intros HL Ha Hb Hab. apply (bar_le L a b (2 ^ 31) (2 ^ 62)); try assumption; try apply rep_62; try apply HL; try (split; [discriminate|reflexivity]).
  clear - HL. change (2 ^ 62) with (2 ^ 31 * 2 ^ 31). apply Z.mul_le_mono_nonneg_r; lia.
Qed.

Lemma head_value L a b : 0 <= L < 2 ^ 31 -> 0 <= a < 2 ^ 53 -> 0 < b < 2 ^ 53 -> a <= 2 ^ 31 * b ->
  progress_head L (progress_float (a, b)) = (bar_value L a b / f_one, head_rune_of L (bar_value L a b)).
Proof.
  intros HL Ha Hb Hab. unfold progress_head.
  destruct (f_of_int_small L ltac:(lia)) as ([NL IL] & SL & ML).
  destruct (progress_finite a b Ha Hb) as ([Nq Iq] & Sq & Mq).
  assert (Hp : 0 <= L * f_one * quotient a b) by (apply product_nonneg; [lia|apply quotient_nonneg; lia]).
  unfold fmul. rewrite NL, Nq, IL, Iq, SL, Sq, ML, Mq. cbn [orb xorb]. fold (bar_value L a b).
  pose proof (rnd_representable _ f_one f_one_pos Hp) as R. fold (bar_value L a b) in R.
  destruct (f_pack_spec false (bar_value L a b) R) as (_ & S & N & M & I).
  pose proof (bar_bound L a b HL (proj1 Ha) (proj1 Hb) Hab) as B.
  assert (B2 : bar_value L a b < f_max) by (eapply Z.le_lt_trans; [exact B|apply below_large; discriminate]).
  pose proof (bar_nonneg L a b (proj1 HL) (proj1 Ha) (proj1 Hb)) as B0. pose proof f_one_pos as Po.
  set (x := f_pack false (bar_value L a b)) in *.
  assert (V : f_scaled x = bar_value L a b).
  { unfold f_scaled. rewrite S, M. apply Z.min_l, Z.lt_le_incl, B2. }
  assert (If : is_inf x = false) by (rewrite I; apply Z.leb_gt; exact B2).
  set (r := bar_value L a b) in *. clearbody r x.
  assert (D : 0 <= r / f_one <= 2 ^ 62).
  { split; [apply Z.div_pos; assumption|]. apply Z.div_le_upper_bound; [exact Po|]. rewrite Z.mul_comm. exact B. }
  assert (F : floor_int x = r / f_one).
  { unfold floor_int. cbn zeta. rewrite V, N, If. cbn [orb]. set (z := r / f_one) in *. clearbody z.
    replace ((- 2 ^ 63 <=? z) && (z <? 2 ^ 63)) with true by lia. reflexivity. }
  assert (G : forall c, frac_lt x c = (r mod f_one <? f_scaled c)).
  { intros c. unfold frac_lt, frac. rewrite N, If. cbn [orb]. rewrite V, Z.rem_mod_nonneg by assumption. reflexivity. }
  rewrite F, !G. reflexivity.
Qed.

Definition level (r : N) : Z := if N.eqb r r_full then 2 else if N.eqb r r_half then 1 else 0.
Lemma fill_rune r : r = r_full \/ r = r_half \/ r = r_empty -> fill (Some r) = Some (level r).
Proof. intros [->|[->| ->]]; reflexivity. Qed.
Lemma head_rune_cases L r : head_rune_of L r = r_full \/ head_rune_of L r = r_half \/ head_rune_of L r = r_empty.
Proof. unfold head_rune_of. destruct (_ =? _); [auto|]. destruct (_ <? _); [auto|]. destruct (_ <? _); auto. Qed.
Lemma bar_rune_cases L r k : bar_rune L r k = r_full \/ bar_rune L r k = r_half \/ bar_rune L r k = r_empty.
Proof. unfold bar_rune. destruct (_ <? _); [auto|]. destruct (_ =? _); [apply head_rune_cases|auto]. Qed.

Lemma thresholds : f_scaled float_03 <= f_scaled float_07.
Proof. vm_compute. discriminate. Qed.

Lemma bar_rune_mono L r r' k : 0 <= r <= r' -> k < L -> level (bar_rune L r k) <= level (bar_rune L r' k).
Proof.
  intros Hr Hk. pose proof f_one_pos as Po. pose proof thresholds as Th.
  assert (Hd : r / f_one <= r' / f_one) by (apply Z.div_le_mono; lia).
  pose proof (Z.div_mod r f_one ltac:(lia)) as E1. pose proof (Z.div_mod r' f_one ltac:(lia)) as E2.
  unfold bar_rune. destruct (Z.ltb_spec k (r / f_one)) as [A|A].
  - replace (k <? r' / f_one) with true by lia. cbn. lia.
  - destruct (Z.eqb_spec (r / f_one) k) as [B|B].
    + destruct (Z.ltb_spec k (r' / f_one)) as [C|C].
      { destruct (head_rune_cases L r) as [->|[->| ->]]; cbn; lia. }
      assert (D : r' / f_one = k) by lia. rewrite D, Z.eqb_refl. unfold head_rune_of. rewrite B, D.
      destruct (k =? L - 1); [cbn; lia|].
      assert (M : r mod f_one <= r' mod f_one).
      { rewrite B in E1. rewrite D in E2. lia. }
      set (m := r mod f_one) in *. set (m' := r' mod f_one) in *. set (t3 := f_scaled float_03) in *. set (t7 := f_scaled float_07) in *.
      clearbody m m' t3 t7. clear - M Th.
      destruct (Z.ltb_spec m t3); [destruct (m' <? t3), (m' <? t7); cbn; lia|].
      replace (m' <? t3) with false by lia. destruct (Z.ltb_spec m t7); [destruct (m' <? t7); cbn; lia|].
      replace (m' <? t7) with false by lia. cbn. lia.
    + change (level r_empty) with 0. destruct (bar_rune_cases L r' k) as [X|[X|X]]; unfold bar_rune in X; rewrite X; cbn; lia.
Qed.
