(** Proofs for C108: durations on the command line. *)
From Verif Require Import GoBase GoBaseFacts GoFmt PlaylistModel PcmModel PcmProofs GoFloat GoFloatFacts NumberSpec NumberProofs FloatTextSpec FloatTextModel FloatTextProofs CliModel CliSpec CliNumProofs.
From Coq Require Import ZifyBool ZifyNat ZifyN.
Local Open Scope Z_scope.

Notation dfold := (fold_left (fun v c => 10 * v + (Z.of_N c - 48))).

Lemma dec_val_digit c : decimal_digit c -> dec_val c = Some (Z.of_N c - 48).
Proof. intros H. apply dec_val_spec. split; [exact H|reflexivity]. Qed.
Lemma dec_val_some c d : dec_val c = Some d -> decimal_digit c /\ d = Z.of_N c - 48.
Proof. intros H. apply dec_val_spec in H. exact H. Qed.

Definition no_digit (r : text) : Prop := match r with [] => True | c :: _ => dec_val c = None end.
Lemma split_digits s : exists a r, s = a ++ r /\ Forall decimal_digit a /\ no_digit r.
Proof.
  induction s as [|c s (a & r & -> & F & N)]; [exists [], []; repeat split; constructor|].
  destruct (dec_val c) as [d|] eqn:E.
  - exists (c :: a), r. repeat split; auto. constructor; [|exact F]. now apply (dec_val_some c d).
  - exists [], (c :: a ++ r). repeat split; auto.
Qed.

Lemma dfold_ge a : Forall decimal_digit a -> forall x, 0 <= x -> x <= dfold a x.
Proof.
  induction 1 as [|c a Hc _ IH]; intros x Hx; [reflexivity|]. cbn [fold_left]. unfold decimal_digit in Hc.
  specialize (IH (10 * x + (Z.of_N c - 48)) ltac:(lia)). lia.
Qed.
Lemma dfold_app a b x : dfold (a ++ b) x = dfold b (dfold a x).
Proof. apply fold_left_app. Qed.
Lemma dfold_shift a : forall x, dfold a x = x * 10 ^ zlen a + dfold a 0.
Proof.
  induction a as [|c a IH]; intros x; [unfold zlen; cbn; lia|]. cbn [fold_left]. rewrite IH. rewrite (IH (10 * 0 + _)).
  replace (zlen (c :: a)) with (zlen a + 1) by (unfold zlen; cbn [length]; lia).
  assert (0 <= zlen a) by (unfold zlen; lia). rewrite Z.pow_add_r by lia. lia.
Qed.
Lemma value_app a b : value_of (a ++ b) = value_of a * 10 ^ zlen b + value_of b.
Proof. unfold value_of at 1. rewrite dfold_app, dfold_shift. reflexivity. Qed.
Lemma value_bound a : Forall decimal_digit a -> 0 <= value_of a < 10 ^ zlen a.
Proof.
  induction a as [|c a IH] using rev_ind; intros F; [unfold zlen, value_of; cbn; lia|].
  apply Forall_app in F as [F1 F2]. inversion F2 as [|? ? Hc _]; subst. rewrite value_app.
  replace (zlen (a ++ [c])) with (zlen a + 1) by (unfold zlen; rewrite app_length; cbn [length]; lia).
  assert (0 <= zlen a) by (unfold zlen; lia). rewrite Z.pow_add_r by lia.
  specialize (IH F1). unfold decimal_digit in Hc. change (zlen [c]) with 1. change (10 ^ 1) with 10.
  assert (value_of [c] = Z.of_N c - 48) as -> by (unfold value_of; cbn [fold_left]; lia). lia.
Qed.

(* ------------------------------------------------------------------ *)
(** ** The whole part *)

Lemma leading_int_spec a r : Forall decimal_digit a -> no_digit r -> forall x, 0 <= x < 2 ^ 63 ->
  leading_int (a ++ r) x = if dfold a x <? 2 ^ 63 then Some (dfold a x, r) else None.
Proof.
  intros F N. induction F as [|c a Hc F IH]; intros x Hx.
  - cbn [app fold_left]. destruct (Z.ltb_spec x (2 ^ 63)); [|lia]. destruct r as [|c r]; [reflexivity|]. cbn [leading_int]. cbn in N. now rewrite N.
  - cbn [app leading_int fold_left]. rewrite (dec_val_digit c Hc). unfold decimal_digit in Hc.
    replace (x * 10 + (Z.of_N c - 48)) with (10 * x + (Z.of_N c - 48)) by lia. set (y := 10 * x + (Z.of_N c - 48)) in *.
    assert (Hy : 0 <= y) by lia. pose proof (dfold_ge a F y Hy) as G.
    change (max_int64 / 10) with 922337203685477580. destruct (Z.ltb_spec 922337203685477580 x) as [L|L].
    + destruct (Z.ltb_spec (dfold a y) (2 ^ 63)); [lia|reflexivity].
    + destruct (Z.lt_ge_cases y (2 ^ 63)) as [L2|L2].
      * rewrite wrap64_id by (unfold in_int64; lia). destruct (Z.ltb_spec y 0); [lia|]. apply IH. lia.
      * assert (W : wrap64 y = y - 2 ^ 64).
        { unfold wrap64. replace (y + 2 ^ 63) with (y - 2 ^ 63 + 1 * 2 ^ 64) by lia. rewrite Z.mod_add by lia. rewrite Z.mod_small by lia. lia. }
        rewrite W. destruct (Z.ltb_spec (y - 2 ^ 64) 0); [|lia]. destruct (Z.ltb_spec (dfold a y) (2 ^ 63)); [lia|reflexivity].
Qed.

(* ------------------------------------------------------------------ *)
(** ** The fraction *)

Fixpoint scale (j : nat) : f64 := match j with O => float_1 | S j => fmul (scale j) float_ten end.

Lemma leading_fraction_overflow b r x s : Forall decimal_digit b -> no_digit r -> leading_fraction (b ++ r) x s true = (x, s, r).
Proof.
  intros F N. induction F as [|c b Hc F IH]; cbn [app].
  - destruct r as [|c r]; [reflexivity|]. cbn [leading_fraction]. cbn in N. now rewrite N.
  - cbn [leading_fraction]. now rewrite (dec_val_digit c Hc).
Qed.
Lemma leading_fraction_spec b r : Forall decimal_digit b -> no_digit r -> forall p, Forall decimal_digit p -> value_of p < 2 ^ 63 ->
  exists b1 b2, b = b1 ++ b2 /\ (b2 = [] \/ 18 <= zlen (p ++ b1)) /\ value_of (p ++ b1) < 2 ^ 63 /\
    leading_fraction (b ++ r) (value_of p) (scale (length p)) false = (value_of (p ++ b1), scale (length (p ++ b1)), r).
Proof.
  intros F N. induction F as [|c b Hc F IH]; intros p Fp Hp.
  - exists [], []. rewrite !app_nil_r. repeat split; auto. cbn [app]. destruct r as [|c r]; [reflexivity|]. cbn [leading_fraction]. cbn in N. now rewrite N.
  - pose proof (value_bound p Fp) as Bp. cbn [app leading_fraction]. rewrite (dec_val_digit c Hc). unfold decimal_digit in Hc.
    assert (V : value_of (p ++ [c]) = value_of p * 10 + (Z.of_N c - 48)).
    { rewrite value_app. change (10 ^ zlen [c]) with 10. unfold value_of at 2. cbn [fold_left]. lia. }
    rewrite <- V. change (max_int64 / 10) with 922337203685477580.
    assert (Stop : 922337203685477580 <= value_of p -> exists b1 b2, c :: b = b1 ++ b2 /\ (b2 = [] \/ 18 <= zlen (p ++ b1)) /\ value_of (p ++ b1) < 2 ^ 63 /\
      leading_fraction (b ++ r) (value_of p) (scale (length p)) true = (value_of (p ++ b1), scale (length (p ++ b1)), r)).
    { intros G. exists [], (c :: b). rewrite !app_nil_r. repeat split; auto.
      - right. destruct (Z.lt_ge_cases (zlen p) 18) as [L|L]; [|exact L].
        assert (10 ^ zlen p <= 10 ^ 17) by (apply Z.pow_le_mono_r; lia). lia.
      - now apply leading_fraction_overflow. }
    destruct (Z.ltb_spec 922337203685477580 (value_of p)) as [L|L]; [apply Stop; lia|].
    destruct (Z.lt_ge_cases (value_of (p ++ [c])) (2 ^ 63)) as [L2|L2].
    + rewrite wrap64_id by (unfold in_int64; lia). destruct (Z.ltb_spec (value_of (p ++ [c])) 0); [lia|].
      destruct (IH (p ++ [c])) as (b1 & b2 & -> & C & U & E).
      * apply Forall_app. split; [exact Fp|]. constructor; [exact Hc|constructor].
      * exact L2.
      * exists (c :: b1), b2. rewrite <- !app_assoc in *. cbn [app] in *. repeat split; auto.
        rewrite <- E. f_equal. rewrite app_length, Nat.add_comm. reflexivity.
    + assert (W : wrap64 (value_of (p ++ [c])) = value_of (p ++ [c]) - 2 ^ 64).
      { unfold wrap64. replace (value_of (p ++ [c]) + 2 ^ 63) with (value_of (p ++ [c]) - 2 ^ 63 + 1 * 2 ^ 64) by lia. rewrite Z.mod_add by lia.
        rewrite Z.mod_small by lia. lia. }
      rewrite W. destruct (Z.ltb_spec (value_of (p ++ [c]) - 2 ^ 64) 0); [|lia]. apply Stop. lia.
Qed.

(* ------------------------------------------------------------------ *)
(** ** The arithmetic of the fraction *)

Definition finite_pos (x : f64) : Prop := is_nan x = false /\ f_sign x = false.
Lemma pack_false v : representable v -> finite_pos (f_pack false v) /\ f_mag (f_pack false v) = Z.min v f_max /\ is_inf (f_pack false v) = (f_max <=? v).
Proof. intros H. destruct (f_pack_spec false v H) as (_ & A & B & C & D). unfold finite_pos. auto. Qed.

Lemma float_ten_mag : f_mag float_ten = 10 * f_one. Proof. vm_compute. reflexivity. Qed.
Lemma float_1_mag : f_mag float_1 = f_one. Proof. vm_compute. reflexivity. Qed.

Definition scale_near (s : f64) (j : Z) : bool :=
  (2 ^ 50 * Z.abs (f_mag s - 10 ^ j * f_one) <=? 10 ^ j * f_one) && negb (is_nan s) && negb (is_inf s) && negb (f_sign s)
  && (if j <=? 22 then f_mag s =? 10 ^ j * f_one else true).
Fixpoint scales_near (n : nat) (s : f64) (j : Z) : bool :=
  match n with O => true | S n => scale_near s j && scales_near n (fmul s float_ten) (j + 1) end.
Lemma scales_checked : scales_near 41 float_1 0 = true.
Proof. vm_compute. reflexivity. Qed.
Lemma scales_near_nth n : forall s j i, scales_near n s j = true -> (i < n)%nat ->
  scale_near (Nat.iter i (fun s => fmul s float_ten) s) (j + Z.of_nat i) = true.
Proof.
  induction n as [|n IH]; intros s j i H Hi; [lia|]. cbn [scales_near] in H. apply andb_true_iff in H as [H1 H2].
  destruct i as [|i]; [rewrite Z.add_0_r; exact H1|].
  specialize (IH _ _ i H2 ltac:(lia)). replace (j + Z.of_nat (S i)) with (j + 1 + Z.of_nat i) by lia.
  replace (Nat.iter (S i) (fun s => fmul s float_ten) s) with (Nat.iter i (fun s => fmul s float_ten) (fmul s float_ten)); [exact IH|].
  clear. induction i as [|i IH]; [reflexivity|]. cbn [Nat.iter nat_rect] in *. now f_equal.
Qed.
Lemma scale_iter j : scale j = Nat.iter j (fun s => fmul s float_ten) float_1.
Proof. induction j as [|j IH]; [reflexivity|]. cbn [scale Nat.iter nat_rect]. now rewrite IH. Qed.
Lemma scale_small j : (j <= 40)%nat -> scale_near (scale j) (Z.of_nat j) = true.
Proof. intros H. rewrite scale_iter. apply (scales_near_nth 41 float_1 0 j scales_checked). lia. Qed.

Global Opaque f_one.
Lemma f_one_pos : 0 < f_one.
Proof. Transparent f_one. unfold f_one. Opaque f_one. apply Z.pow_pos_nonneg; lia. Qed.
Lemma f_max_one : f_max = 2 ^ 1024 * f_one.
Proof. Transparent f_one. unfold f_max, f_one. Opaque f_one. rewrite <- Z.pow_add_r by lia. reflexivity. Qed.
Lemma f_one_big : 2 ^ 300 <= f_one.
Proof. Transparent f_one. unfold f_one. Opaque f_one. apply Z.pow_le_mono_r; lia. Qed.
Lemma max_large x : x <= 2 ^ 100 * f_one -> x < f_max.
Proof.
  intros H. rewrite f_max_one. pose proof f_one_pos. assert (2 ^ 100 < 2 ^ 1024) by (apply Z.pow_lt_mono_r; lia).
  apply (Z.le_lt_trans _ _ _ H). apply Z.mul_lt_mono_pos_r; assumption.
Qed.

(** beyond 40 digits the scale does not shrink *)
Lemma scale_step s : is_nan s = false -> f_sign s = false -> 0 < f_mag s -> let s' := fmul s float_ten in
  is_nan s' = false /\ f_sign s' = false /\ f_mag s <= f_mag s'.
Proof.
  intros A B C. cbn zeta. unfold fmul. rewrite A. assert (T : is_nan float_ten = false /\ is_inf float_ten = false /\ f_sign float_ten = false) by (vm_compute; auto).
  destruct T as (T1 & T2 & T3). rewrite T1, T2, T3, B. cbn [orb xorb].
  pose proof f_one_pos as P.
  destruct (is_inf s) eqn:I; cbn [orb].
  - destruct (Z.eqb_spec (f_mag s) 0) as [E|_]; [rewrite E in C; discriminate C|]. destruct (Z.eqb_spec (f_mag float_ten) 0) as [E|_]; [rewrite float_ten_mag in E; lia|]. cbn [orb].
    assert (R : representable f_max).
    { exists 1, 2098. unfold f_max. split; [rewrite Z.mul_1_l; reflexivity|split; [split|]; discriminate || reflexivity]. }
    destruct (pack_false f_max R) as ([X1 X2] & X3 & _). rewrite X3, Z.min_id. split; [exact X1|split; [exact X2|]].
    unfold is_inf in I. apply andb_true_iff in I as [I1 I2]. apply Z.eqb_eq in I1, I2. unfold f_mag. rewrite I1, I2.
    change (2047 =? 0) with false. cbn match. unfold f_max. rewrite Z.add_0_r, <- Z.pow_add_r by discriminate. apply Z.eq_le_incl. reflexivity.
  - rewrite float_ten_mag. replace (f_mag s * (10 * f_one)) with (f_mag s * 10 * f_one) by ring.
    assert (R : representable (rnd (f_mag s * 10 * f_one) f_one)) by (apply rnd_representable; nia).
    destruct (pack_false _ R) as ([X1 X2] & X3 & _). rewrite X3. split; [exact X1|split; [exact X2|]].
    apply Z.min_glb; [|apply Z.lt_le_incl, f_mag_lt_max; assumption].
    apply (rnd_ge (f_mag s * 10 * f_one) f_one (f_mag s) P); [nia|apply f_mag_representable|nia].
Qed.
Lemma near_large s : scale_near s 40 = true -> is_nan s = false /\ f_sign s = false /\ 10 ^ 39 * f_one <= f_mag s.
Proof.
  pose proof f_one_pos as P. intros H. unfold scale_near in H. apply andb_true_iff in H as [H _].
  apply andb_true_iff in H as [H S]. apply andb_true_iff in H as [H _]. apply andb_true_iff in H as [H N].
  apply Z.leb_le in H.
  split; [now destruct (is_nan s)|]. split; [now destruct (f_sign s)|].
  assert (E : 10 ^ 40 = 10 * 10 ^ 39) by reflexivity. rewrite E in H. clear E.
  assert (0 < 10 ^ 39) by (apply Z.pow_pos_nonneg; lia). assert (100 <= 2 ^ 50) by lia.
  revert H H0 H1 P. generalize (f_mag s) f_one (10 ^ 39) (2 ^ 50). intros M O K W H HK HW P.
  assert (Z.abs (M - 10 * K * O) * 100 <= 10 * K * O) by nia. nia.
Qed.
Lemma scale_S j : scale (S j) = fmul (scale j) float_ten.
Proof. reflexivity. Qed.
Lemma scale_large i : is_nan (scale (i + 40)) = false /\ f_sign (scale (i + 40)) = false /\ 10 ^ 39 * f_one <= f_mag (scale (i + 40)).
Proof.
  pose proof f_one_pos as P.
  induction i as [|i IH].
  - apply near_large. exact (scale_small 40 (le_n 40)).
  - rewrite Nat.add_succ_l, scale_S. generalize dependent (scale (i + 40)). intros s (A & B & C). assert (D : 0 < f_mag s).
    { apply (Z.lt_le_trans _ (10 ^ 39 * f_one)); [apply Z.mul_pos_pos; [apply Z.pow_pos_nonneg; lia|exact P]|exact C]. }
    destruct (scale_step _ A B D) as (A' & B' & C').
    split; [exact A'|split; [exact B'|]]. now apply (Z.le_trans _ _ _ C).
Qed.
