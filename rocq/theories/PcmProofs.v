(** Proofs about the PCM conversion. *)
From Verif Require Import GoBase GoBaseFacts PlaylistModel PcmModel.
From Coq Require Import ZifyBool ZifyNat ZifyN.
Local Open Scope Z_scope.

(** How a sound card reads two little-endian bytes. *)
Definition pcm16 (b : Z * Z) : Z := to_int16 (fst b + 256 * snd b).

Lemma to_int16_range z : - 2 ^ 15 <= to_int16 z < 2 ^ 15.
Proof. unfold to_int16. pose proof (Z.mod_pos_bound (z + 2 ^ 15) (2 ^ 16) ltac:(lia)). lia. Qed.
Lemma to_int16_id z : - 2 ^ 15 <= z < 2 ^ 15 -> to_int16 z = z.
Proof. intros H. unfold to_int16. rewrite Z.mod_small by lia. lia. Qed.
Lemma pcm_roundtrip v : - 2 ^ 15 <= v < 2 ^ 15 -> pcm16 (v mod 256, (v / 256) mod 256) = v.
Proof.
  intros H. unfold pcm16. cbn [fst snd].
  pose proof (Z.div_mod v 256 ltac:(lia)) as E1. pose proof (Z.div_mod (v / 256) 256 ltac:(lia)) as E2.
  pose proof (Z.mod_pos_bound v 256 ltac:(lia)). pose proof (Z.mod_pos_bound (v / 256) 256 ltac:(lia)).
  unfold to_int16. 
  assert (E : v mod 256 + 256 * ((v / 256) mod 256) + 2 ^ 15 = (v + 2 ^ 15) + (- ((v / 256) / 256)) * 2 ^ 16) by lia.
  rewrite E, Z.mod_add by lia. rewrite Z.mod_small by lia. lia.
Qed.

Lemma f_one_pos : 0 < f_one. Proof. unfold f_one. apply Z.pow_pos_nonneg; lia. Qed.

Definition clamped (x : N) : Z := Z.max (- f_one) (Z.min f_one (f_scaled x)).
Lemma clamp_eq x : (let v := f_scaled x in let v := if v <? - f_one then - f_one else v in if f_one <? v then f_one else v) = clamped x.
Proof.
  cbn zeta. pose proof f_one_pos. unfold clamped.
  destruct (Z.ltb_spec (f_scaled x) (- f_one)); [destruct (Z.ltb_spec f_one (- f_one)); lia|].
  destruct (Z.ltb_spec f_one (f_scaled x)); lia.
Qed.

Lemma conv_eq x : is_nan x = false -> pcm16 (convert_sample x) = to_int16 (Z.quot (clamped x * 2 ^ 15) f_one).
Proof.
  intros Hn. unfold convert_sample. rewrite Hn. cbn zeta. pose proof (clamp_eq x) as E. cbn zeta in E. rewrite E.
  apply pcm_roundtrip. apply to_int16_range.
Qed.

Lemma quot_bounds a b : 0 < b -> Z.abs (Z.quot a b) * b <= Z.abs a < (Z.abs (Z.quot a b) + 1) * b /\ 0 <= Z.quot a b * a.
Proof.
  intros Hb. destruct (Z.le_gt_cases 0 a).
  - rewrite Z.quot_div_nonneg by lia. pose proof (Z.div_mod a b ltac:(lia)). pose proof (Z.mod_pos_bound a b Hb).
    pose proof (Z.div_pos a b ltac:(lia) Hb). rewrite (Z.abs_eq (a / b)), (Z.abs_eq a) by lia. nia.
  - replace a with (- (- a)) by lia. rewrite Z.quot_opp_l by lia. rewrite Z.quot_div_nonneg by lia.
    pose proof (Z.div_mod (- a) b ltac:(lia)). pose proof (Z.mod_pos_bound (- a) b Hb).
    pose proof (Z.div_pos (- a) b ltac:(lia) Hb). rewrite Z.abs_opp, (Z.abs_eq (- a / b)) by lia. rewrite Z.abs_opp, Z.abs_eq by lia. nia.
Qed.

Lemma clamped_lt x : f_scaled x < f_one -> - f_one <= clamped x < f_one.
Proof. unfold clamped. pose proof f_one_pos. lia. Qed.

Lemma quot_range x : f_scaled x < f_one -> - 2 ^ 15 <= Z.quot (clamped x * 2 ^ 15) f_one < 2 ^ 15.
Proof.
  intros H. apply clamped_lt in H. pose proof f_one_pos as Hp.
  destruct (quot_bounds (clamped x * 2 ^ 15) f_one Hp) as [[H1 H2] H3].
  set (q := Z.quot (clamped x * 2 ^ 15) f_one) in *. split.
  - destruct (Z.le_gt_cases (- 2 ^ 15) q) as [|E]; [assumption|exfalso].
    assert (Z.abs q >= 2 ^ 15 + 1) by lia. assert (Z.abs (clamped x * 2 ^ 15) <= f_one * 2 ^ 15) by lia. nia.
  - destruct (Z.lt_ge_cases q (2 ^ 15)) as [|E]; [assumption|exfalso].
    assert (0 <= clamped x * 2 ^ 15) by nia. rewrite !Z.abs_eq in H1 by lia. nia.
Qed.

Lemma quot_mono a b c : 0 < c -> a <= b -> Z.quot a c <= Z.quot b c.
Proof. intros. apply Z.quot_le_mono; lia. Qed.

(* the buffer *)
Definition sample_bytes (mul : N -> N -> N) (volume : N) (s : N * N) : list Z :=
  let '(l0, h0) := convert_sample (mul (fst s) volume) in
  let '(l1, h1) := convert_sample (mul (snd s) volume) in [l0; h0; l1; h1].

Lemma slice_set_app {A} (pre : list A) x post v :
  slice_set (pre ++ x :: post) (zlen pre) v = Ok (pre ++ v :: post).
Proof.
  unfold slice_set. pose proof (zlen_nonneg pre). pose proof (zlen_nonneg post). rewrite zlen_app, zlen_cons.
  destruct (Z.ltb_spec (zlen pre) 0); [lia|]. destruct (Z.leb_spec (zlen pre + (zlen post + 1)) (zlen pre)); [lia|]. cbn [orb].
  unfold zlen. rewrite Nat2Z.id.
  rewrite firstn_app, Nat.sub_diag, firstn_all, firstn_O, app_nil_r.
  f_equal. f_equal. f_equal.
  replace (S (length pre)) with (length pre + 1)%nat by lia.
  rewrite skipn_app, skipn_all2 by lia. replace (length pre + 1 - length pre)%nat with 1%nat by lia. reflexivity.
Qed.

Lemma buf_ok mul vol samples : forall pre rest, zlen rest = 4 * zlen samples -> forall i, zlen pre = i * 4 ->
  samples_to_buf mul vol i samples (pre ++ rest) = Ok (pre ++ concat (map (sample_bytes mul vol) samples)).
Proof.
  induction samples as [|[s0 s1] samples IH]; intros pre rest Hr i Hi; cbn [samples_to_buf].
  - destruct rest; [reflexivity|]. unfold zlen in Hr. cbn [length] in Hr. lia.
  - rewrite zlen_cons in Hr. pose proof (zlen_nonneg samples) as Hn.
    destruct rest as [|r0 [|r1 [|r2 [|r3 rest]]]]; unfold zlen in Hr; cbn [length] in Hr; try lia; fold (zlen rest) in Hr; fold (zlen samples) in Hr.
    cbn [map concat]. unfold sample_bytes at 1. cbn [fst snd].
    destruct (convert_sample (mul s0 vol)) as [l0 h0]. destruct (convert_sample (mul s1 vol)) as [l1 h1].
    assert (Hset : forall (a : list Z) x b v j, zlen a = j -> slice_set (a ++ x :: b) j v = Ok (a ++ v :: b)).
    { intros a x b v j <-. apply slice_set_app. }
    rewrite (Hset pre) by lia. cbn [obind].
    replace (pre ++ l0 :: r1 :: r2 :: r3 :: rest) with ((pre ++ [l0]) ++ r1 :: r2 :: r3 :: rest) by (rewrite <- app_assoc; reflexivity).
    rewrite Hset by (rewrite zlen_app, !zlen_cons, zlen_nil; lia). cbn [obind].
    replace ((pre ++ [l0]) ++ h0 :: r2 :: r3 :: rest) with ((pre ++ [l0; h0]) ++ r2 :: r3 :: rest) by (rewrite <- !app_assoc; reflexivity).
    rewrite Hset by (rewrite zlen_app, !zlen_cons, zlen_nil; lia). cbn [obind].
    replace ((pre ++ [l0; h0]) ++ l1 :: r3 :: rest) with ((pre ++ [l0; h0; l1]) ++ r3 :: rest) by (rewrite <- !app_assoc; reflexivity).
    rewrite Hset by (rewrite zlen_app, !zlen_cons, zlen_nil; lia). cbn [obind].
    replace ((pre ++ [l0; h0; l1]) ++ h1 :: rest) with ((pre ++ [l0; h0; l1; h1]) ++ rest) by (rewrite <- !app_assoc; reflexivity).
    rewrite IH; [|unfold zlen in *; lia|rewrite zlen_app, !zlen_cons, zlen_nil; lia].
    rewrite <- app_assoc. reflexivity.
Qed.
