(** Property C82: the volume that is set is the volume that is shown. *)
From Verif Require Import GoBase GoBaseFacts GoFmt PlaylistModel PcmModel PcmProofs GoFloat GoFloatFacts
  CommandsModel PcmVolumeProps VolumeModel.
From Coq Require Import ZifyBool ZifyNat ZifyN.
Local Open Scope Z_scope.

(* ------------------------------------------------------------------ *)
(** ** What is shown *)

(** the number m / 10^p with exactly p decimals *)
Definition with_decimals (p : nat) (m : Z) : text :=
  itoa (m / 10 ^ Z.of_nat p) ++ T "." ++ itoa0 p (m mod 10 ^ Z.of_nat p).
(** with zeros in front, up to a width *)
Definition pad0 (w : nat) (t : text) : text := repeat 48%N (w - length t) ++ t.

(** ** What is typed *)

Fixpoint number (digits : text) : Z :=
  match digits with [] => 0 | c :: r => (Z.of_N c - 48) * 10 ^ zlen r + number r end.
(** [t] is an optional sign, digits, and optionally a point and more digits (at least one digit
    in all): the number n / 10^k, negative if [neg]. *)
Definition typed (t : text) (neg : bool) (n k : Z) : Prop :=
  exists sign a b, (if neg then sign = T "-" else sign = [] \/ sign = T "+") /\
    Forall (fun c => 48 <= c <= 57)%N (a ++ b) /\ a ++ b <> [] /\
    (t = sign ++ a /\ b = [] \/ t = sign ++ a ++ T "." ++ b) /\ n = number (a ++ b) /\ k = zlen b.
Definition minus (neg : bool) : text := if neg then T "-" else [].

Lemma pow10_pos k : 0 <= k -> 0 < 10 ^ k. Proof. intros. apply Z.pow_pos_nonneg; lia. Qed.

(** the typed number is n / 10^k; its float is [v]; [c * typed] is the integer [m] *)
Lemma shown_exact one n k v c m : 2 ^ 100 <= one -> 0 <= k -> 0 <= n -> 0 < c <= 10000 ->
  2 ^ 53 * Z.abs (v * 10 ^ k - n * one) <= n * one + 2 ^ 52 * 10 ^ k ->
  n * c = m * 10 ^ k -> 0 <= m < 10 ^ 15 ->
  2 ^ 53 * Z.abs (v * c - m * one) <= m * one + 2 ^ 52 * c.
Proof.
  intros Ho Hk Hn Hc He Em Hm. pose proof (pow10_pos k Hk) as P. set (d := 10 ^ k) in *. clearbody d.
  (* multiply by c and divide by d *)
  assert (E : d * Z.abs (v * c - m * one) = c * Z.abs (v * d - n * one)).
  { rewrite <- (Z.abs_eq d) at 1 by lia. rewrite <- (Z.abs_eq c) at 2 by lia. rewrite <- !Z.abs_mul. f_equal.
    replace (d * (v * c - m * one)) with (c * (v * d) - (m * d) * one) by ring. rewrite <- Em. ring. }
  assert (F : d * (2 ^ 53 * Z.abs (v * c - m * one)) <= d * (m * one + 2 ^ 52 * c)).
  { replace (d * (2 ^ 53 * Z.abs (v * c - m * one))) with (2 ^ 53 * (d * Z.abs (v * c - m * one))) by ring. rewrite E.
    replace (d * (m * one + 2 ^ 52 * c)) with ((m * d) * one + 2 ^ 52 * c * d) by ring. rewrite <- Em.
    replace (2 ^ 53 * (c * Z.abs (v * d - n * one))) with (c * (2 ^ 53 * Z.abs (v * d - n * one))) by ring.
    replace (n * c * one + 2 ^ 52 * c * d) with (c * (n * one + 2 ^ 52 * d)) by ring.
    apply Z.mul_le_mono_nonneg_l; [lia|exact He]. }
  apply Z.mul_le_mono_pos_l in F; [exact F|lia].
Qed.

Lemma one_huge : 2 ^ 100 <= f_one.
Proof. unfold f_one. apply Z.pow_le_mono_r; lia. Qed.

(** rounding to an integer, given the error bound *)
Lemma rounds_to one v m c : 2 ^ 100 <= one -> 0 < c <= 10000 -> 0 <= m < 10 ^ 15 ->
  2 ^ 53 * Z.abs (v * c - m * one) <= m * one + 2 ^ 52 * c -> rhe (v * c) one = m.
Proof.
  intros Ho Hc Hm H. apply rhe_near; [lia|].
  assert (m * one <= 10 ^ 15 * one) by (apply Z.mul_le_mono_nonneg_r; lia).
  change (10 ^ 15) with 1000000000000000 in *. change (2 ^ 53) with 9007199254740992 in *.
  change (2 ^ 52) with 4503599627370496 in *. change (2 ^ 100) with 1267650600228229401496703205376 in *. lia.
Qed.

(** small values are not infinite *)
Definition f_large : Z := 2 ^ 126 * f_one.
Lemma large_representable : representable f_large.
Proof. exists 1, 1200. split; [unfold f_large, f_one; rewrite <- Z.pow_add_r by discriminate; reflexivity|split; [split|]; discriminate || reflexivity]. Qed.
Lemma large_lt_max : f_large < f_max.
Proof. unfold f_large, f_one, f_max. rewrite <- Z.pow_add_r by discriminate. apply Z.pow_lt_mono_r; reflexivity || discriminate. Qed.

Lemma typed_arith o n d : 0 < o -> 0 < d -> 0 <= n <= 10 ^ 16 * d -> n * o <= 2 ^ 126 * o * d.
Proof.
  intros Ho Hd [H0 H]. apply Z.le_trans with (10 ^ 16 * d * o); [apply Z.mul_le_mono_nonneg_r; lia|].
  assert (0 <= d * o) by nia. change (10 ^ 16) with 10000000000000000. change (2 ^ 126) with 85070591730234615865843651857942052864.
  replace (85070591730234615865843651857942052864 * o * d) with (85070591730234615865843651857942052864 * (d * o)) by ring. 
  rewrite <- Z.mul_assoc. apply Z.mul_le_mono_nonneg_r; lia.
Qed.
Lemma typed_below n k v : 0 <= k -> 0 <= n -> n <= 10 ^ 16 * 10 ^ k -> v = rnd (n * f_one) (10 ^ k) -> v < f_max.
Proof.
  intros Hk Hn H ->. apply Z.le_lt_trans with f_large; [|apply large_lt_max].
  apply rnd_le; [apply pow10_pos; exact Hk| |apply large_representable|].
  - apply Z.mul_nonneg_nonneg; [exact Hn|apply Z.lt_le_incl, f_one_pos].
  - apply typed_arith; [apply f_one_pos|apply pow10_pos; exact Hk|split; assumption].
Qed.
Lemma product_below m : 0 <= m -> m <= 10 ^ 14 * f_one -> rnd (m * (100 * f_one)) f_one < f_max.
Proof.
  intros H0 H. apply Z.le_lt_trans with f_large; [|apply large_lt_max]. pose proof f_one_pos as Po.
  apply rnd_le; [exact Po| |apply large_representable|].
  - apply Z.mul_nonneg_nonneg; [exact H0|]. apply Z.mul_nonneg_nonneg; [discriminate|apply Z.lt_le_incl, Po].
  - unfold f_large. set (o := f_one) in *. clearbody o.
    replace (m * (100 * o)) with (m * 100 * o) by ring. apply Z.mul_le_mono_nonneg_r; [lia|].
    change (10 ^ 14) with 100000000000000 in H. change (2 ^ 126) with 85070591730234615865843651857942052864. lia.
Qed.
Lemma typed_le o n d : 0 < o -> 1 <= d -> 0 <= n -> n < 10 ^ 14 -> n * o <= 10 ^ 14 * o * d.
Proof.
  intros Ho Hd H0 H. assert (n * o <= 10 ^ 14 * o) by (apply Z.mul_le_mono_nonneg_r; lia).
  assert (10 ^ 14 * o * 1 <= 10 ^ 14 * o * d) by (apply Z.mul_le_mono_nonneg_l; lia). lia.
Qed.
Lemma mul_nonneg_one n : 0 <= n -> 0 <= n * f_one.
Proof. intros. apply Z.mul_nonneg_nonneg; [assumption|apply Z.lt_le_incl, f_one_pos]. Qed.
Lemma pow10_split a k : 0 <= k <= a -> 10 ^ (a - k) * 10 ^ k = 10 ^ a.
Proof. intros. rewrite <- Z.pow_add_r by lia. f_equal. lia. Qed.
(** the bounds used below, once *)
Lemma typed_bounds a b n k : 0 <= n -> 0 <= k <= a -> n * 10 ^ (a - k) < b ->
  1 <= 10 ^ k /\ n < b /\ 0 <= n * 10 ^ (a - k) < b /\ n * 10 ^ a = n * 10 ^ (a - k) * 10 ^ k.
Proof.
  intros Hn Hk Hb. pose proof (pow10_pos k ltac:(lia)). pose proof (pow10_pos (a - k) ltac:(lia)).
  split; [lia|]. split; [nia|]. split; [nia|]. rewrite <- Z.mul_assoc, pow10_split by lia. reflexivity.
Qed.
Lemma typed_size n d : 0 <= n -> 1 <= d -> n < 10 ^ 15 -> n <= 10 ^ 16 * d.
Proof. intros. change (10 ^ 16) with (10 * 10 ^ 15). nia. Qed.

Lemma zlen_nonneg' {A} (l : list A) : 0 <= zlen l. Proof. unfold zlen. lia. Qed.

Lemma digits_value_acc t : forall a, 0 <= a -> forallb is_digit t = true -> 0 <= fold_left (fun v c => v * 10 + (Z.of_N c - 48)) t a.
Proof.
  induction t as [|c t IH]; intros a Ha H; [exact Ha|]. cbn in H. apply andb_prop in H as [H1 H2].
  cbn. apply IH; [|exact H2]. unfold is_digit in H1. lia.
Qed.
Lemma plain_nonneg t n k : plain_decimal t = Some (n, k) -> 0 <= n /\ 0 <= k.
Proof.
  unfold plain_decimal. destruct (split_point t) as [a b]. destruct (forallb is_digit a) eqn:A; [|discriminate].
  destruct (forallb is_digit b) eqn:B; [|discriminate]. destruct (negb _); [|discriminate]. intros [= <- <-].
  split; [|unfold zlen; lia]. apply digits_value_acc; [lia|]. rewrite forallb_app, A, B. reflexivity.
Qed.

Lemma split_point_head t c r a b : t = c :: r -> split_point t = (a, b) -> forallb is_digit a = true ->
  (a = [] /\ c = 46%N) \/ is_digit c = true.
Proof.
  intros -> H Ha. cbn in H. destruct (N.eqb_spec c 46) as [->|N].
  - injection H as <- <-. auto.
  - destruct (split_point r) as [a' b']. injection H as <- <-. cbn in Ha. apply andb_prop in Ha as [Ha _]. auto.
Qed.

Lemma plain_head t n k c r : plain_decimal t = Some (n, k) -> t = c :: r -> c <> 45%N /\ c <> 43%N.
Proof.
  intros H ->. unfold plain_decimal in H. destruct (split_point (c :: r)) as [a b] eqn:S.
  destruct (forallb is_digit a) eqn:A; [|discriminate].
  destruct (split_point_head _ c r a b eq_refl S A) as [[_ ->]|D]; [split; discriminate|].
  unfold is_digit in D. lia.
Qed.

(** a plain decimal has no sign *)
Lemma parse_plain other t n k : plain_decimal t = Some (n, k) ->
  parse_float_go other t =
    let v := rnd (n * f_one) (10 ^ k) in if f_max <=? v then None else Some (f_pack false v).
Proof.
  intros H. unfold parse_float_go.
  assert (E : (match t with 45%N :: r => (true, r) | 43%N :: r => (false, r) | _ => (false, t) end) = (false, t)).
  { destruct t as [|c r]; [reflexivity|].
    destruct (plain_head _ n k c r H eq_refl) as [A1 A2].
    destruct c as [|p]; [reflexivity|].
    do 6 (destruct p as [p|p|]; try reflexivity; try congruence). }
  rewrite E, H. reflexivity.
Qed.

Lemma number_fold t : forall a, fold_left (fun v c => v * 10 + (Z.of_N c - 48)) t a = a * 10 ^ zlen t + number t.
Proof.
  induction t as [|c t IH]; intros a; [unfold zlen; cbn; lia|]. cbn [fold_left number]. rewrite IH.
  rewrite zlen_cons, Z.pow_add_r by (unfold zlen; lia). lia.
Qed.
Lemma split_point_digits a b : Forall (fun c => 48 <= c <= 57)%N a ->
  split_point a = (a, []) /\ split_point (a ++ T "." ++ b) = (a, b).
Proof.
  intros H. induction H as [|c a Hc _ [IH1 IH2]]; [split; reflexivity|]. cbn [app split_point].
  destruct (N.eqb_spec c 46) as [->|_]; [lia|]. rewrite IH1, IH2. auto.
Qed.
Lemma digits_forallb a : Forall (fun c => 48 <= c <= 57)%N a -> forallb is_digit a = true.
Proof. intros H. apply forallb_forall. intros c Hc. rewrite Forall_forall in H. specialize (H c Hc). unfold is_digit. lia. Qed.

Lemma typed_plain t neg n k : typed t neg n k -> exists sign body,
  (if neg then sign = T "-" else sign = [] \/ sign = T "+") /\ t = sign ++ body /\ plain_decimal body = Some (n, k).
Proof.
  intros (sg & a & b & Hs & Hd & Hn & Ht & -> & ->). pose proof (digits_forallb _ Hd) as Hf. rewrite forallb_app in Hf.
  apply andb_prop in Hf as [Fa Fb]. apply Forall_app in Hd as [Da Db]. destruct (split_point_digits a b Da) as [S1 S2].
  assert (L : Nat.eqb (length (a ++ b)) 0 = false) by (destruct (a ++ b); [now destruct Hn|reflexivity]).
  assert (V : digits_value (a ++ b) = number (a ++ b)) by (unfold digits_value; rewrite number_fold; lia).
  destruct Ht as [[-> ->]| ->].
  - exists sg, a. split; [exact Hs|]. split; [reflexivity|]. unfold plain_decimal. rewrite S1, Fa, Fb, L, V. reflexivity.
  - exists sg, (a ++ T "." ++ b). split; [exact Hs|]. split; [reflexivity|]. unfold plain_decimal. rewrite S2, Fa, Fb, L, V. reflexivity.
Qed.

Lemma typed_nonneg t neg n k : typed t neg n k -> 0 <= n /\ 0 <= k.
Proof. intros H. destruct (typed_plain _ _ _ _ H) as (? & body & _ & _ & P). exact (plain_nonneg body n k P). Qed.

Lemma parse_typed other t neg n k : typed t neg n k ->
  parse_float_go other t =
    let v := rnd (n * f_one) (10 ^ k) in if f_max <=? v then None else Some (f_pack neg v).
Proof.
  intros H. destruct (typed_plain _ _ _ _ H) as (sg & body & Hs & -> & P).
  destruct neg; [|destruct Hs as [->| ->]]; [| |].
  - subst sg. unfold parse_float_go. change (T "-" ++ body) with (45%N :: body). cbv iota beta. rewrite P. reflexivity.
  - apply parse_plain. exact P.
  - unfold parse_float_go. change (T "+" ++ body) with (43%N :: body). cbv iota beta. rewrite P. reflexivity.
Qed.

(** the float of a typed number *)
Lemma typed_float other t neg n k : typed t neg n k -> n <= 10 ^ 16 * 10 ^ k ->
  exists f, parse_float_go other t = Some f /\ f_sign f = neg /\ finite f /\ f_mag f = rnd (n * f_one) (10 ^ k).
Proof.
  intros H Hb. destruct (typed_nonneg t neg n k H) as [Hn Hk]. rewrite (parse_typed other t neg n k H). cbn zeta.
  set (v := rnd (n * f_one) (10 ^ k)) in *. pose proof (typed_below n k v Hk Hn Hb eq_refl) as Hv.
  replace (f_max <=? v) with false by (symmetry; apply Z.leb_gt; exact Hv).
  assert (Hr : representable v) by (apply rnd_representable; [apply pow10_pos; exact Hk|apply mul_nonneg_one; exact Hn]).
  destruct (f_pack_spec neg v Hr) as (_ & S & N & M & I).
  exists (f_pack neg v). split; [reflexivity|]. split; [exact S|]. split.
  - split; [exact N|]. rewrite I. apply Z.leb_gt. exact Hv.
  - rewrite M. apply Z.min_l, Z.lt_le_incl, Hv.
Qed.

(** ** The answer of the [volume] command *)

(** A number typed with at most three decimals is confirmed exactly as typed, written with
    three decimals, and stored as the nearest float (when the broadcast succeeds). *)
Theorem C82_volume_confirmed : forall other send t neg n k st,
  typed t neg n k -> k <= 3 -> n * 10 ^ (3 - k) < 10 ^ 15 -> (forall v, send v = None) ->
  exists f st', volume_exec (parse_float_go other) (fmt_f 0 3) send [t] st
                = Ok (T "setting volume to " ++ minus neg ++ with_decimals 3 (n * 10 ^ (3 - k)), true, st') /\
    st_volume st' = f /\ parse_float_go other t = Some f.
Proof.
  intros other send t neg n k st Hp Hk Hb Hs. destruct (typed_nonneg t neg n k Hp) as [Hn Hk0].
  destruct (typed_bounds 3 (10 ^ 15) n k Hn ltac:(lia) Hb) as (Pk & Hn15 & Hm & Em).
  pose proof (typed_size n (10 ^ k) Hn Pk Hn15) as Hbb.
  destruct (typed_float other t neg n k Hp Hbb) as (f & Ef & Sf & [Nf If] & Mf).
  exists f. eexists. split; [|split; [|exact Ef]].
  - unfold volume_exec, parse_float_param. cbn [nth_error]. rewrite Ef. cbn [negb]. rewrite Hs.
    do 2 f_equal. f_equal. f_equal. unfold fmt_f. rewrite Nf, If, Sf. cbn [Nat.sub repeat app].
    assert (R : rhe (f_mag f * 10 ^ Z.of_nat 3) f_one = n * 10 ^ (3 - k)).
    { change (10 ^ Z.of_nat 3) with 1000. apply rounds_to; [apply one_huge|split; [reflexivity|discriminate]|exact Hm|]. rewrite Mf.
      apply (shown_exact f_one n k); [apply one_huge|exact Hk0|exact Hn|split; [reflexivity|discriminate]| |exact Em|exact Hm].
      apply rnd_error_sum; [apply pow10_pos; exact Hk0|apply mul_nonneg_one; exact Hn]. }
    rewrite R. destruct neg; reflexivity.
  - reflexivity.
Qed.
Print Assumptions C82_volume_confirmed.

(** ** The display of the info client *)

Lemma hundred_fields : f_mag float_100 = 100 * f_one /\ f_sign float_100 = false /\ finite float_100.
Proof. split; [vm_compute; reflexivity|]. split; [vm_compute; reflexivity|]. split; vm_compute; reflexivity. Qed.

Lemma percent_error one v r m : 2 ^ 100 <= one -> 0 <= v -> 0 <= m < 10 ^ 14 ->
  2 ^ 53 * Z.abs (v * 10000 - m * one) <= m * one + 2 ^ 52 * 10000 ->
  2 ^ 53 * Z.abs (r * one - v * (100 * one)) <= v * (100 * one) + 2 ^ 52 * one ->
  rhe (r * 100) one = m.
Proof.
  intros Ho Hv Hm H1 H2.
  assert (H3 : 2 ^ 53 * Z.abs (r - v * 100) <= v * 100 + 2 ^ 52).
  { replace (r * one - v * (100 * one)) with ((r - v * 100) * one) in H2 by ring. rewrite Z.abs_mul, (Z.abs_eq one) in H2 by lia.
    apply Z.mul_le_mono_pos_r with one; [lia|]. lia. }
  apply rhe_near; [lia|].
  assert (H4 : m * one <= 10 ^ 14 * one) by (apply Z.mul_le_mono_nonneg_r; lia).
  change (10 ^ 14) with 100000000000000 in *. change (2 ^ 53) with 9007199254740992 in *.
  change (2 ^ 52) with 4503599627370496 in *. change (2 ^ 100) with 1267650600228229401496703205376 in *.
  set (A := m * one) in *. clearbody A. lia.
Qed.

(** A number typed with at most four decimals is displayed by the info clients as its exact
    percentage with two decimals. *)
Theorem C82_volume_displayed : forall other t neg n k, typed t neg n k -> k <= 4 ->
  n * 10 ^ (4 - k) < 10 ^ 14 ->
  exists f, parse_float_go other t = Some f /\
    volume_line f = T "Volume: " ++ minus neg ++ pad0 (if neg then 5 else 6) (with_decimals 2 (n * 10 ^ (4 - k))) ++ T "%".
Proof.
  intros other t neg n k Hp Hk Hb. destruct (typed_nonneg t neg n k Hp) as [Hn Hk0].
  destruct (typed_bounds 4 (10 ^ 14) n k Hn ltac:(lia) Hb) as (Pk & Hn14 & Hm & Em).
  assert (Hn15 : n < 10 ^ 15) by (eapply Z.lt_trans; [exact Hn14|reflexivity]).
  pose proof (typed_size n (10 ^ k) Hn Pk Hn15) as Hbb.
  destruct (typed_float other t neg n k Hp Hbb) as (f & Ef & Sf & Hf & Mf).
  exists f. split; [exact Ef|]. unfold volume_line. f_equal. rewrite app_assoc. f_equal.
  destruct hundred_fields as (M1 & S1 & F1).
  assert (V : f_mag f <= 10 ^ 14 * f_one).
  { rewrite Mf. apply rnd_le; [apply pow10_pos; exact Hk0|apply mul_nonneg_one; exact Hn|apply representable_int; split; [discriminate|reflexivity]|].
    apply typed_le; [apply f_one_pos|exact Pk|exact Hn|exact Hn14]. }
  pose proof (f_mag_nonneg f) as V0.
  assert (Hpr : 0 <= f_mag f * f_mag float_100) by (apply Z.mul_nonneg_nonneg; apply f_mag_nonneg).
  destruct Hf as [Nf If]. destruct F1 as [N1 I1].
  pose proof (rnd_representable _ f_one f_one_pos Hpr) as Hr.
  unfold fmul. rewrite Nf, N1, If, I1. cbn [orb]. rewrite Sf, S1.
  rewrite Bool.xorb_false_r. destruct (f_pack_spec neg _ Hr) as (_ & S & N & M & I). rewrite M1 in *.
  pose proof (product_below (f_mag f) V0 V) as Rlt.
  unfold fmt_f. rewrite N, S, I, M.
  assert (Lf : (f_max <=? rnd (f_mag f * (100 * f_one)) f_one) = false) by (apply Z.leb_gt; exact Rlt).
  rewrite Lf, Z.min_l by (apply Z.lt_le_incl, Rlt).
  assert (R : rhe (rnd (f_mag f * (100 * f_one)) f_one * 10 ^ Z.of_nat 2) f_one = n * 10 ^ (4 - k)).
  { change (10 ^ Z.of_nat 2) with 100. apply (percent_error f_one (f_mag f)); [apply one_huge|exact V0|exact Hm| |].
    - apply (shown_exact f_one n k); [apply one_huge|exact Hk0|exact Hn|split; [reflexivity|discriminate]| |exact Em|].
      + rewrite Mf. apply rnd_error_sum; [apply pow10_pos; exact Hk0|apply mul_nonneg_one; exact Hn].
      + destruct Hm as [A B]. split; [exact A|]. eapply Z.lt_trans; [exact B|reflexivity].
    - apply rnd_error_sum; [apply f_one_pos|exact Hpr]. }
  rewrite R. destruct neg; cbn [app length minus Nat.sub]; rewrite ?Nat.sub_0_r; reflexivity.
Qed.
Print Assumptions C82_volume_displayed.

(** typed 0.37: the command confirms 0.370, the info clients show 037.00% *)
Example C82_nonvacuous :
  typed (T "0.37") false 37 2 /\ typed (T "-.5") true 5 1 /\ with_decimals 3 (37 * 10 ^ (3 - 2)) = T "0.370" /\
  pad0 6 (with_decimals 2 (37 * 10 ^ (4 - 2))) = T "037.00" /\
  parse_float_go (fun _ => None) (T "0.37") = Some 0x3FD7AE147AE147AE%N /\
  (forall neg n k, ~ typed (T "1:") neg n k).
Proof.
  split; [|split; [|split; [|split; [|split]]]]; [| |vm_compute; reflexivity..|].
  - exists [], (T "0"), (T "37"). split; [auto|]. split; [repeat constructor; cbn; lia|]. split; [discriminate|].
    split; [right; reflexivity|]. split; reflexivity.
  - exists (T "-"), [], (T "5"). split; [auto|]. split; [repeat constructor; cbn; lia|]. split; [discriminate|].
    split; [right; reflexivity|]. split; reflexivity.
  - intros neg n k (sg & a & b & Hs & Hd & Hn & Ht & _). apply Forall_app in Hd as [Da Db].
    assert (I : In 58%N (sg ++ a ++ T "." ++ b)) by
      (destruct Ht as [[E ->]|E]; [|rewrite <- E; cbn; auto]; rewrite app_assoc, <- E; cbn; auto).
    apply in_app_or in I as [I|I].
    { destruct neg; [subst sg|destruct Hs as [->| ->]]; cbn in I; intuition discriminate. }
    apply in_app_or in I as [I|I]; [rewrite Forall_forall in Da; specialize (Da _ I); lia|].
    destruct I as [I|I]; [discriminate I|]. rewrite Forall_forall in Db. specialize (Db _ I). lia.
Qed.
