(** Proofs for C108: whole numbers on the command line. *)
From Verif Require Import GoBase GoBaseFacts GoFmt PlaylistModel PcmModel GoFloat NumberSpec NumberProofs FloatTextSpec FloatTextModel FloatTextProofs CliModel CliSpec.
From Coq Require Import ZifyBool ZifyNat ZifyN.
From Coq Require Decimal DecimalFacts DecimalN.
Local Open Scope Z_scope.

(* ------------------------------------------------------------------ *)
(** ** Digits in a base *)

Definition val_below (base : Z) (c : N) : option Z :=
  match alnum_val c with Some d => if d <? base then Some d else None | None => None end.

Lemma alnum_hex c d : d < 16 -> alnum_val c = Some d <-> hex_digit c d.
Proof.
  intros Hd. rewrite <- hex_val_spec. unfold alnum_val, hex_val. destruct (dec_val c) as [e|]; [reflexivity|].
  destruct ((97 <=? lower c)%N && (lower c <=? 122)%N) eqn:A; destruct ((97 <=? lower c)%N && (lower c <=? 102)%N) eqn:B; try reflexivity.
  - split; [|discriminate]. intros [= E]. lia.
  - lia.
Qed.
Lemma val_below_spec base c d : base <= 16 -> val_below base c = Some d <-> digit_below base c d.
Proof.
  intros Hb. unfold val_below, digit_below. destruct (alnum_val c) as [e|] eqn:E.
  - destruct (Z.ltb_spec e base) as [L|L].
    + split; [intros [= <-]; split; [apply alnum_hex; [lia|exact E]|exact L]|].
      intros [H Hd]. apply alnum_hex in H; [|lia]. congruence.
    + split; [discriminate|]. intros [H Hd]. apply alnum_hex in H; [|lia]. rewrite E in H. injection H as ->. lia.
  - split; [discriminate|]. intros [H Hd]. apply alnum_hex in H; [|lia]. congruence.
Qed.
Lemma digit_below_10 base c d : base <= 10 -> digit_below base c d -> dec_digit c d.
Proof. unfold digit_below, hex_digit, dec_digit. intros Hb [H Hd]. lia. Qed.
Lemma dec_below c d : dec_digit c d <-> digit_below 10 c d.
Proof. unfold digit_below, hex_digit, dec_digit. lia. Qed.

Definition hexb (base : Z) : bool := base =? 16.
Definition good_base (base : Z) : Prop := base = 2 \/ base = 8 \/ base = 10 \/ base = 16.
Lemma val_below_uok base c d : good_base base -> val_below base c = Some d -> uok (hexb base) c = true.
Proof.
  intros B H. apply val_below_spec in H; [|unfold good_base in B; lia]. destruct (Z.eq_dec base 16) as [->|N].
  - destruct H as [H _]. apply hex_val_spec in H. now apply (hex_uok c d).
  - apply digit_below_10 in H; [|unfold good_base in B; lia]. apply dec_val_spec in H. now apply (dec_uok _ c d).
Qed.
Lemma val_below_alnum base c d : base <= 16 -> val_below base c = Some d -> c <> 95%N /\ c <> 46%N.
Proof. intros B H. apply val_below_spec in H; [|exact B]. unfold digit_below, hex_digit, dec_digit in H. split; lia. Qed.

Lemma uint_digits_loose base s : forall n m, uint_digits base s n = Some m ->
  exists ds, loose (val_below base) s ds /\ m = fold_left (fun v d => v * base + d) ds n.
Proof.
  induction s as [|c r IH]; intros n m H; cbn [uint_digits] in H.
  - injection H as <-. exists []. split; [constructor|reflexivity].
  - destruct (N.eqb_spec c 95) as [->|N].
    + destruct (IH _ _ H) as (ds & L & E). exists ds. split; [now constructor|exact E].
    + destruct (alnum_val c) as [d|] eqn:A; [|discriminate]. destruct (d <? base) eqn:B; [|discriminate].
      destruct (IH _ _ H) as (ds & L & E). exists (d :: ds). split; [|exact E]. constructor; [|exact L].
      unfold val_below. now rewrite A, B.
Qed.
Lemma digits_uint base t ds : good_base base -> digits (digit_below base) t ds -> forall n,
  uint_digits base t n = Some (fold_left (fun v d => v * base + d) ds n).
Proof.
  intros B H.
  assert (S : forall c d, digit_below base c d -> c <> 95%N /\ alnum_val c = Some d /\ (d <? base) = true).
  { intros c d D. pose proof D as D'. apply val_below_spec in D; [|unfold good_base in B; lia].
    pose proof (val_below_alnum base c d ltac:(unfold good_base in B; lia) D) as [N _]. split; [exact N|].
    unfold val_below in D. destruct (alnum_val c) as [e|]; [|discriminate]. destruct (e <? base) eqn:L; [|discriminate].
    injection D as <-. now split. }
  induction H as [c d H|c d t ds H _ IH|c d t ds H _ IH]; intros n; destruct (S c d H) as (N & A & L); cbn [uint_digits];
    destruct (N.eqb_spec c 95); try contradiction; rewrite A, L; cbn [fold_left uint_digits];
    try (change ((95 =? 95)%N) with true; cbn match); try apply IH; reflexivity.
Qed.

Lemma digits_mono (p q : N -> Z -> Prop) t ds : (forall c d, p c d -> q c d) -> digits p t ds -> digits q t ds.
Proof. intros H. induction 1; [apply digits_one|apply digits_next|apply digits_under]; auto. Qed.

(* ------------------------------------------------------------------ *)
(** ** ParseUint *)

Lemma under_true hex saw s : saw <> SawUnder -> (existsb (N.eqb 95) s = false \/ under_loop hex saw s = true) -> under_loop hex saw s = true.
Proof. intros H [E|E]; [now apply no_under|exact E]. Qed.

Lemma tight_digits base s ds hex : good_base base -> hex = hexb base -> loose (val_below base) s ds -> under_loop hex SawDigit s = true ->
  s = [] /\ ds = [] \/ after_prefix base s (in_base base ds).
Proof.
  intros B -> L U.
  pose proof (tight (val_below base) (digit_below base) (hexb base) (fun c d => val_below_spec base c d ltac:(unfold good_base in B; lia))
    (fun c d => val_below_uok base c d B) s ds [] L I SawDigit) as H.
  rewrite app_nil_r in H. specialize (H U). cbn iota in H. destruct H as [[[[-> ->]|D]|(a & -> & D)] _].
  - now left.
  - right. exists s, ds. auto.
  - right. exists a, ds. auto.
Qed.

Lemma parse_uint_sound s n : parse_uint s = Some n -> magnitude s n.
Proof.
  unfold parse_uint. destruct s as [|c r]; [discriminate|].
  destruct (base_prefix (c :: r)) as [base ds0] eqn:P. destruct (uint_digits base ds0 0) as [m|] eqn:U; [|discriminate].
  destruct (existsb (N.eqb 95) ds0 && negb (under_ok (c :: r))) eqn:X; [discriminate|]. intros [= <-].
  apply uint_digits_loose in U as (ds & L & ->). fold (in_base base ds).
  assert (O : existsb (N.eqb 95) ds0 = false \/ under_ok (c :: r) = true) by (destruct (existsb _ _), (under_ok _); auto; discriminate).
  clear X. unfold base_prefix in P. destruct (N.eqb_spec c 48) as [->|N].
  - (* a base prefix *)
    assert (G : forall x y r' base, r = x :: y :: r' -> (lower x =? 98)%N || (lower x =? 111)%N || (lower x =? 120)%N = true ->
        good_base base -> (lower x =? 120)%N = hexb base -> ds0 = y :: r' -> loose (val_below base) ds0 ds ->
        after_prefix base (y :: r') (in_base base ds)).
    { intros x y r' b -> Px Gb Hb -> Lb. destruct (tight_digits b (y :: r') ds (hexb b) Gb eq_refl Lb) as [[E _]|A]; [|discriminate|exact A].
      apply under_true; [discriminate|]. destruct O as [O|O]; [now left|right].
      unfold under_ok in O. cbn [strip_sign snd] in O. change ((48 =? 43)%N) with false in O. change ((48 =? 45)%N) with false in O. cbn match in O.
      cbn [snd] in O. unfold under_prefix in O. change ((48 =? 48)%N) with true in O. cbn [andb] in O. rewrite Px in O. cbn [skipn] in O.
      now rewrite <- Hb. }
    assert (G0 : base = 8 -> ds0 = r -> under_prefix (48%N :: r) = false -> magnitude (48%N :: r) (in_base base ds)).
    { intros -> -> Np. destruct (tight_digits 8 r ds false ltac:(unfold good_base; auto) eq_refl L) as [[-> ->]|A].
      - apply under_true; [discriminate|]. destruct O as [O|O]; [now left|right].
        unfold under_ok in O. cbn [strip_sign] in O. change ((48 =? 43)%N) with false in O. change ((48 =? 45)%N) with false in O. cbn match in O.
        cbn [snd] in O. rewrite Np in O. exact O.
      - apply mag_zero.
      - now apply mag_octal. }
    destruct r as [|x [|y r']].
    + injection P as <- <-. now apply G0.
    + injection P as <- <-. apply G0; auto.
      assert (Hx : (48 <= x <= 57)%N \/ x = 95%N).
      { inversion L as [|c' d t ds' V _ E1 E2|t ds' _ E1 E2]; [left|now right].
        apply val_below_spec in V; [|lia]. apply digit_below_10 in V; [|lia]. unfold dec_digit in V. lia. }
      unfold under_prefix, lower. destruct ((65 <=? x)%N && (x <=? 90)%N) eqn:Q; lia.
    + destruct (lower x =? 98)%N eqn:X1; [|destruct (lower x =? 111)%N eqn:X2; [|destruct (lower x =? 120)%N eqn:X3]];
        injection P as <- <-.
      * apply lower_is in X1; [|lia]. apply (mag_prefix x 2%N); [cbn; destruct X1 as [->| ->]; auto 10|].
        apply (G x y r' 2); auto; [destruct X1 as [->| ->]; reflexivity|unfold good_base; auto|destruct X1 as [->| ->]; reflexivity].
      * apply lower_is in X2; [|lia]. apply (mag_prefix x 8%N); [cbn; destruct X2 as [->| ->]; auto 10|].
        apply (G x y r' 8); auto; [destruct X2 as [->| ->]; reflexivity|unfold good_base; auto|destruct X2 as [->| ->]; reflexivity].
      * apply lower_is in X3; [|lia]. apply (mag_prefix x 16%N); [cbn; destruct X3 as [->| ->]; auto 10|].
        apply (G x y r' 16); auto; [destruct X3 as [->| ->]; reflexivity|unfold good_base; auto|destruct X3 as [->| ->]; reflexivity].
      * apply G0; auto. unfold under_prefix. now rewrite X1, X2, X3.
  - injection P as <- <-.
    assert (B : good_base 10) by (unfold good_base; auto).
    assert (S : strip_sign (c :: r) = (false, c :: r)).
    { cbn [strip_sign]. inversion L as [|c' d t ds' V _ E1 E2|t ds' _ E1 E2].
      - apply val_below_spec in V; [|lia]. unfold digit_below, hex_digit, dec_digit in V.
        destruct (N.eqb_spec c 43) as [->|_]; [lia|]. destruct (N.eqb_spec c 45) as [->|_]; [lia|]. reflexivity.
      - reflexivity. }
    assert (U : under_loop false SawStart (c :: r) = true).
    { apply under_true; [discriminate|]. destruct O as [O|O]; [now left|right]. unfold under_ok in O. rewrite S in O. cbn [snd] in O.
      assert (under_prefix (c :: r) = false) as E.
      { unfold under_prefix. destruct r; [reflexivity|]. destruct (N.eqb_spec c 48); [contradiction|reflexivity]. }
      now rewrite E in O. }
    pose proof (tight (val_below 10) (digit_below 10) false (fun c d => val_below_spec 10 c d ltac:(lia)) (fun c d => val_below_uok 10 c d B) (c :: r) ds [] L I SawStart) as H.
    rewrite app_nil_r in H. specialize (H U). cbn iota in H. destruct H as [[E _]|[D _]]; [discriminate|].
    apply mag_decimal; [|exact N]. apply (digits_mono (digit_below 10)); [|exact D]. intros ? ?. apply dec_below.
Qed.

Lemma under_after hex base t n : good_base base -> hex = hexb base -> after_prefix base t n -> under_loop hex SawDigit t = true.
Proof.
  intros B -> (t' & ds & D & E & _).
  assert (U : forall saw, under_loop (hexb base) saw t' = true).
  { intros saw. pose proof (under_digits (val_below base) (digit_below base) (hexb base) (fun c d => val_below_spec base c d ltac:(unfold good_base in B; lia)) (fun c d => val_below_uok base c d B) t' ds D saw []) as X.
    rewrite app_nil_r in X. rewrite X. reflexivity. }
  destruct E as [->| ->]; [apply U|]. cbn [under_loop].
  change (match dec_val 95 with Some _ => true | None => hexb base && match hex_val 95 with Some _ => true | None => false end end) with (hexb base && false).
  rewrite andb_false_r. change ((95 =? 95)%N) with true. cbn match. apply U.
Qed.
Lemma uint_after base t n : good_base base -> after_prefix base t n -> uint_digits base t 0 = Some n /\ t <> [].
Proof.
  intros B (t' & ds & D & E & ->).
  assert (t' <> []) by (inversion D; discriminate).
  destruct E as [->| ->]; (split; [|easy]).
  - now apply digits_uint.
  - cbn [uint_digits]. change ((95 =? 95)%N) with true. cbn match. now apply digits_uint.
Qed.

Lemma parse_uint_complete s n : magnitude s n -> parse_uint s = Some n.
Proof.
  assert (G : forall c r base ds0 n, base_prefix (c :: r) = (base, ds0) -> uint_digits base ds0 0 = Some n -> under_ok (c :: r) = true ->
    parse_uint (c :: r) = Some n).
  { intros c r base ds0 m P U O. unfold parse_uint. rewrite P, U, O. now rewrite andb_false_r. }
  intros H. destruct H as [t ds D N|  |t n A|l base t n I A].
  - assert (B : good_base 10) by (unfold good_base; auto).
    assert (D' : digits (digit_below 10) t ds) by (apply (digits_mono dec_digit); [intros; now apply dec_below|exact D]).
    destruct (digits_head _ _ _ D) as (c & r & d & -> & [Hc Hd]). cbn [hd] in N.
    assert (Np : forall r, under_prefix (c :: r) = false).
    { intros [|x r']; [reflexivity|]. unfold under_prefix. destruct (N.eqb_spec c 48); [contradiction|reflexivity]. }
    apply (G c r 10 (c :: r)).
    + unfold base_prefix. destruct (N.eqb_spec c 48); [contradiction|reflexivity].
    + now apply digits_uint.
    + unfold under_ok. cbn [strip_sign]. destruct (N.eqb_spec c 43) as [->|_]; [lia|]. destruct (N.eqb_spec c 45) as [->|_]; [lia|]. cbn [snd].
      rewrite Np.
      pose proof (under_digits (val_below 10) (digit_below 10) false (fun c d => val_below_spec 10 c d ltac:(lia)) (fun c d => val_below_uok 10 c d B) (c :: r) ds D' SawStart []) as X.
      rewrite app_nil_r in X. rewrite X. reflexivity.
  - reflexivity.
  - destruct (uint_after 8 t n ltac:(unfold good_base; auto) A) as [U Ne].
    assert (X : forall x r', t = x :: r' -> (lower x =? 98)%N = false /\ (lower x =? 111)%N = false /\ (lower x =? 120)%N = false).
    { intros x r' ->. destruct A as (t' & ds & D & E & _). destruct (digits_head _ _ _ D) as (c & r & d & -> & Hc).
      apply digit_below_10 in Hc; [|lia]. unfold dec_digit in Hc.
      assert (Hx : (48 <= x <= 57)%N \/ x = 95%N) by (destruct E as [E|E]; injection E as -> _; [left; lia|now right]).
      unfold lower. destruct ((65 <=? x)%N && (x <=? 90)%N) eqn:Q; lia. }
    apply (G 48%N t 8 t).
    + unfold base_prefix. change ((48 =? 48)%N) with true. cbn match. destruct t as [|x [|y r']]; try reflexivity.
      destruct (X x _ eq_refl) as (X1 & X2 & X3). now rewrite X1, X2, X3.
    + exact U.
    + unfold under_ok. cbn [strip_sign]. change ((48 =? 43)%N) with false. change ((48 =? 45)%N) with false. cbn match. cbn [snd].
      assert (under_prefix (48%N :: t) = false) as ->.
      { unfold under_prefix. destruct t as [|x r']; [reflexivity|]. destruct (X x _ eq_refl) as (X1 & X2 & X3). now rewrite X1, X2, X3. }
      change (under_loop false SawDigit t = true). now apply (under_after false 8 t n); [unfold good_base; auto| |].
  - assert (B : good_base (Z.of_N base) /\ (lower l =? 98)%N || (lower l =? 111)%N || (lower l =? 120)%N = true /\ (lower l =? 120)%N = hexb (Z.of_N base) /\
      forall y r', base_prefix (48%N :: l :: y :: r') = (Z.of_N base, y :: r')).
    { cbn [In] in I. unfold good_base. repeat (destruct I as [E|I]; [injection E as <- <-; repeat split; auto|]). destruct I. }
    destruct B as (B & P1 & P2 & P3). destruct (uint_after _ t n B A) as [U Ne].
    destruct t as [|y r']; [contradiction|].
    apply (G 48%N (l :: y :: r') (Z.of_N base) (y :: r')); [apply P3|exact U|].
    unfold under_ok. cbn [strip_sign]. change ((48 =? 43)%N) with false. change ((48 =? 45)%N) with false. cbn match. cbn [snd].
    assert (under_prefix (48%N :: l :: y :: r') = true) as ->.
    { unfold under_prefix. change ((48 =? 48)%N) with true. cbn [andb]. exact P1. }
    cbn [skipn]. rewrite P2. now apply (under_after _ (Z.of_N base) _ n).
Qed.
Theorem parse_uint_spec s n : parse_uint s = Some n <-> magnitude s n.
Proof. split; [apply parse_uint_sound|apply parse_uint_complete]. Qed.

Lemma magnitude_nonneg s n : magnitude s n -> 0 <= n.
Proof.
  assert (A : forall base t n, 0 <= base -> after_prefix base t n -> 0 <= n).
  { intros base t m Hb (t' & ds & D & _ & ->). apply in_base_nonneg; [exact Hb|]. apply (digits_nonneg (digit_below base) t' ds); [|exact D].
    intros c d [H _]. unfold hex_digit, dec_digit in H. lia. }
  intros H. destruct H as [t ds D _| |t n H|l base t n _ H].
  - apply in_base_nonneg; [lia|]. apply (digits_nonneg dec_digit t ds); [|exact D]. intros c d H. unfold dec_digit in H. lia.
  - lia.
  - apply (A 8 t n); [lia|exact H].
  - apply (A (Z.of_N base) t n); [lia|exact H].
Qed.

Theorem natural_spec s n : parse_uint64 s = Some n <-> natural s n.
Proof.
  unfold parse_uint64, natural. rewrite <- parse_uint_spec. destruct (parse_uint s) as [m|].
  - destruct (Z.ltb_spec m (2 ^ 64)); split; try (intros [= <-]; auto); try (intros [[= ->] L]; auto; lia).
  - split; [discriminate|]. intros [H _]. discriminate H.
Qed.

Lemma magnitude_no_sign s n : magnitude s n -> forall c r, s = c :: r -> c <> 43%N /\ c <> 45%N.
Proof.
  intros H c r ->. inversion H as [t ds D _ E1 E2| |t m _ E1 E2|l base t m _ _ E1 E2]; try (split; discriminate); subst.
  destruct (digits_head _ _ _ D) as (c' & r' & d & E & Hc). injection E as -> ->. unfold dec_digit in Hc. split; lia.
Qed.
Lemma magnitude_nonempty s n : magnitude s n -> s <> [].
Proof. intros H ->. inversion H; subst. inversion H0. Qed.

Theorem integer_spec s z : parse_int64 s = Some z <-> integer s z.
Proof.
  unfold parse_int64, integer. split.
  - destruct s as [|c r]; [discriminate|]. destruct (strip_sign (c :: r)) as [neg s'] eqn:S.
    destruct (parse_uint64 s') as [n|] eqn:P; [|discriminate]. apply natural_spec in P as [M L]. pose proof (magnitude_nonneg _ _ M).
    apply strip_sign_inv in S as (sg & -> & Sg). intros Hz. exists sg, neg, s', n. repeat split; auto.
    + destruct neg; [destruct (n <=? 2 ^ 63)|destruct (n <? 2 ^ 63)]; congruence.
    + destruct neg; [destruct (Z.leb_spec n (2 ^ 63))|destruct (Z.ltb_spec n (2 ^ 63))]; [injection Hz as <-|discriminate|injection Hz as <-|discriminate]; lia.
    + destruct neg; [destruct (Z.leb_spec n (2 ^ 63))|destruct (Z.ltb_spec n (2 ^ 63))]; [injection Hz as <-|discriminate|injection Hz as <-|discriminate]; lia.
  - intros (sg & neg & r & n & -> & Sg & M & -> & R). pose proof (magnitude_nonneg _ _ M) as N0.
    assert (S : strip_sign (sg ++ r) = (neg, r)) by (apply strip_sign_app; [exact Sg|apply (magnitude_no_sign _ _ M)]).
    assert (P : parse_uint64 r = Some n) by (apply natural_spec; split; [exact M|destruct neg; lia]).
    assert (E : sg ++ r <> []) by (pose proof (magnitude_nonempty _ _ M); destruct sg; [exact H|discriminate]).
    destruct (sg ++ r) as [|c t] eqn:Q; [contradiction|]. rewrite S, P. destruct neg.
    + destruct (Z.leb_spec n (2 ^ 63)); [reflexivity|lia].
    + destruct (Z.ltb_spec n (2 ^ 63)); [reflexivity|lia].
Qed.

(* ------------------------------------------------------------------ *)
(** ** Numbers as they are printed *)

Lemma uint_text_decimal u : Forall decimal_digit (uint_text u).
Proof. induction u; cbn [uint_text]; constructor; auto; unfold decimal_digit; lia. Qed.
Lemma to_uint_head n : (0 < n)%N -> hd 0%N (uint_text (N.to_uint n)) <> 48%N.
Proof.
  intros H E. pose proof (DecimalN.Unsigned.to_of (N.to_uint n)) as T. rewrite DecimalN.Unsigned.of_to in T.
  destruct (N.to_uint n) as [|u|u|u|u|u|u|u|u|u|u] eqn:U; cbn [uint_text hd] in E; try discriminate.
  unfold Decimal.unorm in T. cbn [Decimal.nzhead] in T. destruct (Decimal.nzhead u) as [|v|v|v|v|v|v|v|v|v|v] eqn:Z; try discriminate.
  - injection T as ->. pose proof (DecimalN.Unsigned.of_to n) as O. rewrite U in O. cbn in O. lia.
  - exact (DecimalFacts.nzhead_nonzero u v Z).
Qed.
Lemma itoa_digits z : 0 <= z -> Forall decimal_digit (itoa z) /\ itoa z <> [] /\ value_of (itoa z) = z /\ (0 < z -> hd 0%N (itoa z) <> 48%N).
Proof.
  intros H. unfold itoa. destruct (Z.ltb_spec z 0); [lia|]. repeat split.
  - apply uint_text_decimal.
  - apply uint_text_nonnil, to_uint_nonnil.
  - rewrite <- of_uint_value, DecimalN.Unsigned.of_to. lia.
  - intros P. apply to_uint_head. lia.
Qed.
Lemma decimal_digits_of t : t <> [] -> Forall decimal_digit t -> exists ds, digits dec_digit t ds /\ in_base 10 ds = value_of t.
Proof.
  intros Ne F. exists (map (fun c => Z.of_N c - 48) t). split.
  - induction F as [|c t Hc F IH]; [contradiction|]. destruct t as [|c' t]; cbn [map].
    + constructor. unfold dec_digit, decimal_digit in *. split; [exact Hc|reflexivity].
    + constructor; [unfold dec_digit, decimal_digit in *; split; [exact Hc|reflexivity]|]. apply IH. discriminate.
  - unfold in_base, value_of. assert (G : forall v, fold_left (fun v d => v * 10 + d) (map (fun c => Z.of_N c - 48) t) v = fold_left (fun v c => 10 * v + (Z.of_N c - 48)) t v).
    { clear. induction t as [|c t IH]; intros v; [reflexivity|]. cbn [map fold_left]. rewrite IH. f_equal. lia. }
    apply G.
Qed.
Lemma itoa_magnitude z : 0 <= z -> magnitude (itoa z) z.
Proof.
  intros H. destruct (itoa_digits z H) as (F & Ne & V & Hd). destruct (Z.eq_dec z 0) as [->|N]; [apply mag_zero|].
  destruct (decimal_digits_of _ Ne F) as (ds & D & E). rewrite V in E. rewrite <- E at 2. apply mag_decimal; [exact D|]. apply Hd. lia.
Qed.
Lemma int_round_trip z : - 2 ^ 63 <= z < 2 ^ 63 -> parse_int64 (itoa z) = Some z.
Proof.
  intros H. apply integer_spec. destruct (Z.ltb_spec z 0) as [L|L].
  - exists [45%N], true, (itoa (- z)), (- z). repeat split; try lia; [|apply itoa_magnitude; lia].
    unfold itoa. destruct (Z.ltb_spec z 0); [|lia]. destruct (Z.ltb_spec (- z) 0); [lia|]. reflexivity.
  - exists [], false, (itoa z), z. repeat split; try lia; [now left|]. now apply itoa_magnitude.
Qed.
Lemma uint_round_trip z : 0 <= z < 2 ^ 64 -> parse_uint64 (itoa z) = Some z.
Proof. intros H. apply natural_spec. split; [apply itoa_magnitude|]; lia. Qed.
