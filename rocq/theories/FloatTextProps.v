(** Property C104: the [volume] command reads floating-point numbers as written. *)
From Verif Require Import GoBase GoBaseFacts PlaylistModel PcmModel GoFloat GoFloatFacts CommandsModel
  VolumeModel VolumeProps FloatTextSpec FloatTextModel FloatTextProofs.
From Coq Require Import ZifyBool ZifyNat ZifyN.
Local Open Scope Z_scope.

(** A number (of at most 2000 characters): it is too large and the command answers with its usage, or the volume becomes
    the nearest float and is sent to the clients. *)
Theorem C104_number : forall fmt send t neg m base x n d args st,
  zlen t <= 2000 -> numeral t neg m base x -> fraction m base x = (n, d) ->
  (too_large n d /\ exists st', volume_exec parse_float_full fmt send (t :: args) st = Ok ([], false, st') /\
     st_sent st' = st_sent st) \/
  (~ too_large n d /\ exists f msg st', volume_exec parse_float_full fmt send (t :: args) st = Ok (msg, true, st') /\
     nearest f neg n d /\ st_volume st' = f /\ st_sent st' = st_sent st ++ [f]).
Proof.
  intros fmt send t neg m base x n d args st Lt H F. destruct (parse_numeral _ _ _ _ _ _ _ Lt H F) as (Hn & Hd & P).
  pose proof (too_large_rnd n d Hd Hn) as TL.
  unfold volume_exec, parse_float_param. cbn [nth_error]. rewrite P.
  destruct (Z.leb_spec f_max (rnd (n * f_one) d)) as [L|L].
  - left. split; [now apply TL|]. eexists. split; reflexivity.
  - right. split; [intros T; apply TL in T; exact (Z.lt_irrefl _ (Z.le_lt_trans _ _ _ T L))|].
    cbn [negb]. pose proof (parse_nearest neg n d Hn Hd L) as Nr.
    set (f := f_pack neg (rnd (n * f_one) d)) in *. clearbody f. clear - Nr.
    destruct (send f); (exists f; do 2 eexists; split; [reflexivity|]; split; [exact Nr|]; split; reflexivity).
Qed.

(** The words for infinity and not-a-number. *)
Theorem C104_word : forall fmt send t f args st, word t f ->
  exists msg st', volume_exec parse_float_full fmt send (t :: args) st = Ok (msg, true, st') /\
    st_volume st' = f /\ st_sent st' = st_sent st ++ [f].
Proof.
  intros fmt send t f args st H. apply special_word in H.
  unfold volume_exec, parse_float_param. cbn [nth_error]. unfold parse_float_full. rewrite H. cbn [negb].
  destruct (send f); do 2 eexists; (split; [reflexivity|]; split; reflexivity).
Qed.

(** Every other text is answered with the usage, and nothing is sent. *)
Theorem C104_refused : forall fmt send t args st,
  (forall neg m base x, ~ numeral t neg m base x) -> (forall f, ~ word t f) ->
  exists st', volume_exec parse_float_full fmt send (t :: args) st = Ok ([], false, st') /\ st_sent st' = st_sent st.
Proof.
  intros fmt send t args st Hn Hw. unfold volume_exec, parse_float_param. cbn [nth_error].
  assert (P : parse_float_full t = None).
  { unfold parse_float_full. destruct (special t) as [f|] eqn:S; [apply special_word in S; now apply Hw in S|].
    pose proof (read_float_limit t) as X.
    destruct (read_float false t) as [[[[neg m] base] x]|] eqn:R; [apply read_float_sound in R; now apply Hn in R|].
    now destruct (read_float true t). }
  rewrite P. eexists. split; reflexivity.
Qed.

(** A text denotes at most one number, and none if it is a word. *)
Theorem C104_unambiguous : forall t,
  (forall neg m base x neg' m' base' x', numeral t neg m base x -> numeral t neg' m' base' x' ->
     neg = neg' /\ m = m' /\ base = base' /\ x = x') /\
  (forall neg m base x f, numeral t neg m base x -> ~ word t f) /\
  (forall f g, word t f -> word t g -> f = g).
Proof.
  intros t. split; [|split].
  - intros * H H'. apply read_float_complete in H, H'. rewrite H in H'. now injection H'.
  - intros * H W. apply read_float_complete in H. apply word_read in W. congruence.
  - intros f g H H'. apply special_word in H, H'. congruence.
Qed.

(** The plain decimals of C82 are numbers of this grammar, and the parser of C82 with this one
    for all further texts is this one: C82 holds for it. *)
Lemma number_value t : Forall (fun c => 48 <= c <= 57)%N t -> t <> [] ->
  exists ds, digits dec_digit t ds /\ (forall v, fold_left (fun v d => v * 10 + d) ds v = v * 10 ^ zlen t + number t) /\ zlen ds = zlen t.
Proof.
  induction t as [|c r IH]; [contradiction|]. intros H _. inversion H as [|? ? Hc Hr]; subst.
  assert (D : dec_digit c (Z.of_N c - 48)) by (split; [exact Hc|reflexivity]).
  destruct r as [|c' r'].
  - exists [Z.of_N c - 48]. split; [now constructor|]. split; [|reflexivity]. intros v. cbn [fold_left number]. unfold zlen. cbn [length].
    change (10 ^ Z.of_nat 1) with 10. change (10 ^ Z.of_nat 0) with 1. lia.
  - destruct (IH Hr ltac:(discriminate)) as (ds & Hd & Hv & Hl). exists ((Z.of_N c - 48) :: ds).
    split; [now constructor|]. split.
    + intros v. cbn [fold_left]. rewrite Hv. cbn [number]. change (zlen (c :: c' :: r')) with (Z.of_nat (S (length (c' :: r')))).
      rewrite Nat2Z.inj_succ, Z.pow_succ_r by lia. fold (zlen (c' :: r')). ring.
    + unfold zlen in *. cbn [length] in *. lia.
Qed.
Lemma maybe_number t : Forall (fun c => 48 <= c <= 57)%N t ->
  exists ds, maybe_digits dec_digit t ds /\ (forall v, fold_left (fun v d => v * 10 + d) ds v = v * 10 ^ zlen t + number t) /\ zlen ds = zlen t /\ (ds = [] -> t = []).
Proof.
  intros H. destruct t as [|c r].
  - exists []. split; [now left|]. split; [|easy]. intros v. cbn. change (10 ^ zlen []) with 1. lia.
  - destruct (number_value (c :: r) H ltac:(discriminate)) as (ds & Hd & Hv & Hl). exists ds. split; [now right|]. split; [exact Hv|]. split; [exact Hl|].
    intros ->. inversion Hd.
Qed.
Lemma number_app a b : number (a ++ b) = number a * 10 ^ zlen b + number b.
Proof.
  induction a as [|c r IH]; [cbn; lia|]. cbn [app number]. rewrite IH.
  replace (zlen (r ++ b)) with (zlen r + zlen b) by (unfold zlen; rewrite app_length; lia).
  rewrite Z.pow_add_r by (unfold zlen; lia). ring.
Qed.

Theorem C104_plain : forall t neg n k, typed t neg n k -> numeral t neg n 10 (- k).
Proof.
  intros t neg n k (sg & a & b & Hsg & HF & Hne & Ht & -> & ->). apply Forall_app in HF. destruct HF as [Fa Fb].
  destruct (maybe_number a Fa) as (ds1 & D1 & V1 & L1 & E1). destruct (maybe_number b Fb) as (ds2 & D2 & V2 & L2 & E2).
  assert (Hs : sign sg neg) by (destruct neg; exact Hsg).
  assert (M : forall u, (u = a /\ b = [] \/ u = a ++ 46%N :: b) -> mantissa dec_digit 10 u (number (a ++ b)) (zlen b)).
  { intros u Hu. exists a, b, ds1, ds2. split; [exact D1|]. split; [exact D2|]. split.
    - intros E. apply app_eq_nil in E. destruct E as [E E']. apply Hne. now rewrite (E1 E), (E2 E').
    - split; [exact Hu|]. split; [|now rewrite L2]. unfold in_base. rewrite fold_left_app, V1, V2, number_app. ring. }
  assert (G : forall u, (u = a /\ b = [] \/ u = a ++ 46%N :: b) -> numeral (sg ++ u) neg (number (a ++ b)) 10 (- zlen b)).
  { intros u Hu. pose proof (num_decimal sg u [] neg _ _ 0 Hs (M u Hu) (or_introl (conj eq_refl eq_refl))) as N.
    rewrite app_nil_r in N. exact N. }
  destruct Ht as [[-> E]| ->]; apply G; auto.
Qed.

Theorem C104_extends_C82 : forall t, zlen t <= 2000 -> parse_float_go parse_float_full t = parse_float_full t.
Proof.
  intros t Lt. assert (P : forall body neg sg n k, plain_decimal body = Some (n, k) -> sign sg neg -> t = sg ++ body ->
    (let v := rnd (n * f_one) (10 ^ k) in if f_max <=? v then None else Some (f_pack neg v)) = parse_float_full t).
  { intros body neg sg n k H Hs ->.
    assert (Ty : typed (sg ++ body) neg n k).
    { unfold plain_decimal in H. destruct (split_point body) as [a b] eqn:S.
      destruct (_ && _)%bool eqn:E; [|discriminate]. injection H as <- <-.
      apply andb_true_iff in E. destruct E as [E E3]. apply andb_true_iff in E. destruct E as [E1 E2].
      assert (F : forall u, forallb is_digit u = true -> Forall (fun c => 48 <= c <= 57)%N u).
      { intros u Hu. apply Forall_forall. intros c Hc. rewrite forallb_forall in Hu. specialize (Hu c Hc). unfold is_digit in Hu. lia. }
      exists sg, a, b. split; [destruct neg; exact Hs|]. split; [apply Forall_app; split; apply F; assumption|].
      split; [intros E; rewrite E in E3; discriminate|]. split.
      - assert (G : forall u a b, split_point u = (a, b) -> u = a /\ b = [] \/ u = a ++ 46%N :: b).
        { clear. induction u as [|c r IH]; intros a b S; [injection S as <- <-; now left|]. cbn [split_point] in S.
          destruct (N.eqb_spec c 46) as [->|_]; [injection S as <- <-; now right|]. destruct (split_point r) as [a' b'].
          injection S as <- <-. destruct (IH a' b' eq_refl) as [[-> ->]|E]; [now left|]. right. cbn. now rewrite <- E. }
        destruct (G _ _ _ S) as [[-> ->]| ->]; [left|right]; auto.
      - split; [|reflexivity]. unfold digits_value. rewrite number_fold. lia. }
    pose proof (C104_plain _ _ _ _ Ty) as N. destruct (typed_nonneg _ _ _ _ Ty) as [_ Hk].
    assert (Fr : fraction n 10 (- k) = (n, 10 ^ k) \/ k = 0).
    { unfold fraction. destruct (Z.leb_spec 0 (- k)); [right; lia|left]. now rewrite Z.opp_involutive. }
    destruct Fr as [Fr| ->].
    - destruct (parse_numeral _ _ _ _ _ _ _ Lt N Fr) as (_ & _ & ->). reflexivity.
    - assert (Fr : fraction n 10 (- 0) = (n, 1)) by (unfold fraction; cbn; f_equal; lia).
      destruct (parse_numeral _ _ _ _ _ _ _ Lt N Fr) as (_ & _ & ->). reflexivity. }
  unfold parse_float_go.
  destruct (match t with 45%N :: r => (true, r) | 43%N :: r => (false, r) | _ => (false, t) end) as [neg body] eqn:S.
  assert (Hs : exists sg, sign sg neg /\ t = sg ++ body).
  { destruct t as [|c r]; [injection S as <- <-; exists []; cbn; auto|].
    destruct (N.eq_dec c 45) as [->|N1]; [injection S as <- <-; exists [45%N]; cbn; auto|].
    destruct (N.eq_dec c 43) as [->|N2]; [injection S as <- <-; exists [43%N]; cbn; auto|].
    exists []. assert ((false, c :: r) = (neg, body)) as [= <- <-]; [|cbn; auto].
    rewrite <- S. destruct c as [|p]; [reflexivity|]. do 6 (destruct p as [p|p|]; try reflexivity; try (exfalso; congruence)). }
  destruct Hs as (sg & Hs & Et). destruct (plain_decimal body) as [[n k]|] eqn:Pl; [|reflexivity].
  exact (P body neg sg n k Pl Hs Et).
Qed.

(** Non-vacuity: 1_0.5e1 is 105, 0x_1.8p-1 is 0.75, 1e400 is too large, and the texts on the
    right are refused. *)
Ltac dg := cbn; first [apply digits_under|apply digits_one|apply digits_next]; [unfold hex_digit, dec_digit; cbn; lia|..].
Example C104_nonvacuous :
  numeral (T "1_0.5e1") false 105 10 0 /\ numeral (T "-0x_1.8p-1") true 24 2 (-5) /\
  (exists n d, fraction 1 10 400 = (n, d) /\ too_large n d) /\ numeral (T "1e400") false 1 10 400 /\
  word (T "NaN") 0x7ff8000000000001%N /\ word (T "-Infinity") 0xfff0000000000000%N /\
  parse_float_full (T "1_0.5e1") = Some 0x405a400000000000%N /\ parse_float_full (T "-0x_1.8p-1") = Some 0xbfe8000000000000%N /\
  Forall (fun t => (forall neg m base x, ~ numeral t neg m base x) /\ (forall f, ~ word t f))
    [T "1:"; T "1_"; T "_1"; T "1__0"; T "0x1"; T "1e"; T ""; T "."; T "nanx"; T "0x_.8p1"].
Proof.
  split.
  { apply (num_decimal [] (T "1_0.5") (T "e1") false 105 1 1); [now left| |].
    - exists (T "1_0"), (T "5"), [1; 0], [5]. split; [right; dg; dg|]. split; [right; dg|]. split; [discriminate|]. split; [now right|]. now split.
    - right. exists 101%N, [], (T "1"), [1], false. split; [reflexivity|]. split; [now left|]. split; [now left|]. split; [dg|reflexivity]. }
  split.
  { apply (num_hex (T "-") 120%N (T "_1.8") (T "p-1") true 24 1 (-1)); [reflexivity|now left| |].
    - right. exists (T "1.8"). split; [reflexivity|]. split; [|discriminate].
      exists (T "1"), (T "8"), [1], [8]. split; [right; dg|]. split; [right; dg|]. split; [discriminate|]. split; [now right|]. now split.
    - exists 112%N, (T "-"), (T "1"), [1], true. split; [reflexivity|]. split; [now left|]. split; [reflexivity|]. split; [dg|reflexivity]. }
  split; [eexists; eexists; split; [vm_compute; reflexivity|]; unfold too_large; apply Z.leb_le; vm_compute; reflexivity|].
  split.
  { apply (num_decimal [] (T "1") (T "e400") false 1 0 400); [now left| |].
    - exists (T "1"), [], [1], []. split; [right; dg|]. split; [now left|]. split; [discriminate|]. split; [now left|]. now split.
    - right. exists 101%N, [], (T "400"), [4; 0; 0], false. split; [reflexivity|]. split; [now left|]. split; [now left|]. split; [dg; dg; dg|reflexivity]. }
  split; [now apply word_nan|]. split; [apply (word_inf _ (T "-") true (T "Infinity")); auto; reflexivity|].
  split; [vm_compute; reflexivity|]. split; [vm_compute; reflexivity|].
  repeat (constructor; [split; [intros * H; apply read_float_complete in H; vm_compute in H; discriminate
    |intros f H; apply special_word in H; vm_compute in H; discriminate]|]). constructor.
Qed.

Print Assumptions C104_number.
Print Assumptions C104_word.
Print Assumptions C104_refused.
Print Assumptions C104_unambiguous.
Print Assumptions C104_plain.
Print Assumptions C104_extends_C82.
