(** Proofs for C104: the grammar of [FloatTextSpec] is exactly what the parser accepts, and the
    conversion rounds to the nearest float. *)
From Verif Require Import GoBase GoBaseFacts PlaylistModel PcmModel PcmProofs GoFloat GoFloatFacts FloatTextSpec FloatTextModel.
From Coq Require Import ZifyBool ZifyNat ZifyN.
Local Open Scope Z_scope.

(* ------------------------------------------------------------------ *)
(** ** Characters *)

Lemma dec_val_spec c d : dec_val c = Some d <-> dec_digit c d.
Proof.
  unfold dec_val, dec_digit. destruct ((48 <=? c)%N && (c <=? 57)%N) eqn:E; split.
  - intros [= <-]. lia.
  - intros [_ ->]. reflexivity.
  - discriminate.
  - lia.
Qed.
Lemma hex_val_spec c d : hex_val c = Some d <-> hex_digit c d.
Proof.
  unfold hex_val, hex_digit. destruct (dec_val c) as [e|] eqn:E.
  - apply dec_val_spec in E. unfold dec_digit in *. split; [intros [= <-]; auto|].
    intros [H|[H|H]]; [destruct E, H; f_equal; lia|lia|lia].
  - assert (N : forall x, ~ dec_digit c x) by (intros x H; apply dec_val_spec in H; congruence).
    unfold dec_digit in N. specialize (N (Z.of_N c - 48)). unfold lower.
    destruct ((65 <=? c)%N && (c <=? 90)%N) eqn:L.
    + destruct ((97 <=? c + 32)%N && (c + 32 <=? 102)%N) eqn:M; split; try discriminate.
      * intros [= <-]. right. right. lia.
      * intros H. f_equal. unfold dec_digit in H. lia.
      * unfold dec_digit. lia.
    + destruct ((97 <=? c)%N && (c <=? 102)%N) eqn:M; split; try discriminate.
      * intros [= <-]. right. left. lia.
      * intros H. f_equal. unfold dec_digit in H. lia.
      * unfold dec_digit. lia.
Qed.
Lemma lower_is c x : (97 <= x <= 122)%N -> (lower c =? x)%N = true <-> c = x \/ c = (x - 32)%N.
Proof. unfold lower. intros H. destruct ((65 <=? c)%N && (c <=? 90)%N) eqn:E; lia. Qed.
Lemma dec_none c : (c < 48 \/ 57 < c)%N -> dec_val c = None.
Proof. intros H. unfold dec_val. destruct ((48 <=? c)%N && (c <=? 57)%N) eqn:E; [lia|reflexivity]. Qed.

(** the digit test of the underscore check *)
Definition uok (hex : bool) (c : N) : bool :=
  match dec_val c with Some _ => true | None => hex && match hex_val c with Some _ => true | None => false end end.

(* ------------------------------------------------------------------ *)
(** ** Digits *)

Section Digits.
Variable val : N -> option Z.
Variable digit : N -> Z -> Prop.
Variable base : Z.
Variable hex : bool.
Hypothesis val_spec : forall c d, val c = Some d <-> digit c d.
Hypothesis val_uok : forall c d, val c = Some d -> uok hex c = true.
Hypothesis val_alnum : forall c d, val c = Some d -> c <> 95%N /\ c <> 46%N.

Notation value := (fold_left (fun v d => v * base + d)).

Lemma scan_digit c d r dot dig m k : val c = Some d ->
  scan val base (c :: r) dot dig m k = scan val base r dot true (m * base + d) (if dot then k + 1 else k).
Proof.
  intros H. cbn [scan]. destruct (val_alnum c d H) as [A B].
  destruct (N.eqb_spec c 95); [contradiction|]. destruct (N.eqb_spec c 46); [contradiction|]. now rewrite H.
Qed.
Lemma scan_digits t ds : digits digit t ds -> forall rest dot dig m k,
  scan val base (t ++ rest) dot dig m k = scan val base rest dot true (value ds m) (if dot then k + zlen ds else k).
Proof.
  induction 1 as [c d H|c d t ds H _ IH|c d t ds H _ IH]; intros rest dot dig m k; apply val_spec in H; cbn [app].
  - rewrite (scan_digit c d) by exact H. reflexivity.
  - rewrite (scan_digit c d) by exact H. rewrite IH. cbn [fold_left]. f_equal. destruct dot; [|reflexivity].
    unfold zlen. cbn [length]. lia.
  - rewrite (scan_digit c d) by exact H. cbn [scan]. change ((95 =? 95)%N) with true. cbn match. rewrite IH. cbn [fold_left].
    f_equal. destruct dot; [|reflexivity]. unfold zlen. cbn [length]. lia.
Qed.
Lemma under_digit c d saw r : val c = Some d -> under_loop hex saw (c :: r) = under_loop hex SawDigit r.
Proof. intros H. pose proof (val_uok c d H) as U. unfold uok in U. cbn [under_loop]. now rewrite U. Qed.
Lemma under_digits t ds : digits digit t ds -> forall saw rest,
  under_loop hex saw (t ++ rest) = under_loop hex SawDigit rest.
Proof.
  induction 1 as [c d H|c d t ds H _ IH|c d t ds H _ IH]; intros saw rest; apply val_spec in H; cbn [app];
    rewrite (under_digit c d) by exact H.
  - reflexivity.
  - apply IH.
  - cbn [under_loop]. change (match dec_val 95 with Some _ => true | None => hex && match hex_val 95 with Some _ => true | None => false end end)
      with (hex && false). rewrite andb_false_r. change ((95 =? 95)%N) with true. cbn match. apply IH.
Qed.

(** a text the digit loop does not continue into *)
Definition stops (rest : text) : Prop :=
  match rest with [] => True | c :: _ => c <> 95%N /\ val c = None /\ uok hex c = false end.

Lemma under_point saw r : saw <> SawUnder -> under_loop hex saw (46%N :: r) = under_loop hex SawOther r.
Proof.
  intros H. cbn [under_loop]. change (match dec_val 46 with Some _ => true | None => hex && match hex_val 46 with Some _ => true | None => false end end)
      with (hex && false). rewrite andb_false_r. change ((46 =? 95)%N) with false. cbn match. now destruct saw.
Qed.
Lemma scan_stop rest dot dig m k : stops rest -> (forall r, rest = 46%N :: r -> dot = true) ->
  scan val base rest dot dig m k = (dig, m, k, rest).
Proof.
  destruct rest as [|c r]; [reflexivity|]. intros (A & B & _) C. cbn [scan].
  destruct (N.eqb_spec c 95); [contradiction|]. destruct (N.eqb_spec c 46) as [->|_]; [now rewrite (C r eq_refl)|]. now rewrite B.
Qed.

Lemma mantissa_scan t m k rest : mantissa digit base t m k -> stops rest -> (forall r, rest <> 46%N :: r) ->
  scan val base (t ++ rest) false false 0 0 = (true, m, k, rest).
Proof.
  intros (a & b & ds1 & ds2 & Ha & Hb & Hne & Ht & -> & ->) Hs Hp.
  assert (Hp' : forall dot r, rest = 46%N :: r -> dot = true) by (intros dot r E; now destruct (Hp r)).
  unfold in_base. rewrite fold_left_app.
  destruct Ht as [[-> ->]| ->].
  - assert (ds2 = []) as -> by (destruct Hb as [[_ ?]|Hb]; [assumption|inversion Hb]).
    rewrite app_nil_r in Hne. destruct Ha as [[_ ?]|Ha]; [contradiction|].
    rewrite (scan_digits a ds1 Ha). rewrite (scan_stop rest _ _ _ _ Hs (Hp' _)). reflexivity.
  - assert (G : forall dig m k, dig = true \/ ds2 <> [] ->
      scan val base (b ++ rest) true dig m k = (true, value ds2 m, k + zlen ds2, rest)).
    { intros dig m k Hd. destruct Hb as [[-> ->]|Hb].
      - cbn [app fold_left]. destruct Hd as [->|]; [|contradiction]. rewrite (scan_stop rest _ _ _ _ Hs (Hp' _)). unfold zlen. cbn. now rewrite Z.add_0_r.
      - rewrite (scan_digits b ds2 Hb), (scan_stop rest _ _ _ _ Hs (Hp' _)). reflexivity. }
    rewrite <- app_assoc. cbn [app]. destruct Ha as [[-> ->]|Ha].
    + cbn [app scan]. change ((46 =? 95)%N) with false. change ((46 =? 46)%N) with true. cbn match. apply G. right. exact Hne.
    + rewrite (scan_digits a ds1 Ha). cbn [app scan]. change ((46 =? 95)%N) with false. change ((46 =? 46)%N) with true. cbn match.
      apply G. left. reflexivity.
Qed.

Lemma mantissa_under t m k rest saw : mantissa digit base t m k -> saw <> SawUnder \/ (forall r, t <> 46%N :: r) ->
  exists saw', saw' <> SawUnder /\ under_loop hex saw (t ++ rest) = under_loop hex saw' rest.
Proof.
  intros (a & b & ds1 & ds2 & Ha & Hb & Hne & Ht & _ & _) Hs.
  assert (B : exists saw', saw' <> SawUnder /\ under_loop hex SawOther (b ++ rest) = under_loop hex saw' rest).
  { destruct Hb as [[-> _]|Hb]; [exists SawOther; now split|]. exists SawDigit. split; [discriminate|]. now apply (under_digits b ds2). }
  destruct Ht as [[-> ->]| ->].
  - assert (ds2 = []) as -> by (destruct Hb as [[_ ?]|Hb]; [assumption|inversion Hb]).
    rewrite app_nil_r in Hne. destruct Ha as [[_ ?]|Ha]; [contradiction|].
    exists SawDigit. split; [discriminate|]. now apply (under_digits a ds1).
  - rewrite <- app_assoc. cbn [app]. destruct Ha as [[-> _]|Ha].
    + cbn [app] in *. destruct Hs as [Hs|Hs]; [|now destruct (Hs b)]. now rewrite under_point.
    + rewrite (under_digits a ds1 Ha). rewrite under_point by discriminate. exact B.
Qed.

(** *** From the parser to the grammar *)

Inductive loose : text -> list Z -> Prop :=
| loose_nil : loose [] []
| loose_digit c d t ds : val c = Some d -> loose t ds -> loose (c :: t) (d :: ds)
| loose_under t ds : loose t ds -> loose (95%N :: t) ds.

Definition dead (rest : text) : Prop :=
  match rest with [] => True | c :: _ => c <> 95%N /\ uok hex c = false end.

Lemma tight a ds rest : loose a ds -> dead rest -> forall saw, under_loop hex saw (a ++ rest) = true ->
  match saw with
  | SawUnder => digits digit a ds /\ under_loop hex SawDigit rest = true
  | SawDigit => (maybe_digits digit a ds \/ exists a', a = 95%N :: a' /\ digits digit a' ds) /\ under_loop hex SawDigit rest = true
  | _ => a = [] /\ ds = [] /\ under_loop hex saw rest = true \/ digits digit a ds /\ under_loop hex SawDigit rest = true
  end.
Proof.
  intros H Hr. induction H as [|c d t ds H _ IH|t ds _ IH]; intros saw U; cbn [app] in U.
  - destruct saw; [left; auto|split; [left; left; now split|exact U]| |left; auto].
    exfalso. destruct rest as [|c r]; [discriminate|]. destruct Hr as [R1 R2]. cbn [under_loop] in U. unfold uok in R2.
      rewrite R2 in U. destruct (N.eqb_spec c 95); [contradiction|]. discriminate.
  - rewrite (under_digit c d) in U by exact H. specialize (IH SawDigit U). cbn iota in IH. destruct IH as [IH V].
    apply val_spec in H.
    assert (G : digits digit (c :: t) (d :: ds)).
    { destruct IH as [[[-> ->]|IH]|(a' & -> & IH)]; [now apply digits_one|now apply digits_next|now apply digits_under]. }
    destruct saw; auto. split; auto. left. right. exact G.
  - cbn [under_loop] in U. change (match dec_val 95 with Some _ => true | None => hex && match hex_val 95 with Some _ => true | None => false end end)
      with (hex && false) in U. rewrite andb_false_r in U. change ((95 =? 95)%N) with true in U. cbn match in U.
    destruct saw; try discriminate. destruct (IH SawUnder U) as [G V]. split; [|exact V]. right. eauto.
Qed.

Lemma scan_inv s : forall dot dig m k dig' m' k' rest, scan val base s dot dig m k = (dig', m', k', rest) ->
  exists a ds1, loose a ds1 /\ match rest with [] => True | c :: _ => c <> 95%N /\ val c = None \/ c = 46%N end /\
    (s = a ++ rest /\ m' = value ds1 m /\ k' = (if dot then k + zlen ds1 else k) /\ (dig' = true -> dig = true \/ ds1 <> []) /\
       (forall r, rest = 46%N :: r -> dot = true)
     \/ exists b ds2, dot = false /\ loose b ds2 /\ s = a ++ 46%N :: b ++ rest /\ m' = value (ds1 ++ ds2) m /\ k' = k + zlen ds2 /\
       (dig' = true -> dig = true \/ ds1 ++ ds2 <> [])).
Proof.
  induction s as [|c r IH]; intros dot dig m k dig' m' k' rest H.
  - injection H as <- <- <- <-. exists [], []. split; [constructor|]. split; [exact I|]. left. cbn. unfold zlen. cbn.
    repeat split; auto; [destruct dot; lia|discriminate].
  - cbn [scan] in H. destruct (N.eqb_spec c 95) as [->|N1].
    + destruct (IH _ _ _ _ _ _ _ _ H) as (a & ds1 & L & S & C). exists (95%N :: a), ds1. split; [now constructor|]. split; [exact S|].
      destruct C as [(-> & C)|(b & ds2 & D & Lb & -> & C)]; [left; split; [reflexivity|exact C]|].
      right. exists b, ds2. repeat split; auto; apply C.
    + destruct (N.eqb_spec c 46) as [->|N2].
      * destruct dot.
        -- injection H as <- <- <- <-. exists [], []. split; [constructor|]. split; [now right|]. left. cbn. unfold zlen. cbn.
           repeat split; auto. lia.
        -- destruct (IH _ _ _ _ _ _ _ _ H) as (b & ds2 & L & S & C). exists [], []. split; [constructor|]. split; [exact S|].
           destruct C as [(-> & M & K & D & _)|(b' & ds2' & X & _)]; [|discriminate]. right. exists b, ds2. cbn [app].
           repeat split; auto.
      * destruct (val c) as [d|] eqn:V.
        -- destruct (IH _ _ _ _ _ _ _ _ H) as (a & ds1 & L & S & C). exists (c :: a), (d :: ds1). split; [now constructor|]. split; [exact S|].
           destruct C as [(-> & M & K & D & P)|(b & ds2 & D & Lb & -> & M & K & DD)].
           ++ left. repeat split; auto. { rewrite K. destruct dot; [|reflexivity]. unfold zlen. cbn [length]. lia. }
              right. discriminate.
           ++ right. exists b, ds2. repeat split; auto. { rewrite D in K. exact K. } right. discriminate.
        -- injection H as <- <- <- <-. exists [], []. split; [constructor|]. split; [now left|]. left. cbn. unfold zlen. cbn.
           repeat split; auto; [destruct dot; lia|]. congruence.
Qed.
End Digits.

(* ------------------------------------------------------------------ *)
(** ** The two bases *)

Lemma dec_uok hex c d : dec_val c = Some d -> uok hex c = true.
Proof. unfold uok. now intros ->. Qed.
Lemma hex_uok c d : hex_val c = Some d -> uok true c = true.
Proof. unfold uok. intros ->. now destruct (dec_val c). Qed.
Lemma dec_alnum c d : dec_val c = Some d -> c <> 95%N /\ c <> 46%N.
Proof. intros H. apply dec_val_spec in H. destruct H. split; lia. Qed.
Lemma hex_alnum c d : hex_val c = Some d -> c <> 95%N /\ c <> 46%N.
Proof. intros H. apply hex_val_spec in H. unfold hex_digit, dec_digit in H. split; lia. Qed.
Lemma uok_dec c : uok false c = false <-> dec_val c = None.
Proof. unfold uok. destruct (dec_val c); now cbn. Qed.
Lemma uok_hex c : uok true c = false <-> hex_val c = None.
Proof. unfold uok, hex_val at 2. destruct (dec_val c) eqn:E; cbn; [easy|]. unfold hex_val. rewrite E. now destruct (_ && _)%bool. Qed.

Definition val_of (hex : bool) : N -> option Z := if hex then hex_val else dec_val.
Definition digit_of (hex : bool) : N -> Z -> Prop := if hex then hex_digit else dec_digit.
Definition base_of (hex : bool) : Z := if hex then 16 else 10.
Lemma val_of_spec hex c d : val_of hex c = Some d <-> digit_of hex c d.
Proof. destruct hex; [apply hex_val_spec|apply dec_val_spec]. Qed.
Lemma val_of_uok hex c d : val_of hex c = Some d -> uok hex c = true.
Proof. destruct hex; [apply hex_uok|apply dec_uok]. Qed.
Lemma val_of_alnum hex c d : val_of hex c = Some d -> c <> 95%N /\ c <> 46%N.
Proof. destruct hex; [apply hex_alnum|apply dec_alnum]. Qed.
Lemma uok_of hex c : uok hex c = false <-> val_of hex c = None.
Proof. destruct hex; [apply uok_hex|apply uok_dec]. Qed.

(* ------------------------------------------------------------------ *)
(** ** Signs and exponents *)

Lemma strip_sign_inv t neg s : strip_sign t = (neg, s) -> exists sg, t = sg ++ s /\ sign sg neg.
Proof.
  unfold strip_sign. destruct t as [|c r]; [intros [= <- <-]; exists []; cbn; auto|].
  destruct (N.eqb_spec c 43) as [->|_]; [intros [= <- <-]; exists [43%N]; cbn; auto|].
  destruct (N.eqb_spec c 45) as [->|_]; [intros [= <- <-]; exists [45%N]; cbn; auto|].
  intros [= <- <-]. exists []. cbn; auto.
Qed.
Lemma strip_sign_app sg neg s : sign sg neg -> (forall c r, s = c :: r -> c <> 43%N /\ c <> 45%N) ->
  strip_sign (sg ++ s) = (neg, s).
Proof.
  intros H Hs. destruct neg; cbn in H; [now subst sg|]. destruct H as [->| ->]; [|reflexivity]. cbn [app]. unfold strip_sign.
  destruct s as [|c r]; [reflexivity|]. destruct (Hs c r eq_refl).
  destruct (N.eqb_spec c 43); [contradiction|]. destruct (N.eqb_spec c 45); [contradiction|]. reflexivity.
Qed.

Lemma exp_digits_loose s : forall e e' rest, exp_digits false s e = (e', rest) ->
  exists a ds, loose dec_val a ds /\ s = a ++ rest /\ e' = fold_left (fun v d => v * 10 + d) ds e.
Proof.
  induction s as [|c r IH]; intros e e' rest H; cbn [exp_digits andb] in H.
  - injection H as <- <-. exists [], []. repeat split; constructor.
  - destruct (N.eqb_spec c 95) as [->|N].
    + destruct (IH _ _ _ H) as (a & ds & L & -> & E). exists (95%N :: a), ds. repeat split; [now constructor|exact E].
    + destruct (dec_val c) as [d|] eqn:V.
      * destruct (IH _ _ _ H) as (a & ds & L & -> & E). exists (c :: a), (d :: ds). repeat split; [now constructor|exact E].
      * injection H as <- <-. exists [], []. repeat split; constructor.
Qed.
Lemma exp_digits_of t ds : digits dec_digit t ds -> forall e, exp_digits false t e = (fold_left (fun v d => v * 10 + d) ds e, []).
Proof.
  induction 1 as [c d H|c d t ds H _ IH|c d t ds H _ IH]; intros e; apply dec_val_spec in H; cbn [exp_digits andb];
    (destruct (dec_alnum c d H) as [A _]; destruct (N.eqb_spec c 95); [contradiction|]); rewrite H.
  - reflexivity.
  - apply IH.
  - cbn [exp_digits andb]. change ((95 =? 95)%N) with true. cbn match. apply IH.
Qed.
Lemma digits_head digit t ds : digits digit t ds -> exists c r d, t = c :: r /\ digit c d.
Proof. intros H. inversion H; subst; eauto. Qed.

Definition exp_small (hex : bool) : N := if hex then 112%N else 101%N.
Definition exp_capital (hex : bool) : N := if hex then 80%N else 69%N.
Definition is_exponent (hex : bool) (x : text) (e : Z) : Prop :=
  (hex = false /\ x = [] /\ e = 0) \/ exponent (exp_small hex) (exp_capital hex) x e.

Lemma exp_letter (hex : bool) (c : N) : (lower c =? (if hex then 112 else 101))%N = true <-> c = exp_small hex \/ c = exp_capital hex.
Proof. destruct hex; [apply (lower_is c 112)|apply (lower_is c 101)]; split; discriminate. Qed.
Lemma letter_stops hex c : c = exp_small hex \/ c = exp_capital hex ->
  c <> 95%N /\ c <> 46%N /\ val_of hex c = None /\ uok hex c = false /\ c <> 43%N /\ c <> 45%N.
Proof.
  intros H. assert (V : val_of hex c = None) by (destruct hex, H as [->| ->]; reflexivity).
  repeat split; try (destruct hex, H as [->| ->]; discriminate); [exact V|]. now apply uok_of.
Qed.
Lemma under_other hex saw c r : saw <> SawUnder -> uok hex c = false -> c <> 95%N ->
  under_loop hex saw (c :: r) = under_loop hex SawOther r.
Proof.
  intros H U N. cbn [under_loop]. unfold uok in U. rewrite U. destruct (N.eqb_spec c 95); [contradiction|]. now destruct saw.
Qed.
Lemma sign_uok hex c : c = 43%N \/ c = 45%N -> uok hex c = false /\ c <> 95%N.
Proof. intros [->| ->]; split; try discriminate; now destruct hex. Qed.

Lemma exponent_read hex x e : is_exponent hex x e -> read_exp false hex x = Some (e, []) /\
  (stops (val_of hex) hex x /\ forall r, x <> 46%N :: r) /\
  forall saw, saw <> SawUnder -> under_loop hex saw x = true.
Proof.
  intros [(-> & -> & ->)|(l & sg & u & ds & neg & -> & Hl & Hsg & Hu & ->)].
  { split; [reflexivity|]. split; [split; [exact I|discriminate]|]. intros [] H; auto; congruence. }
  destruct (letter_stops hex l Hl) as (A & A' & B & C & _ & _).
  destruct (digits_head _ _ _ Hu) as (c & r & d & Eu & Hd).
  split; [|split].
  - unfold read_exp. cbn [app]. apply exp_letter in Hl. rewrite Hl.
    rewrite (strip_sign_app sg neg u Hsg).
    + rewrite Eu. apply dec_val_spec in Hd. rewrite Hd, <- Eu. rewrite (exp_digits_of u ds Hu). now destruct neg.
    + intros c' r' E. rewrite Eu in E. injection E as <- <-. destruct Hd. split; lia.
  - cbn [stops]. split; [now repeat split|]. intros r'. congruence.
  - intros saw Hs. rewrite (under_other hex saw l) by auto.
    assert (U : forall s, under_loop hex s u = true).
    { intros s. pattern u at 1. rewrite <- (app_nil_r u). rewrite (under_digits dec_val dec_digit hex dec_val_spec (dec_uok hex) u ds Hu s []). reflexivity. }
    destruct neg; cbn in Hsg; [subst sg|destruct Hsg as [->| ->]]; cbn [app]; auto;
      (rewrite under_other; [apply U|discriminate| |discriminate]; now destruct hex).
Qed.

Lemma read_exp_inv hex rest e saw : read_exp false hex rest = Some (e, []) -> saw <> SawUnder -> under_loop hex saw rest = true ->
  is_exponent hex rest e.
Proof.
  intros H Hs U. unfold read_exp in H. destruct rest as [|c r].
  { destruct hex; [discriminate|]. injection H as <-. left. auto. }
  destruct (lower c =? _)%N eqn:L; [|destruct hex; discriminate].
  apply exp_letter in L. destruct (letter_stops hex c L) as (A & _ & _ & C & _ & _).
  rewrite under_other in U by auto.
  destruct (strip_sign r) as [neg u] eqn:S. destruct (strip_sign_inv _ _ _ S) as (sg & -> & Hsg).
  assert (U' : under_loop hex SawOther u = true).
  { destruct neg; cbn in Hsg; [subst sg|destruct Hsg as [->| ->]]; cbn [app] in U; auto;
      (rewrite under_other in U; [exact U|discriminate| |discriminate]; now destruct hex). }
  destruct u as [|d u']; [discriminate|]. destruct (dec_val d) as [v|] eqn:V; [|discriminate].
  destruct (exp_digits false (d :: u') 0) as [e' rest'] eqn:X. injection H as <- ->.
  destruct (exp_digits_loose _ _ _ _ X) as (a & ds & La & Ea & ->). rewrite Ea in U'.
  pose proof (tight dec_val dec_digit hex dec_val_spec (dec_uok hex) a ds [] La I SawOther U') as T. cbn iota in T.
  rewrite app_nil_r in Ea.
  destruct T as [(Ta & _)|(T & _)]; [congruence|].
  right. exists c, sg, (d :: u'), ds, neg. rewrite Ea. repeat split; auto; now destruct neg.
Qed.

(* ------------------------------------------------------------------ *)
(** ** Whole numbers *)

Lemma no_under hex s : forall saw, existsb (N.eqb 95) s = false -> saw <> SawUnder -> under_loop hex saw s = true.
Proof.
  induction s as [|c r IH]; intros saw H Hs; [now destruct saw|].
  cbn [existsb] in H. apply orb_false_iff in H. destruct H as [N H]. cbn [under_loop].
  destruct (match dec_val c with Some _ => true | None => _ end); [apply IH; [exact H|discriminate]|].
  destruct (N.eqb_spec c 95) as [->|_]; [discriminate|]. destruct saw; try congruence; apply IH; auto; discriminate.
Qed.

(** the mantissa of the grammar, for either base *)
Definition is_mantissa (hex : bool) (t : text) (m k : Z) : Prop :=
  mantissa (digit_of hex) (base_of hex) t m k \/
  hex = true /\ exists t', t = 95%N :: t' /\ mantissa hex_digit 16 t' m k /\ forall r, t' <> 46%N :: r.

Definition start_of (hex : bool) : seen := if hex then SawDigit else SawStart.

Lemma numeral_scan hex t m k x e : is_mantissa hex t m k -> is_exponent hex x e ->
  scan (val_of hex) (base_of hex) (t ++ x) false false 0 0 = (true, m, k, x) /\
  under_loop hex (start_of hex) (t ++ x) = true.
Proof.
  intros Hm Hx. destruct (exponent_read hex x e Hx) as (_ & (Hs & Hd) & Hu).
  destruct Hm as [Hm|(-> & t' & -> & Hm & Hp)].
  - split.
    + exact (mantissa_scan (val_of hex) (digit_of hex) (base_of hex) hex (val_of_spec hex) (val_of_uok hex) (val_of_alnum hex) t m k x Hm Hs Hd).
    + destruct (mantissa_under (val_of hex) (digit_of hex) (base_of hex) hex (val_of_spec hex) (val_of_uok hex) t m k x (start_of hex) Hm)
        as (saw & Hsaw & ->); [left; destruct hex; discriminate|]. now apply Hu.
  - cbn [app scan]. change ((95 =? 95)%N) with true. cbn match. split.
    + exact (mantissa_scan hex_val hex_digit 16 true hex_val_spec hex_uok hex_alnum t' m k x Hm Hs Hd).
    + cbn [start_of under_loop]. change (dec_val 95) with (@None Z). change (hex_val 95) with (@None Z). cbn [andb].
      change ((95 =? 95)%N) with true. cbn match.
      destruct (mantissa_under hex_val hex_digit 16 true hex_val_spec hex_uok t' m k x SawUnder Hm)
        as (saw & Hsaw & ->); [now right|]. now apply Hu.
Qed.

Lemma scan_numeral hex s m k rest e : scan (val_of hex) (base_of hex) s false false 0 0 = (true, m, k, rest) ->
  under_loop hex (start_of hex) s = true -> read_exp false hex rest = Some (e, []) ->
  exists t, s = t ++ rest /\ is_mantissa hex t m k /\ is_exponent hex rest e.
Proof.
  intros H U X. destruct (scan_inv (val_of hex) (digit_of hex) (base_of hex) hex (val_of_spec hex) (val_of_uok hex) (val_of_alnum hex) s _ _ _ _ _ _ _ _ H) as (a & ds1 & La & St & C).
  assert (Dd : forall r, dead hex (46%N :: r)) by (intros r; cbn; split; [discriminate|now destruct hex]).
  assert (Dr : dead hex rest).
  { destruct rest as [|c r]; [exact I|]. destruct St as [[N V]| ->]; [|apply Dd]. split; [exact N|]. now apply uok_of. }
  assert (T := fun a ds rest L => tight (val_of hex) (digit_of hex) hex (val_of_spec hex) (val_of_uok hex) a ds rest L).
  destruct C as [(-> & Em & Ek & Hd & _)|(b & ds2 & _ & Lb & -> & Em & Ek & Hd)].
  - destruct (Hd eq_refl) as [?|Hne]; [discriminate|].
    specialize (T a ds1 rest La Dr (start_of hex) U).
    assert (G : (digits (digit_of hex) a ds1 \/ hex = true /\ exists a', a = 95%N :: a' /\ digits hex_digit a' ds1) /\ under_loop hex SawDigit rest = true).
    { destruct hex; cbn [start_of] in T; cbn iota in T.
      - destruct T as [[[[_ ?]|T]|(a' & -> & T)] V]; [contradiction|auto|]. split; [|exact V]. right. eauto.
      - destruct T as [(_ & ? & _)|[T V]]; [contradiction|]. auto. }
    destruct G as [G V]. exists a. split; [reflexivity|]. split; [|apply (read_exp_inv _ _ _ SawDigit); auto; discriminate].
    destruct G as [G|(-> & a' & -> & G)].
    + left. exists a, [], ds1, []. rewrite app_nil_r. repeat split; auto; [now right|now left].
    + right. split; [reflexivity|]. exists a'. split; [reflexivity|]. split.
      * exists a', [], ds1, []. rewrite app_nil_r. repeat split; auto; [now right|now left].
      * intros r ->. destruct (digits_head _ _ _ G) as (c & r' & d & E & Hx). injection E as <- _. apply hex_val_spec in Hx. discriminate.
  - destruct (Hd eq_refl) as [?|Hne]; [discriminate|].
    pose proof (T a ds1 (46%N :: b ++ rest) La (Dd _) (start_of hex) U) as Ta.
    assert (G : (maybe_digits (digit_of hex) a ds1 \/ hex = true /\ exists a', a = 95%N :: a' /\ digits hex_digit a' ds1) /\ under_loop hex SawOther (b ++ rest) = true).
    { destruct hex; cbn [start_of] in Ta; cbn iota in Ta.
      - destruct Ta as [Ta V]. rewrite under_point in V by discriminate. split; [|exact V].
        destruct Ta as [Ta|Ta]; auto.
      - destruct Ta as [(-> & -> & V)|[Ta V]]; rewrite under_point in V by discriminate; (split; [|exact V]); left; [left; auto|now right]. }
    destruct G as [G V]. pose proof (T b ds2 rest Lb Dr SawOther V) as Tb. cbn iota in Tb.
    assert (B : maybe_digits (digit_of hex) b ds2 /\ exists saw, saw <> SawUnder /\ under_loop hex saw rest = true).
    { destruct Tb as [(-> & -> & W)|[Tb W]]; (split; [|eexists; split; [|exact W]; discriminate]); [left; auto|now right]. }
    destruct B as (B & saw & Hs & W). exists (a ++ 46%N :: b). split; [now rewrite <- app_assoc|].
    split; [|now apply (read_exp_inv _ _ _ saw)].
    destruct G as [G|(-> & a' & -> & G)].
    + left. exists a, b, ds1, ds2. repeat split; auto.
    + right. split; [reflexivity|]. exists (a' ++ 46%N :: b). split; [reflexivity|]. split.
      * exists a', b, ds1, ds2. repeat split; auto. now right.
      * intros r E. destruct (digits_head _ _ _ G) as (c & r' & d & -> & Hx). injection E as -> _. apply hex_val_spec in Hx. discriminate.
Qed.

Lemma not_prefix s dig m k rest e : scan dec_val 10 s false false 0 0 = (dig, m, k, rest) ->
  read_exp false false rest = Some (e, []) -> under_prefix s = false.
Proof.
  intros H X. destruct s as [|c [|x r]]; try reflexivity. cbn [under_prefix].
  destruct (N.eqb_spec c 48) as [->|]; [|reflexivity]. cbn [andb].
  destruct ((lower x =? 98)%N || (lower x =? 111)%N || (lower x =? 120)%N) eqn:E; [|reflexivity]. exfalso.
  assert (Hx : (x = 98 \/ x = 66 \/ x = 111 \/ x = 79 \/ x = 120 \/ x = 88)%N).
  { apply orb_true_iff in E. destruct E as [E|E]; [apply orb_true_iff in E; destruct E as [E|E]|]; apply lower_is in E; lia. }
  assert (rest = x :: r) as ->.
  { rewrite (scan_digit dec_val 10 dec_alnum 48%N 0) in H by reflexivity.
    cbn [scan] in H. repeat destruct Hx as [->|Hx]; [..|subst x]; cbn in H; congruence. }
  repeat destruct Hx as [->|Hx]; [..|subst x]; cbn in X; discriminate.
Qed.

Lemma existsb_app_r {A} (f : A -> bool) a b : existsb f (a ++ b) = false -> existsb f b = false.
Proof. rewrite existsb_app. intros H. now apply orb_false_iff in H. Qed.

(** what [read_float] does, in the words of the lemmas above *)
Definition hex_start (s : text) : bool :=
  match s with c :: x :: _ :: _ => (c =? 48)%N && (lower x =? 120)%N | _ => false end.

Lemma hex_start_inv s : hex_start s = true -> exists l r, s = 48%N :: l :: r /\ r <> [] /\ (l = 120%N \/ l = 88%N) /\ (lower l =? 120)%N = true.
Proof.
  destruct s as [|c [|l [|y r]]]; cbn; try discriminate. intros H. apply andb_true_iff in H. destruct H as [A B].
  apply N.eqb_eq in A. subst c. exists l, (y :: r). repeat split; auto; [discriminate|]. apply lower_is in B; lia.
Qed.

Lemma read_float_sound t neg m base x : read_float false t = Some (neg, m, base, x) -> numeral t neg m base x.
Proof.
  unfold read_float. destruct (strip_sign t) as [neg' s] eqn:S. destruct (strip_sign_inv _ _ _ S) as (sg & -> & Hsg).
  fold (hex_start s). destruct (hex_start s) eqn:Hh; intros H.
  - destruct (hex_start_inv s Hh) as (l & r & -> & _ & Hl & Hl'). cbn [skipn] in H.
    destruct (scan hex_val 16 r false false 0 0) as [[[dig m'] k] rest] eqn:Sc. destruct dig; [|discriminate]. cbn [negb] in H.
    destruct (read_exp false true rest) as [[e rest']|] eqn:X; [|discriminate]. destruct rest' as [|]; [|discriminate].
    destruct (_ && _)%bool eqn:U; [discriminate|]. injection H as <- <- <- <-.
    assert (V : under_loop true SawDigit r = true).
    { apply andb_false_iff in U. destruct U as [U|U].
      - apply existsb_app_r in U. apply no_under; [|discriminate]. now do 2 (apply orb_false_iff in U; destruct U as [_ U]).
      - apply negb_false_iff in U. unfold under_ok in U. rewrite S in U. cbn [snd under_prefix skipn] in U.
        rewrite Hl' in U. rewrite !orb_true_r in U. exact U. }
    destruct (scan_numeral true r m' k rest e Sc V X) as (u & -> & Hm & Hx).
    apply num_hex; auto.
    + destruct Hm as [Hm|(_ & Hm)]; auto.
    + destruct Hx as [(? & _)|Hx]; [discriminate|exact Hx].
  - destruct (scan dec_val 10 s false false 0 0) as [[[dig m'] k] rest] eqn:Sc. destruct dig; [|discriminate]. cbn [negb] in H.
    destruct (read_exp false false rest) as [[e rest']|] eqn:X; [|discriminate]. destruct rest' as [|]; [|discriminate].
    destruct (_ && _)%bool eqn:U; [discriminate|]. injection H as <- <- <- <-.
    assert (V : under_loop false SawStart s = true).
    { apply andb_false_iff in U. destruct U as [U|U].
      - apply existsb_app_r in U. apply no_under; [exact U|discriminate].
      - apply negb_false_iff in U. unfold under_ok in U. rewrite S in U. cbn [snd] in U.
        rewrite (not_prefix s _ _ _ _ _ Sc X) in U. exact U. }
    destruct (scan_numeral false s m' k rest e Sc V X) as (u & -> & Hm & Hx).
    apply num_decimal; auto.
    + destruct Hm as [Hm|(? & _)]; [exact Hm|discriminate].
    + destruct Hx as [(_ & ?)|Hx]; auto.
Qed.

Lemma mantissa_head digit base t m k x : mantissa digit base t m k -> exists c r, t ++ x = c :: r /\ (c = 46%N \/ exists d, digit c d).
Proof.
  intros (a & b & ds1 & ds2 & Ha & Hb & Hne & Ht & _).
  destruct Ha as [[-> ->]|Ha].
  - destruct Ht as [[-> ->]| ->]; [|exists 46%N; eexists; split; [reflexivity|now left]].
    exfalso. destruct Hb as [[_ ->]|Hb]; [now apply Hne|inversion Hb].
  - destruct (digits_head _ _ _ Ha) as (c & r & d & -> & Hd).
    destruct Ht as [[-> _]| ->]; exists c; eexists; (split; [reflexivity|]); right; now exists d.
Qed.

Lemma read_float_complete t neg m base x : numeral t neg m base x -> read_float false t = Some (neg, m, base, x).
Proof.
  intros [sg u y neg' m' k e Hsg Hm Hx|sg l u y neg' m' k e Hsg Hl Hm Hx].
  - destruct (mantissa_head _ _ _ _ _ y Hm) as (c & r & Ec & Hc).
    assert (Hc' : c <> 43%N /\ c <> 45%N) by (destruct Hc as [->|(d & Hd)]; [split; discriminate|destruct Hd; split; lia]).
    assert (S : strip_sign (sg ++ u ++ y) = (neg', u ++ y)).
    { apply strip_sign_app; [exact Hsg|]. intros c' r' E. rewrite Ec in E. injection E as <- <-. exact Hc'. }
    assert (Hx' : is_exponent false y e) by (destruct Hx as [[-> ->]|Hx]; [left; auto|right; exact Hx]).
    destruct (numeral_scan false u m' k y e (or_introl Hm) Hx') as [Sc U].
    destruct (exponent_read false y e Hx') as (X & _).
    pose proof (not_prefix _ _ _ _ _ _ Sc X) as P.
    assert (Hh : hex_start (u ++ y) = false).
    { destruct (hex_start (u ++ y)) eqn:E; [|reflexivity]. destruct (hex_start_inv _ E) as (l & r' & E' & _ & _ & L).
      rewrite E' in P. cbn [under_prefix] in P. rewrite L in P. now rewrite !orb_true_r in P. }
    unfold read_float. rewrite S. fold (hex_start (u ++ y)). rewrite Hh.
    change (scan dec_val 10 (u ++ y) false false 0 0 = (true, m', k, y)) in Sc. rewrite Sc. cbn [negb]. rewrite X.
    unfold under_ok. rewrite S. cbn [snd]. rewrite P. cbn [start_of] in U. rewrite U. cbn [negb]. now rewrite andb_false_r.
  - assert (S : strip_sign (sg ++ 48%N :: l :: u ++ y) = (neg', 48%N :: l :: u ++ y)).
    { apply strip_sign_app; [exact Hsg|]. intros c' r' E. injection E as <- <-. split; discriminate. }
    assert (L : (lower l =? 120)%N = true) by (destruct Hl as [->| ->]; reflexivity).
    assert (Hx' : is_exponent true y e) by (right; exact Hx).
    assert (Hm' : is_mantissa true u m' k) by (destruct Hm as [Hm|Hm]; [now left|now right]).
    destruct (numeral_scan true u m' k y e Hm' Hx') as [Sc U].
    destruct (exponent_read true y e Hx') as (X & _).
    assert (Hh : hex_start (48%N :: l :: u ++ y) = true).
    { cbn [hex_start]. destruct (u ++ y) eqn:E; [|exact L]. destruct u; [|discriminate]. cbn in E. subst y. discriminate X. }
    unfold read_float. rewrite S. fold (hex_start (48%N :: l :: u ++ y)). rewrite Hh. cbn [skipn].
    change (scan hex_val 16 (u ++ y) false false 0 0 = (true, m', k, y)) in Sc. rewrite Sc. cbn [negb]. rewrite X.
    unfold under_ok. rewrite S. cbn [snd under_prefix skipn]. rewrite L, !orb_true_r. cbn [start_of] in U.
    change ((48 =? 48)%N) with true. cbn [andb]. rewrite U. cbn [negb]. now rewrite andb_false_r.
Qed.

(* ------------------------------------------------------------------ *)
(** ** Words *)

Lemma small_lower t : map small t = map lower t. Proof. reflexivity. Qed.

Lemma special_word t f : special t = Some f <-> word t f.
Proof.
  unfold special, eq_nocase. split.
  - destruct t as [|c r]; [discriminate|].
    destruct (N.eqb_spec c 43) as [->|N1].
    { destruct (_ || _)%bool eqn:E; [|discriminate]. intros [= <-]. apply orb_true_iff in E. rewrite !text_eqb_eq in E.
      apply (word_inf _ [43%N] false r); cbn; auto. }
    destruct (N.eqb_spec c 45) as [->|N2].
    { destruct (_ || _)%bool eqn:E; [|discriminate]. intros [= <-]. apply orb_true_iff in E. rewrite !text_eqb_eq in E.
      apply (word_inf _ [45%N] true r); cbn; auto. }
    destruct (lower c =? 110)%N.
    { destruct (text_eqb _ _) eqn:E; [|discriminate]. intros [= <-]. apply text_eqb_eq in E. now apply word_nan. }
    destruct (lower c =? 105)%N; [|discriminate].
    destruct (_ || _)%bool eqn:E; [|discriminate]. intros [= <-]. apply orb_true_iff in E. rewrite !text_eqb_eq in E.
    apply (word_inf _ [] false (c :: r)); cbn; auto.
  - intros [u H|u sg neg r -> Hsg H].
    + destruct u as [|c u]; [discriminate|]. rewrite small_lower in H. rewrite H. cbn in H. injection H as Hc Hr.
      assert (c <> 43%N /\ c <> 45%N) as [A B] by (split; intros ->; discriminate).
      destruct (N.eqb_spec c 43); [contradiction|]. destruct (N.eqb_spec c 45); [contradiction|]. rewrite Hc. reflexivity.
    + assert (I : (text_eqb (map lower r) (T "inf") || text_eqb (map lower r) (T "infinity"))%bool = true)
        by (rewrite small_lower in H; apply orb_true_iff; rewrite !text_eqb_eq; exact H).
      destruct neg; cbn in Hsg; [subst sg|destruct Hsg as [->| ->]]; cbn [app].
      * rewrite I. reflexivity.
      * destruct r as [|c r]; [destruct H; discriminate|]. rewrite small_lower in H.
        assert (Hc : lower c = 105%N) by (destruct H as [H|H]; cbn in H; injection H; auto).
        assert (c <> 43%N /\ c <> 45%N) as [A B] by (split; intros ->; discriminate).
        destruct (N.eqb_spec c 43); [contradiction|]. destruct (N.eqb_spec c 45); [contradiction|]. rewrite Hc.
        change ((105 =? 110)%N) with false. change ((105 =? 105)%N) with true. cbn match. now rewrite I.
      * rewrite I. reflexivity.
Qed.

Lemma read_float_letter t neg c r : strip_sign t = (neg, c :: r) -> (58 <= c)%N -> c <> 95%N -> read_float false t = None.
Proof.
  intros S Hc N. unfold read_float. rewrite S. fold (hex_start (c :: r)).
  assert (Hh : hex_start (c :: r) = false).
  { destruct (hex_start (c :: r)) eqn:E; [|reflexivity]. destruct (hex_start_inv _ E) as (l & r' & [= -> _] & _). lia. }
  rewrite Hh. cbn [scan]. destruct (N.eqb_spec c 95); [contradiction|]. destruct (N.eqb_spec c 46); [lia|].
  rewrite dec_none by lia. reflexivity.
Qed.
Lemma word_read t f : word t f -> read_float false t = None.
Proof.
  intros [u H|u sg neg r -> Hsg H].
  - destruct u as [|c u]; [discriminate|]. cbn in H. injection H as Hc Hr. unfold small in Hc.
    assert (C : (c = 110 \/ c = 78)%N) by (destruct ((65 <=? c)%N && (c <=? 90)%N) eqn:E; lia).
    apply (read_float_letter _ false c u); [|lia|lia]. destruct C as [->| ->]; reflexivity.
  - destruct r as [|c r]; [destruct H; discriminate|].
    assert (Hc : small c = 105%N) by (destruct H as [H|H]; cbn in H; injection H; auto). unfold small in Hc.
    assert (C : (c = 105 \/ c = 73)%N) by (destruct ((65 <=? c)%N && (c <=? 90)%N) eqn:E; lia).
    apply (read_float_letter _ neg c r); [|lia|lia]. apply strip_sign_app; [exact Hsg|].
    intros c' r' [= <- <-]. lia.
Qed.

(** ** Rounding *)

Lemma rhe_nearest n D q : 0 < D -> Z.abs (rhe n D * D - n) <= Z.abs (q * D - n) /\
  (Z.abs (rhe n D * D - n) = Z.abs (q * D - n) -> rhe n D <> q -> Z.even (rhe n D) = true).
Proof.
  intros HD. pose proof (rhe_bounds n D HD) as B.
  assert (E : q <> rhe n D -> D <= Z.abs (q * D - rhe n D * D)).
  { intros Hq. rewrite <- Z.mul_sub_distr_r, Z.abs_mul, (Z.abs_eq D) by lia. nia. }
  split.
  - destruct (Z.eq_dec q (rhe n D)) as [->|Hq]; [lia|]. specialize (E Hq). lia.
  - intros Heq Hq. specialize (E (not_eq_sym Hq)). assert (T : 2 * Z.abs (rhe n D * D - n) = D) by lia. clear E Heq Hq B q.
    unfold rhe in *. pose proof (Z.div_mod n D ltac:(lia)) as DM. pose proof (Z.mod_pos_bound n D HD) as MB.
    set (q := n / D) in *. set (r := n mod D) in *.
    destruct (2 * r <? D) eqn:L1; [exfalso; replace (q * D - n) with (- r) in T by lia; lia|].
    destruct (D <? 2 * r) eqn:L2; [exfalso; replace ((q + 1) * D - n) with (D - r) in T by lia; lia|].
    destruct (Z.even q) eqn:Ev; [exact Ev|]. rewrite Z.even_add, Ev. reflexivity.
Qed.

Lemma rnd_nearest n d v : 0 < d -> 0 <= n -> representable v ->
  Z.abs (rnd n d * d - n) <= Z.abs (v * d - n) /\
  (Z.abs (rnd n d * d - n) = Z.abs (v * d - n) -> rnd n d <> v -> Z.even (rhe n (d * 2 ^ ulp_exp n d)) = true).
Proof.
  intros Hd Hn (m & e & -> & Hm & He). unfold rnd. set (s := ulp_exp n d). pose proof (ulp_exp_nonneg n d) as Hs. fold s in Hs.
  pose proof (pow_pos s Hs) as Ps. set (q := rhe n (d * 2 ^ s)).
  destruct (Z_le_gt_dec s e) as [L|L].
  - replace (m * 2 ^ e) with (m * 2 ^ (e - s) * 2 ^ s) by (rewrite <- Z.mul_assoc, <- Z.pow_add_r by lia; do 2 f_equal; lia).
    set (u := m * 2 ^ (e - s)). destruct (rhe_nearest n (d * 2 ^ s) u ltac:(nia)) as [A B]. fold q in A, B.
    replace (q * 2 ^ s * d) with (q * (d * 2 ^ s)) by ring. replace (u * 2 ^ s * d) with (u * (d * 2 ^ s)) by ring.
    split; [exact A|]. intros E N. apply B; [exact E|]. intros ->. now apply N.
  - (* a multiple of 2^s lies between *)
    assert (Hs0 : 0 < ulp_exp n d) by (fold s; lia).
    pose proof (ulp_big n d Hd Hn Hs0) as Hb. fold s in Hb.
    assert (Hv : m * 2 ^ e < 2 ^ (s + 52)).
    { apply Z.lt_le_trans with (2 ^ 53 * 2 ^ e); [apply Z.mul_lt_mono_pos_r; [apply pow_pos; lia|lia]|].
      rewrite <- Z.pow_add_r by lia. apply Z.pow_le_mono_r; lia. }
    assert (Hq : 2 ^ (s + 52) * d <= n) by (pose proof (Z.mul_div_le n d Hd); nia).
    destruct (rhe_nearest n (d * 2 ^ s) (2 ^ 52) ltac:(nia)) as [A _]. fold q in A.
    replace (q * 2 ^ s * d) with (q * (d * 2 ^ s)) by ring.
    assert (E : 2 ^ 52 * (d * 2 ^ s) = 2 ^ (s + 52) * d) by (rewrite (Z.pow_add_r 2 s 52) by lia; ring).
    rewrite E in A. assert (m * 2 ^ e * d < 2 ^ (s + 52) * d) by (apply Z.mul_lt_mono_pos_r; lia).
    split; [lia|]. intros; exfalso; lia.
Qed.

Lemma even_to_N z : 0 <= z -> N.even (Z.to_N z) = Z.even z.
Proof.
  intros H. rewrite <- (Z2N.id z H) at 2.
  destruct (Z.to_N z) as [|[p|p|]]; reflexivity.
Qed.
Lemma pack_even (neg : bool) mag : 0 <= mag -> N.even (Z.to_N (if neg then 2 ^ 63 + mag else mag)) = Z.even mag.
Proof. intros H. destruct neg; rewrite even_to_N by lia; [|reflexivity]. rewrite Z.even_add. change (Z.even (2 ^ 63)) with true. now destruct (Z.even mag). Qed.

Lemma rnd_even neg n d : 0 < d -> 0 <= n -> rnd n d < f_max ->
  Z.even (rhe n (d * 2 ^ ulp_exp n d)) = true -> N.even (f_pack neg (rnd n d)) = true.
Proof.
  intros Hd Hn Hmax Ev. pose proof (rnd_nonneg n d Hd Hn) as V0. pose proof (rnd_upper n d Hd Hn) as Vu.
  pose proof (rnd_lower n d Hd Hn) as Vl. pose proof (ulp_exp_nonneg n d) as Hs.
  unfold f_pack. destruct (Z.leb_spec f_max (rnd n d)) as [L|L]; [exfalso; apply (Z.lt_irrefl f_max); eapply Z.le_lt_trans; eauto|]. clear Hmax L.
  unfold rnd in *. set (s := ulp_exp n d) in *. set (q := rhe n (d * 2 ^ s)) in *. pose proof (pow_pos s Hs) as Ps.
  destruct (Z.ltb_spec (q * 2 ^ s) (2 ^ 52)) as [A|A].
  - rewrite pack_even by exact V0. rewrite Z.even_mul, Ev. reflexivity.
  - assert (Q1 : q <= 2 ^ 53) by (rewrite (Z.pow_add_r 2 s 53) in Vu by lia; nia).
    assert (Q2 : 2 ^ 52 <= q).
    { destruct (Z.eq_dec s 0) as [E|E]; [rewrite E in A; lia|]. specialize (Vl ltac:(lia)). rewrite (Z.pow_add_r 2 s 52) in Vl by lia. nia. }
    destruct (Z.eq_dec q (2 ^ 53)) as [E|E].
    + rewrite E. assert (Lg : Z.log2 (2 ^ 53 * 2 ^ s) = s + 53) by (rewrite <- Z.pow_add_r by lia; rewrite Z.log2_pow2 by lia; lia).
      rewrite Lg. replace (s + 53 - 52) with (s + 1) by lia.
      replace (2 ^ 53 * 2 ^ s / 2 ^ (s + 1)) with (2 ^ 52).
      * rewrite pack_even by lia. rewrite Z.sub_diag, Z.add_0_r, Z.even_mul. apply orb_true_r.
      * rewrite (Z.pow_add_r 2 s 1) by lia. apply (Z.div_unique_exact _ (2 ^ s * 2 ^ 1)); [lia|]. change (2 ^ 53) with (2 ^ 52 * 2 ^ 1). ring.
    + assert (Lg : Z.log2 (q * 2 ^ s) = s + 52).
      { apply Z.log2_unique; [lia|]. rewrite Z.pow_succ_r by lia. rewrite (Z.pow_add_r 2 s 52) by lia.
        change (2 ^ 53) with (2 * 2 ^ 52) in *. split; nia. }
      rewrite Lg. replace (s + 52 - 52) with s by lia. rewrite Z.div_mul by lia.
      rewrite pack_even by (change (2 ^ 52) with 4503599627370496 in *; nia).
      rewrite Z.even_add, Z.even_sub, Ev, Z.even_mul. change (Z.even (2 ^ 52)) with true. now rewrite orb_true_r.
Qed.

Definition f_mid : Z := f_max - 2 ^ 2044.
Lemma mid_rounds : rnd f_mid 1 = f_max. Proof. vm_compute. reflexivity. Qed.
Lemma mid_units : f_mid = (2 ^ 1024 - 2 ^ 970) * f_one. Proof. vm_compute. reflexivity. Qed.
Definition f_top : Z := f_max - 2 ^ 2045.
Lemma top_representable : representable f_top.
Proof. exists (2 ^ 53 - 1), 2045. split; [vm_compute; reflexivity|]. split; [split; [discriminate|reflexivity]|discriminate]. Qed.
Lemma mid_top : 2 * f_mid = f_max + f_top. Proof. vm_compute. reflexivity. Qed.
Lemma top_max : f_top < f_max. Proof. reflexivity. Qed.
Lemma mid_pos : 0 <= f_mid. Proof. discriminate. Qed.

Lemma rnd_too_large n d : 0 < d -> 0 <= n -> f_max <= rnd n d <-> f_mid * d <= n.
Proof.
  intros Hd Hn. split.
  - intros H. destruct (Z_le_gt_dec (f_mid * d) n) as [L|L]; [exact L|exfalso].
    destruct (rnd_nearest n d f_top Hd Hn top_representable) as [B _].
    pose proof mid_top as MT. pose proof top_max as TM. pose proof mid_pos as MP.
    destruct (Z_le_gt_dec (f_top * d) n) as [G|G].
    + assert (E : f_max * d <= rnd n d * d) by (apply Z.mul_le_mono_nonneg_r; [lia|exact H]).
      assert (E2 : 2 * (f_mid * d) = f_max * d + f_top * d) by (rewrite Z.mul_assoc, MT; ring).
      assert (E3 : f_top * d < f_max * d) by (apply Z.mul_lt_mono_pos_r; assumption).
      set (x := f_mid * d) in *. set (y := f_max * d) in *. set (z := f_top * d) in *. set (w := rnd n d * d) in *.
      clearbody x y z w. lia.
    + assert (R : rnd n d <= f_top).
      { rewrite <- (rnd_exact f_top 1 ltac:(lia) top_representable). apply rnd_mono; [exact Hd|reflexivity|exact Hn|discriminate|].
        rewrite !Z.mul_1_r. apply Z.lt_le_incl, Z.gt_lt, G. }
      apply (Z.lt_irrefl f_max). eapply Z.le_lt_trans; [eapply Z.le_trans; [exact H|exact R]|exact TM].
  - intros H. rewrite <- mid_rounds. apply rnd_mono; [reflexivity|exact Hd|exact mid_pos|exact Hn|]. now rewrite Z.mul_1_r.
Qed.

Lemma too_large_rnd n d : 0 < d -> 0 <= n -> f_max <= rnd (n * f_one) d <-> too_large n d.
Proof.
  intros Hd Hn. pose proof f_one_pos as O. rewrite rnd_too_large; [|exact Hd|apply Z.mul_nonneg_nonneg; [exact Hn|apply Z.lt_le_incl; exact O]].
  unfold too_large. rewrite mid_units. set (M := 2 ^ 1024 - 2 ^ 970). clearbody M.
  replace (M * f_one * d) with (M * d * f_one) by ring. symmetry. apply Z.mul_le_mono_pos_r. exact O.
Qed.

Lemma in_base_nonneg base ds : 0 <= base -> Forall (fun d => 0 <= d) ds -> 0 <= in_base base ds.
Proof.
  intros Hb H. unfold in_base. assert (G : forall v, 0 <= v -> 0 <= fold_left (fun v d => v * base + d) ds v).
  { induction H as [|d ds Hd _ IH]; intros v Hv; [exact Hv|]. cbn. apply IH. nia. }
  now apply G.
Qed.
Lemma digits_nonneg (digit : N -> Z -> Prop) t ds : (forall c d, digit c d -> 0 <= d) -> digits digit t ds -> Forall (fun d => 0 <= d) ds.
Proof. intros H. induction 1; constructor; eauto. Qed.
Lemma mantissa_nonneg (digit : N -> Z -> Prop) base t m k : 0 <= base -> (forall c d, digit c d -> 0 <= d) -> mantissa digit base t m k -> 0 <= m.
Proof.
  intros Hb Hd (a & b & ds1 & ds2 & Ha & Hb' & _ & _ & -> & _). apply in_base_nonneg; [exact Hb|].
  assert (G : forall t ds, maybe_digits digit t ds -> Forall (fun d => 0 <= d) ds)
    by (intros u ds [[_ ->]|H]; [constructor|eapply digits_nonneg; eauto]).
  apply Forall_app. split; eapply G; eauto.
Qed.
Lemma numeral_nonneg t neg m base x : numeral t neg m base x -> 0 <= m /\ (base = 10 \/ base = 2).
Proof.
  assert (D : forall c d, dec_digit c d -> 0 <= d) by (intros c d [? ->]; lia).
  assert (X : forall c d, hex_digit c d -> 0 <= d) by (intros c d; unfold hex_digit, dec_digit; lia).
  intros [sg u y neg' m' k e Hsg Hm Hx|sg l u y neg' m' k e Hsg Hl Hm Hx]; (split; [|auto]).
  - apply (mantissa_nonneg dec_digit 10 u m' k); auto; lia.
  - destruct Hm as [Hm|(u' & _ & Hm & _)]; eapply (mantissa_nonneg hex_digit 16); eauto; lia.
Qed.

(** ** The limit on exponents does not matter for texts of up to 2000 characters *)

Definition near (e e' : Z) : Prop := e = e' \/ 10000 <= e /\ 10000 <= e'.
Lemma exp_limit s : forall e e', near e e' -> 0 <= e -> exists E E' rest,
  exp_digits false s e = (E, rest) /\ exp_digits true s e' = (E', rest) /\ near E E'.
Proof.
  induction s as [|c r IH]; intros e e' H He; cbn [exp_digits]; [eauto 6|].
  destruct (c =? 95)%N; [now apply IH|]. destruct (dec_val c) as [d|] eqn:V; [|eauto 6]. cbn [andb].
  apply dec_val_spec in V. destruct V as [Vc ->]. apply IH; [|lia]. unfold near in *.
  destruct (Z.leb_spec 10000 e'); lia.
Qed.
Lemma read_exp_limit hex rest :
  match read_exp false hex rest, read_exp true hex rest with
  | None, None => True
  | Some (e, r), Some (e', r') => r = r' /\ (near e e' \/ near (- e) (- e'))
  | _, _ => False
  end.
Proof.
  unfold read_exp. destruct rest as [|c r]; [destruct hex; [exact I|]; split; [reflexivity|left; now left]|].
  destruct (lower c =? _)%N; [|destruct hex; [exact I|]; split; [reflexivity|left; now left]].
  destruct (strip_sign r) as [neg u]. destruct u as [|d u]; [exact I|]. destruct (dec_val d); [|exact I].
  destruct (exp_limit (d :: u) 0 0 (or_introl eq_refl) ltac:(lia)) as (E & E' & rest & -> & -> & H).
  split; [reflexivity|]. destruct neg; [right; now rewrite !Z.opp_involutive|now left].
Qed.

Lemma scan_size val base s : (forall c d, val c = Some d -> 0 <= d < base) -> base <= 16 ->
  forall dot dig m k dig' m' k' rest, scan val base s dot dig m k = (dig', m', k', rest) ->
  0 <= m -> 0 <= m' /\ m' + 1 <= (m + 1) * 16 ^ zlen s /\ k <= k' <= k + zlen s.
Proof.
  intros Hv Hb. assert (P : forall n, 0 < 16 ^ zlen (n : text)) by (intros; apply Z.pow_pos_nonneg; unfold zlen; lia).
  induction s as [|c r IH]; intros dot dig m k dig' m' k' rest H Hm.
  { injection H as <- <- <- <-. unfold zlen. cbn. lia. }
  assert (E : zlen (c :: r) = Z.succ (zlen r)) by (unfold zlen; cbn [length]; lia).
  assert (E' : 16 ^ zlen (c :: r) = 16 * 16 ^ zlen r) by (rewrite E, Z.pow_succ_r by (unfold zlen; lia); reflexivity).
  specialize (P r). assert (L0 : 0 <= zlen r) by (unfold zlen; lia). rewrite E', E. cbn [scan] in H.
  destruct (c =? 95)%N; [destruct (IH _ _ _ _ _ _ _ _ H Hm) as (A & B & C); repeat split; nia|].
  destruct (c =? 46)%N.
  - destruct dot; [injection H as <- <- <- <-; repeat split; nia|].
    destruct (IH _ _ _ _ _ _ _ _ H Hm) as (A & B & C); repeat split; nia.
  - destruct (val c) as [d|] eqn:V; [|injection H as <- <- <- <-; repeat split; nia].
    specialize (Hv c d V). assert (Hm2 : 0 <= m * base + d) by nia.
    destruct (IH _ _ _ _ _ _ _ _ H Hm2) as (A & B & C). split; [exact A|]. split.
    + eapply Z.le_trans; [exact B|]. replace ((m + 1) * (16 * 16 ^ zlen r)) with ((m + 1) * 16 * 16 ^ zlen r) by ring.
      apply Z.mul_le_mono_nonneg_r; nia.
    + destruct dot; lia.
Qed.
Lemma hex_size c d : hex_val c = Some d -> 0 <= d < 16.
Proof. intros H. apply hex_val_spec in H. unfold hex_digit, dec_digit in H. lia. Qed.
Lemma dec_size c d : dec_val c = Some d -> 0 <= d < 10.
Proof. intros H. apply dec_val_spec in H. unfold dec_digit in H. lia. Qed.

Lemma read_float_limit t :
  match read_float false t, read_float true t with
  | None, None => True
  | Some (neg, m, base, x), Some (neg', m', base', x') => neg = neg' /\ m = m' /\ base = base' /\
      0 <= m < 16 ^ zlen t /\ (base = 10 \/ base = 2) /\
      exists e e' j, x = e - j /\ x' = e' - j /\ 0 <= j <= 4 * zlen t /\ (near e e' \/ near (- e) (- e'))
  | _, _ => False
  end.
Proof.
  unfold read_float. destruct (strip_sign t) as [neg s] eqn:S. destruct (strip_sign_inv _ _ _ S) as (sg & Et & _).
  fold (hex_start s). set (s' := if hex_start s then skipn 2 s else s).
  assert (Ls : zlen s' <= zlen t).
  { rewrite Et. unfold s', zlen. rewrite app_length. destruct (hex_start s); [rewrite skipn_length|]; lia. }
  destruct (scan (if hex_start s then hex_val else dec_val) (if hex_start s then 16 else 10) s' false false 0 0)
    as [[[dig m] k] rest] eqn:Sc.
  assert (Sz : 0 <= m /\ m + 1 <= (0 + 1) * 16 ^ zlen s' /\ 0 <= k <= 0 + zlen s').
  { eapply scan_size; [| |exact Sc|lia]; destruct (hex_start s); try lia; [apply hex_size|apply dec_size]. }
  assert (Mt : m < 16 ^ zlen t).
  { apply Z.lt_le_trans with (16 ^ zlen s'); [lia|]. apply Z.pow_le_mono_r; lia. }
  destruct (negb dig); [exact I|].
  pose proof (read_exp_limit (hex_start s) rest) as X.
  destruct (read_exp false (hex_start s) rest) as [[e r]|], (read_exp true (hex_start s) rest) as [[e' r']|]; try contradiction; [|exact I].
  destruct X as [-> X]. destruct r' as [|? ?]; [|exact I]. destruct (_ && _)%bool; [exact I|].
  split; [reflexivity|]. split; [reflexivity|]. split; [reflexivity|]. split; [lia|]. split; [destruct (hex_start s); auto|].
  destruct (hex_start s); [exists e, e', (4 * k)|exists e, e', k]; repeat split; auto; lia.
Qed.

Definition convert (m base x : Z) : Z := if 0 <=? x then rnd (m * base ^ x * f_one) 1 else rnd (m * f_one) (base ^ (- x)).

Lemma rnd_zero n d : 0 <= n -> 2 * n < d -> rnd n d = 0.
Proof.
  intros Hn H. unfold rnd. assert (E : ulp_exp n d = 0) by (unfold ulp_exp; rewrite (Z.div_small n d) by lia; reflexivity).
  rewrite E, Z.pow_0_r, !Z.mul_1_r. unfold rhe. rewrite Z.div_small, Z.mod_small by lia.
  destruct (Z.ltb_spec (2 * n) d); [reflexivity|lia].
Qed.
Lemma base_pow base x : (base = 10 \/ base = 2) -> 0 <= x -> 2 ^ x <= base ^ x.
Proof. intros [->| ->] H; [apply Z.pow_le_mono_l; lia|lia]. Qed.

Lemma convert_huge m base x : 1 <= m -> (base = 10 \/ base = 2) -> 1024 <= x -> f_max <= convert m base x.
Proof.
  intros Hm Hb Hx. unfold convert. destruct (Z.leb_spec 0 x); [|lia].
  pose proof (base_pow base x Hb ltac:(lia)) as P. assert (Q : 2 ^ 1024 <= 2 ^ x) by (apply Z.pow_le_mono_r; lia).
  assert (B : 0 < 2 ^ 970) by (apply pow_pos; lia). assert (B' : 0 < 2 ^ 1024) by (apply pow_pos; lia).
  set (a := 2 ^ 1024) in *. set (b := 2 ^ 970) in *. set (c := 2 ^ x) in *. set (w := base ^ x) in *.
  assert (W : w <= m * w) by nia.
  apply too_large_rnd; [lia|nia|]. unfold too_large. fold a b. lia.
Qed.
Lemma convert_tiny m base x : 0 <= m < 2 ^ 8000 -> (base = 10 \/ base = 2) -> x <= -10000 -> convert m base x = 0.
Proof.
  intros Hm Hb Hx. unfold convert. destruct (Z.leb_spec 0 x); [lia|].
  pose proof (base_pow base (- x) Hb ltac:(lia)) as P. assert (Q : 2 ^ 10000 <= 2 ^ (- x)) by (apply Z.pow_le_mono_r; lia).
  pose proof f_one_pos as O. assert (E : 2 ^ 10000 = 2 ^ 8000 * (f_one * 2 ^ 926)) by (unfold f_one; rewrite <- !Z.pow_add_r by lia; reflexivity).
  assert (T : 2 <= 2 ^ 926) by (change 2 with (2 ^ 1) at 1; apply Z.pow_le_mono_r; lia).
  assert (A : m * f_one < 2 ^ 8000 * f_one) by (apply Z.mul_lt_mono_pos_r; [exact O|apply Hm]).
  set (M := 2 ^ 8000) in *. set (W := 2 ^ 926) in *. set (o := f_one) in *. set (Y := 2 ^ 10000) in *.
  clearbody M W o Y. apply rnd_zero; [nia|]. assert (2 * (M * o) <= M * (o * W)) by nia. lia.
Qed.

Lemma parse_limit t : zlen t <= 2000 -> parse_float_full t =
  match special t with
  | Some f => Some f
  | None =>
      match read_float false t with
      | None => None
      | Some (neg, m, base, x) => if f_max <=? convert m base x then None else Some (f_pack neg (convert m base x))
      end
  end.
Proof.
  intros L. unfold parse_float_full. destruct (special t); [reflexivity|].
  pose proof (read_float_limit t) as H.
  destruct (read_float false t) as [[[[neg m] base] x]|], (read_float true t) as [[[[neg' m'] base'] x']|]; try contradiction; [|reflexivity].
  destruct H as (<- & <- & <- & Hm & Hb & e & e' & j & -> & -> & Hj & Hn). fold (convert m base (e' - j)).
  assert (Hm' : 0 <= m < 2 ^ 8000).
  { split; [lia|]. apply Z.lt_le_trans with (16 ^ zlen t); [lia|]. change 16 with (2 ^ 4).
    rewrite <- Z.pow_mul_r by (unfold zlen; lia). apply Z.pow_le_mono_r; lia. }
  destruct (Z.eq_dec m 0) as [->|M0].
  { assert (Z0 : forall y, convert 0 base y = 0).
    { intros y. unfold convert. cbn [Z.mul]. assert (0 < base ^ Z.abs y) by (apply Z.pow_pos_nonneg; lia).
      destruct (Z.leb_spec 0 y); apply rnd_zero; try lia; replace (- y) with (Z.abs y) by lia; lia. }
    now rewrite !Z0. }
  unfold near in Hn. assert (C : e = e' \/ (10000 <= e /\ 10000 <= e') \/ (e <= -10000 /\ e' <= -10000)) by lia.
  destruct C as [->|[[A B]|[A B]]]; [reflexivity| |].
  - assert (H1 : f_max <= convert m base (e' - j)) by (apply convert_huge; auto; lia).
    assert (H2 : f_max <= convert m base (e - j)) by (apply convert_huge; auto; lia).
    apply Z.leb_le in H1, H2. now rewrite H1, H2.
  - rewrite !convert_tiny by (auto; lia). reflexivity.
Qed.

(** the parser in terms of the specification *)
Lemma parse_numeral t neg m base x n d : zlen t <= 2000 -> numeral t neg m base x -> fraction m base x = (n, d) ->
  0 <= n /\ 0 < d /\
  parse_float_full t = if f_max <=? rnd (n * f_one) d then None else Some (f_pack neg (rnd (n * f_one) d)).
Proof.
  intros Lt H F. pose proof (numeral_nonneg _ _ _ _ _ H) as [Hm Hb].
  assert (P : forall y, 0 <= y -> 0 < base ^ y) by (intros y Hy; destruct Hb as [->| ->]; apply Z.pow_pos_nonneg; lia).
  pose proof (read_float_complete _ _ _ _ _ H) as R. rewrite (parse_limit t Lt).
  destruct (special t) as [f|] eqn:S; [apply special_word, word_read in S; congruence|].
  rewrite R. unfold convert. unfold fraction in F. destruct (Z.leb_spec 0 x) as [L|L]; injection F as <- <-.
  - split; [apply Z.mul_nonneg_nonneg; [exact Hm|apply Z.lt_le_incl, P; exact L]|]. split; [lia|]. reflexivity.
  - split; [exact Hm|]. split; [apply P; lia|]. reflexivity.
Qed.

Lemma parse_nearest neg n d : 0 <= n -> 0 < d -> rnd (n * f_one) d < f_max -> nearest (f_pack neg (rnd (n * f_one) d)) neg n d.
Proof.
  intros Hn Hd Hv. pose proof f_one_pos as O.
  assert (Hno : 0 <= n * f_one) by (apply Z.mul_nonneg_nonneg; [exact Hn|apply Z.lt_le_incl; exact O]).
  pose proof (rnd_representable _ d Hd Hno) as R. destruct (f_pack_spec neg _ R) as (_ & S & N & M & I).
  split; [exact N|]. split; [rewrite I; now apply Z.leb_gt|]. split; [exact S|]. intros g _ _.
  unfold off. rewrite M, Z.min_l by (apply Z.lt_le_incl; exact Hv).
  destruct (rnd_nearest (n * f_one) d (f_mag g) Hd Hno (f_mag_representable g)) as [A B]. split; [exact A|].
  intros E D. apply rnd_even; auto.
Qed.
