(** Proofs about the JSON reader: what it accepts and what it yields is what JsonSpec says. *)
From Verif Require Import GoBase GoBaseFacts GoFmt GoUtf8 GoUtf8Facts NumberSpec NumberProofs AuthModel JsonSpec JsonModel.
Local Open Scope N_scope.
Local Open Scope bool_scope.

Lemma is_space_spec c : is_space c = true <-> c = 32 \/ c = 9 \/ c = 10 \/ c = 13.
Proof. unfold is_space. rewrite !orb_true_iff, !N.eqb_eq. tauto. Qed.
Lemma skip_ws_white w t : white w -> skip_ws (w ++ t) = skip_ws t.
Proof.
  induction w as [|c w IH]; intro H; cbn [app skip_ws]; [reflexivity|]. inversion H; subst.
  rewrite (proj2 (is_space_spec c)) by assumption. auto.
Qed.
Lemma skip_ws_split b : exists w, white w /\ b = w ++ skip_ws b.
Proof.
  induction b as [|c b (w & Hw & E)]; cbn [skip_ws]; [exists []; split; [constructor|reflexivity]|].
  destruct (is_space c) eqn:S.
  - exists (c :: w). split; [constructor; [now apply is_space_spec|exact Hw]|]. cbn. now f_equal.
  - exists []. split; [constructor|reflexivity].
Qed.
Lemma skip_ws_stop c r : is_space c = false -> skip_ws (c :: r) = c :: r.
Proof. intro H. cbn. now rewrite H. Qed.
Lemma white_nil : white [].
Proof. constructor. Qed.

(** * Numbers *)
Lemma is_dec_spec c : is_dec c = true <-> decimal_digit c.
Proof. unfold is_dec, between, decimal_digit. rewrite andb_true_iff, !N.leb_le. tauto. Qed.
Lemma take_digits_sound b d r : take_digits b = (d, r) -> b = d ++ r /\ Forall decimal_digit d.
Proof.
  revert d r. induction b as [|c b IH]; cbn; intros d r H.
  - injection H as <- <-. auto.
  - destruct (is_dec c) eqn:E.
    + destruct (take_digits b) as [d' r'] eqn:T. injection H as <- <-. destruct (IH _ _ eq_refl) as [-> F].
      split; [reflexivity|]. constructor; [now apply is_dec_spec|exact F].
    + injection H as <- <-. auto.
Qed.
(** what follows does not start with a digit *)
Definition no_digit (r : bytes) : Prop := forall c t, r = c :: t -> is_dec c = false.
Lemma take_digits_complete d r : Forall decimal_digit d -> no_digit r -> take_digits (d ++ r) = (d, r).
Proof.
  intros H N. induction H as [|c d Hc H IH]; cbn.
  - destruct r as [|c r]; cbn; [reflexivity|]. now rewrite (N c r eq_refl).
  - rewrite (proj2 (is_dec_spec c) Hc), IH. reflexivity.
Qed.

Lemma get_int_sound b i r : get_int b = Some (i, r) ->
  b = i ++ r /\ (i = [48] \/ exists c ds, i = c :: ds /\ 49 <= c <= 57 /\ Forall decimal_digit ds).
Proof.
  destruct b as [|c b]; cbn; [discriminate|]. destruct (c =? 48) eqn:E.
  - apply N.eqb_eq in E as ->. intros [= <- <-]. auto.
  - destruct (between 49 57 c) eqn:B; [|discriminate]. destruct (take_digits b) as [d r'] eqn:T.
    intros [= <- <-]. apply take_digits_sound in T as [-> F]. split; [reflexivity|].
    right. exists c, d. unfold between in B. rewrite andb_true_iff, !N.leb_le in B. auto.
Qed.
Lemma get_frac_sound b f r : get_frac b = Some (f, r) ->
  b = f ++ r /\ (f = [] \/ exists ds, f = 46 :: ds /\ some_digits ds).
Proof.
  destruct b as [|c b]; cbn; [intros [= <- <-]; auto|]. destruct (c =? 46) eqn:E.
  - apply N.eqb_eq in E as ->. destruct (take_digits b) as [d r'] eqn:T. apply take_digits_sound in T as [-> F].
    destruct d as [|x d]; [discriminate|]. intros [= <- <-]. split; [reflexivity|].
    right. exists (x :: d). split; [reflexivity|]. split; [discriminate|exact F].
  - intros [= <- <-]. auto.
Qed.
Lemma get_exp_sound b e r : get_exp b = Some (e, r) ->
  b = e ++ r /\ (e = [] \/ exists l s ds, e = l :: s ++ ds /\ (l = 101 \/ l = 69) /\ (s = [] \/ s = [43] \/ s = [45]) /\ some_digits ds).
Proof.
  destruct b as [|c b]; cbn; [intros [= <- <-]; auto|]. destruct ((c =? 101) || (c =? 69)) eqn:E.
  - rewrite orb_true_iff, !N.eqb_eq in E.
    destruct (match b with x :: r1 => if (x =? 43) || (x =? 45) then ([x], r1) else ([], b) | [] => ([], b) end) as [sg r1] eqn:S.
    assert (A : b = sg ++ r1 /\ (sg = [] \/ sg = [43] \/ sg = [45])).
    { destruct b as [|x b]; [injection S as <- <-; auto|]. destruct ((x =? 43) || (x =? 45)) eqn:X.
      - injection S as <- <-. rewrite orb_true_iff, !N.eqb_eq in X. destruct X as [-> | ->]; auto.
      - injection S as <- <-. auto. }
    destruct A as [-> A]. destruct (take_digits r1) as [d r'] eqn:T. apply take_digits_sound in T as [-> F].
    destruct d as [|x d]; [discriminate|]. intros [= <- <-]. split; [cbn; now rewrite <- app_assoc|].
    right. exists c, sg, (x :: d). split; [reflexivity|]. split; [exact E|]. split; [exact A|]. split; [discriminate|exact F].
  - intros [= <- <-]. auto.
Qed.
Lemma get_number_sound b t r : get_number b = Some (t, r) -> b = t ++ r /\ number t.
Proof.
  unfold get_number. intro H.
  destruct (match b with c :: r => if c =? 45 then ([c], r) else ([], b) | [] => ([], b) end) as [sg r0] eqn:S.
  assert (A : b = sg ++ r0 /\ (sg = [] \/ sg = [45])).
  { destruct b as [|x b]; [injection S as <- <-; auto|]. destruct (x =? 45) eqn:X.
    - apply N.eqb_eq in X as ->. injection S as <- <-. auto.
    - injection S as <- <-. auto. }
  destruct A as [-> A]. destruct (get_int r0) as [[i r1]|] eqn:I; [|discriminate].
  destruct (get_frac r1) as [[f r2]|] eqn:F; [|discriminate]. destruct (get_exp r2) as [[e r3]|] eqn:E; [|discriminate].
  injection H as <- <-. apply get_int_sound in I as [-> I]. apply get_frac_sound in F as [-> F].
  apply get_exp_sound in E as [-> E]. split; [now rewrite <- !app_assoc|].
  exists sg, i, f, e. auto.
Qed.

(** what follows does not continue a number *)
Definition no_more (r : bytes) : Prop := forall c t, r = c :: t -> is_dec c = false /\ c <> 46 /\ c <> 101 /\ c <> 69.
Lemma no_more_cons c t : is_dec c = false -> c <> 46 -> c <> 101 -> c <> 69 -> no_more (c :: t).
Proof. intros A B C D c' t' [= <- <-]. auto. Qed.
Lemma no_more_white w c t : white w -> no_more (c :: t) -> no_more (w ++ c :: t).
Proof.
  intros H N. destruct w as [|x w]; [exact N|]. cbn. inversion H as [|? ? X _]; subst.
  apply no_more_cons; [destruct X as [-> | [-> | [-> | ->]]]; reflexivity|lia..].
Qed.
Lemma get_exp_none r : (forall c t, r = c :: t -> c <> 101 /\ c <> 69) -> get_exp r = Some ([], r).
Proof.
  intro H. destruct r as [|c t]; [reflexivity|]. cbn. destruct (H c t eq_refl) as [A B].
  apply N.eqb_neq in A, B. now rewrite A, B.
Qed.
Lemma get_number_complete t r : number t -> no_more r -> get_number (t ++ r) = Some (t, r).
Proof.
  intros (sg & i & f & e & -> & Hs & Hi & Hf & He) N.
  assert (E : get_exp (e ++ r) = Some (e, r)).
  { destruct He as [-> | (l & s & ds & -> & Hl & Hs' & D & F)].
    - apply get_exp_none. intros c t E. destruct (N c t E). tauto.
    - cbn [app get_exp]. replace ((l =? 101) || (l =? 69)) with true
        by (symmetry; rewrite orb_true_iff, !N.eqb_eq; exact Hl).
      rewrite <- app_assoc.
      replace (match s ++ ds ++ r with x :: r1 => if (x =? 43) || (x =? 45) then ([x], r1) else ([], s ++ ds ++ r) | [] => ([], s ++ ds ++ r) end)
        with (s, ds ++ r).
      + rewrite take_digits_complete; [|exact F|intros c t E; apply (N c t E)]. destruct ds; [contradiction|reflexivity].
      + destruct Hs' as [-> | [-> | ->]]; [|reflexivity|reflexivity]. cbn [app].
        destruct ds as [|x ds]; [contradiction|]. cbn [app]. inversion F as [|? ? X _]; subst.
        unfold decimal_digit in X. destruct (x =? 43) eqn:E1; [lia|]. destruct (x =? 45) eqn:E2; [lia|]. reflexivity. }
  assert (S : forall c u, e ++ r = c :: u -> is_dec c = false /\ c <> 46).
  { intros c u X. destruct He as [-> | (l & s & ds & -> & Hl & _)].
    - destruct (N c u X). tauto.
    - injection X as <- _. destruct Hl as [-> | ->]; split; try reflexivity; lia. }
  assert (F : get_frac (f ++ e ++ r) = Some (f, e ++ r)).
  { destruct Hf as [-> | (ds & -> & D & F)].
    - cbn [app]. destruct (e ++ r) as [|c u] eqn:X; [reflexivity|]. cbn. destruct (S c u eq_refl) as [_ A].
      apply N.eqb_neq in A. now rewrite A.
    - cbn [app get_frac]. rewrite N.eqb_refl, take_digits_complete; [|exact F|intros c u X; apply (S c u X)].
      destruct ds; [contradiction|reflexivity]. }
  assert (S' : no_digit (f ++ e ++ r)).
  { intros c u X. destruct Hf as [-> | (ds & -> & _)]; [now apply (S c u)|]. injection X as <- _. reflexivity. }
  assert (I : get_int (i ++ f ++ e ++ r) = Some (i, f ++ e ++ r)).
  { destruct Hi as [-> | (c & ds & -> & Hc & D)]; [reflexivity|]. cbn [app get_int].
    destruct (c =? 48) eqn:X; [lia|]. replace (between 49 57 c) with true
      by (symmetry; unfold between; rewrite andb_true_iff, !N.leb_le; exact Hc).
    now rewrite take_digits_complete. }
  unfold get_number. rewrite <- !app_assoc.
  replace (match sg ++ i ++ f ++ e ++ r with c :: r' => if c =? 45 then ([c], r') else ([], sg ++ i ++ f ++ e ++ r) | [] => ([], sg ++ i ++ f ++ e ++ r) end)
    with (sg, i ++ f ++ e ++ r).
  { now rewrite I, F, E. }
  destruct Hs as [-> | ->]; [|reflexivity]. cbn [app]. destruct Hi as [-> | (c & ds & -> & Hc & _)]; [reflexivity|].
  cbn [app]. destruct (c =? 45) eqn:X; [lia|]. reflexivity.
Qed.
Lemma number_head t : number t -> exists c t', t = c :: t' /\ (c = 45 \/ decimal_digit c).
Proof.
  intros (sg & i & f & e & -> & Hs & Hi & _). destruct Hs as [-> | ->]; [|cbn; eauto].
  destruct Hi as [-> | (c & ds & -> & Hc & _)]; cbn; eexists; eexists; split; try reflexivity; right; unfold decimal_digit; lia.
Qed.

(** * Characters *)
Lemma encode_length r : 128 <= r -> scalar r ->
  exists c t, utf8_encode_rune r = c :: t /\ 128 <= c /\ length (utf8_encode_rune r) = rune_len c /\ Forall (fun x => 128 <= x) t.
Proof.
  intros H S. unfold utf8_encode_rune. destruct (r <? 128) eqn:E0; [lia|].
  destruct (r <? 2048) eqn:E1; [|destruct (r <? 65536) eqn:E2].
  - eexists; eexists; split; [reflexivity|]. split; [lia|]. split; [|repeat constructor; lia].
    unfold rune_len. assert (r / 64 < 32) by (apply N.div_lt_upper_bound; lia).
    destruct (192 + r / 64 <? 224) eqn:L; [reflexivity|lia].
  - eexists; eexists; split; [reflexivity|]. split; [lia|]. split; [|repeat constructor; lia].
    unfold rune_len. assert (r / 4096 < 16) by (apply N.div_lt_upper_bound; lia).
    destruct (224 + r / 4096 <? 224) eqn:L; [lia|]. destruct (224 + r / 4096 <? 240) eqn:L2; [reflexivity|lia].
  - eexists; eexists; split; [reflexivity|]. split; [lia|]. split; [|repeat constructor; lia].
    unfold rune_len. destruct (240 + r / 262144 <? 224) eqn:L; [lia|]. destruct (240 + r / 262144 <? 240) eqn:L2; [lia|reflexivity].
Qed.
Lemma encode_ascii r : r < 128 -> utf8_encode_rune r = [r].
Proof. intro H. unfold utf8_encode_rune. destruct (r <? 128) eqn:E; [reflexivity|lia]. Qed.
Lemma get_rune_spec c b x r : 128 <= c ->
  (get_rune (c :: b) = Some (x, r) <-> exists n, 128 <= n /\ scalar n /\ x = utf8_encode_rune n /\ c :: b = x ++ r).
Proof.
  intro Hc. unfold get_rune. set (n := rune_len c). split.
  - destruct (n <=? length (c :: b))%nat eqn:L; [|discriminate].
    destruct (utf8_valid (firstn n (c :: b))) eqn:V; [|discriminate]. intros [= <- <-].
    apply utf8_valid_spec in V as (t & F & E).
    assert (Ln : length (firstn n (c :: b)) = n) by (apply firstn_length_le; now apply Nat.leb_le).
    destruct t as [|u t].
    { exfalso. rewrite E in Ln. cbn in Ln. unfold n, rune_len in Ln. destruct (c <? 224), (c <? 240); discriminate. }
    inversion F as [|? ? Su F']; subst. cbn [utf8_encode flat_map] in E.
    assert (Hd : exists b', firstn n (c :: b) = c :: b').
    { unfold n, rune_len. destruct (c <? 224), (c <? 240); cbn; eauto. }
    destruct Hd as [b' Hd].
    destruct (N.lt_ge_cases u 128) as [Hu|Hu].
    { exfalso. rewrite encode_ascii in E by exact Hu. rewrite Hd in E. injection E as <- _. lia. }
    destruct (encode_length u Hu Su) as (c' & t' & E' & _ & L' & _).
    assert (c' = c) by (rewrite Hd, E' in E; now injection E). subst c'.
    assert (Z : flat_map utf8_encode_rune t = []).
    { apply length_zero_iff_nil. apply (f_equal (@length N)) in E. rewrite app_length in E. unfold n in *. lia. }
    rewrite Z, app_nil_r in E. exists u. split; [exact Hu|]. split; [exact Su|]. split; [exact E|].
    symmetry. apply firstn_skipn.
  - intros (u & Hu & Su & -> & E). destruct (encode_length u Hu Su) as (c' & t' & E' & _ & L' & _).
    assert (c' = c) by (rewrite E' in E; now injection E). subst c'.
    rewrite E, app_length. replace (n <=? length (utf8_encode_rune u) + length r)%nat with true
      by (symmetry; apply Nat.leb_le; unfold n; lia).
    rewrite firstn_app, skipn_app. replace (n - length (utf8_encode_rune u))%nat with 0%nat by (unfold n; lia).
    rewrite firstn_all2, skipn_all2 by (unfold n; lia). cbn [firstn skipn app]. rewrite app_nil_r.
    rewrite <- (app_nil_r (utf8_encode_rune u)) at 1.
    replace (utf8_valid (utf8_encode_rune u ++ [])) with true; [reflexivity|].
    symmetry. apply utf8_valid_spec. exists [u]. split; [auto|reflexivity].
Qed.
Lemma get_rune_none c b : 128 <= c -> (get_rune (c :: b) = None <-> forall n rest, scalar n -> c :: b <> utf8_encode_rune n ++ rest).
Proof.
  intro Hc. split.
  - intros G n rest S E. destruct (N.lt_ge_cases n 128) as [L|L].
    + rewrite encode_ascii in E by exact L. injection E as -> _. lia.
    + assert (X : get_rune (c :: b) = Some (utf8_encode_rune n, rest)) by (apply get_rune_spec; [exact Hc|]; exists n; auto).
      congruence.
  - intro H. destruct (get_rune (c :: b)) as [[x r]|] eqn:G; [|reflexivity]. exfalso.
    apply get_rune_spec in G as (n & _ & S & -> & E); [|exact Hc]. exact (H n r S E).
Qed.
(** the closing quote does not complete an encoding *)
Lemma no_rune_quote c t r : 128 <= c -> (forall n rest, scalar n -> c :: t <> utf8_encode_rune n ++ rest) ->
  forall n rest, scalar n -> c :: t ++ 34 :: r <> utf8_encode_rune n ++ rest.
Proof.
  intros Hc H n rest S E. destruct (N.lt_ge_cases n 128) as [L|L].
  - rewrite encode_ascii in E by exact L. injection E as -> _. lia.
  - destruct (encode_length n L S) as (c' & t' & E' & _ & _ & F). rewrite E' in E. injection E as <- E.
    assert (G : forall (a b : bytes) x y, Forall (fun z => 128 <= z) b -> a ++ 34 :: x = b ++ y -> exists z, a = b ++ z).
    { clear. induction a as [|h a IH]; intros b x y F E.
      - destruct b as [|k b]; [exists []; reflexivity|]. inversion F; subst. injection E as <- _. lia.
      - destruct b as [|k b]; [eexists; reflexivity|]. inversion F; subst. injection E as <- E.
        destruct (IH b x y H2 E) as [z ->]. exists z. reflexivity. }
    destruct (G _ _ _ _ F E) as [z Ez]. apply (H n z S). rewrite E', Ez. reflexivity.
Qed.

Lemma hexval_spec c d : hexval c = Some d <-> hex_char c d.
Proof.
  unfold hexval, hex_char, between.
  destruct ((48 <=? c) && (c <=? 57)) eqn:A; [|destruct ((97 <=? c) && (c <=? 102)) eqn:B; [|destruct ((65 <=? c) && (c <=? 70)) eqn:C]];
    split; intro H; try (injection H as <-); try discriminate; try (f_equal); lia.
Qed.
Lemma get_u4_sound b u r : get_u4 b = Some (u, r) -> exists e, 92 :: 117 :: b = e ++ r /\ u_escape e u.
Proof.
  destruct b as [|c1 [|c2 [|c3 [|c4 b]]]]; cbn; try discriminate.
  destruct (hexval c1) as [d1|] eqn:E1; [|discriminate]. destruct (hexval c2) as [d2|] eqn:E2; [|discriminate].
  destruct (hexval c3) as [d3|] eqn:E3; [|discriminate]. destruct (hexval c4) as [d4|] eqn:E4; [|discriminate].
  intros [= <- <-]. apply hexval_spec in E1, E2, E3, E4. exists [92; 117; c1; c2; c3; c4]. split; [reflexivity|]. now constructor.
Qed.
Lemma get_u4_complete e u r : u_escape e u -> exists h, e = 92 :: 117 :: h /\ get_u4 (h ++ r) = Some (u, r) /\ length h = 4%nat /\ Forall (fun x => x <> 34) h.
Proof.
  intros [c1 c2 c3 c4 d1 d2 d3 d4 H1 H2 H3 H4]. exists [c1; c2; c3; c4]. split; [reflexivity|]. split.
  - cbn. apply hexval_spec in H1, H2, H3, H4. now rewrite H1, H2, H3, H4.
  - split; [reflexivity|]. repeat constructor; unfold hex_char in *; lia.
Qed.
Lemma u_escape_range e u : u_escape e u -> u < 65536.
Proof. intros [c1 c2 c3 c4 d1 d2 d3 d4 H1 H2 H3 H4]. unfold hex_char in *. lia. Qed.
Lemma surrogate_spec u : surrogate u = true <-> high_surrogate u \/ low_surrogate u.
Proof. unfold surrogate, between, high_surrogate, low_surrogate. rewrite andb_true_iff, !N.leb_le. lia. Qed.
Lemma surrogate_scalar u : u < 65536 -> (surrogate u = false <-> scalar u).
Proof.
  intro H. assert (A := surrogate_spec u). unfold high_surrogate, low_surrogate, scalar in *.
  destruct (surrogate u); split; intro B; try discriminate; try reflexivity; intuition lia.
Qed.
Lemma get_pair_sound u b p r : get_pair u b = Some (p, r) ->
  exists e' u', b = e' ++ r /\ u_escape e' u' /\ high_surrogate u /\ low_surrogate u' /\ p = (u - 0xD800) * 1024 + (u' - 0xDC00) + 0x10000.
Proof.
  unfold get_pair. destruct b as [|x [|y b]]; try discriminate. destruct ((x =? 92) && (y =? 117)) eqn:E; [|discriminate].
  rewrite andb_true_iff, !N.eqb_eq in E. destruct E as [-> ->]. destruct (get_u4 b) as [[u' r']|] eqn:G; [|discriminate].
  destruct (between 55296 56319 u && between 56320 57343 u') eqn:B; [|discriminate]. intros [= <- <-].
  apply get_u4_sound in G as (e' & -> & He). exists e', u'. unfold between in B. rewrite !andb_true_iff, !N.leb_le in B.
  unfold high_surrogate, low_surrogate. repeat split; auto; lia.
Qed.
Lemma get_pair_complete u e' u' r : u_escape e' u' -> high_surrogate u -> low_surrogate u' ->
  get_pair u (e' ++ r) = Some ((u - 0xD800) * 1024 + (u' - 0xDC00) + 0x10000, r).
Proof.
  intros E H L. destruct (get_u4_complete e' u' r E) as (h & -> & G & _). cbn [app get_pair].
  change ((92 =? 92) && (117 =? 117)) with true. cbn iota. rewrite G.
  replace (between 55296 56319 u && between 56320 57343 u') with true; [reflexivity|].
  symmetry. unfold between, high_surrogate, low_surrogate in *. rewrite !andb_true_iff, !N.leb_le. lia.
Qed.
(** a quote does not complete an escape *)
Lemma escape_quote e t x y u : u_escape e u -> t ++ 34 :: x = e ++ y -> exists z, t = e ++ z.
Proof.
  intros E. destruct (get_u4_complete e u [] E) as (h & -> & _ & _ & F).
  assert (G : forall (b a : bytes) x y, Forall (fun z => z <> 34) b -> a ++ 34 :: x = b ++ y -> exists z, a = b ++ z).
  { clear. induction b as [|k b IH]; intros a x y F E; [exists a; reflexivity|]. inversion F; subst.
    destruct a as [|j a]; injection E as <- E; [contradiction|]. destruct (IH a x y H2 E) as [z ->]. exists z. reflexivity. }
  intro H. apply (G (92 :: 117 :: h) t x y); [|exact H]. repeat (constructor; [lia|]). exact F.
Qed.
Lemma simple_spec c x : simple c = Some x <-> simple_escape c x.
Proof.
  unfold simple, simple_escape.
  repeat match goal with |- context[if ?a =? ?b then _ else _] => destruct (N.eqb_spec a b); [subst|] end;
    split; intro H; try (injection H as <-); try discriminate; try f_equal; intuition lia.
Qed.
Lemma pair_rune u u' : high_surrogate u -> low_surrogate u' -> scalar ((u - 0xD800) * 1024 + (u' - 0xDC00) + 0x10000).
Proof. unfold high_surrogate, low_surrogate, scalar. lia. Qed.

Lemma get_chars_sound : forall fuel b s r, get_chars fuel b = Some (s, r) -> exists raw, b = raw ++ 34 :: r /\ chars raw s.
Proof.
  induction fuel as [|f IH]; intros b s r H; [discriminate|]. destruct b as [|c b]; [discriminate|].
  cbn [get_chars] in H.
  destruct (N.eqb_spec c 34) as [->|Nq].
  { injection H as <- <-. exists []. split; [reflexivity|constructor]. }
  destruct (N.eqb_spec c 92) as [->|Nb].
  { destruct b as [|e b]; [discriminate|]. destruct (N.eqb_spec e 117) as [->|Nu].
    - destruct (get_u4 b) as [[u r2]|] eqn:G; [|discriminate].
      apply get_u4_sound in G as (es & Eb & Hes). pose proof (u_escape_range _ _ Hes) as Ru.
      destruct (surrogate u) eqn:S.
      + destruct (get_pair u r2) as [[p r3]|] eqn:P.
        * destruct (get_chars f r3) as [[s' r']|] eqn:C; [|discriminate]. injection H as <- <-.
          apply IH in C as (raw & -> & Hraw). apply get_pair_sound in P as (e' & u' & -> & He' & Hh & Hl & ->).
          exists (es ++ e' ++ raw). split; [now rewrite Eb, <- !app_assoc|]. now constructor.
        * destruct (get_chars f r2) as [[s' r']|] eqn:C; [|discriminate]. injection H as <- <-.
          apply IH in C as (raw & -> & Hraw). exists (es ++ raw). split; [now rewrite Eb, <- !app_assoc|].
          apply chars_lone with (u := u); [exact Hes|now apply surrogate_spec| |exact Hraw].
          intros e' u' t' Hh -> He' Hl. rewrite <- app_assoc in P. rewrite (get_pair_complete u e' u' _ He' Hh Hl) in P. discriminate.
      + destruct (get_chars f r2) as [[s' r']|] eqn:C; [|discriminate]. injection H as <- <-.
        apply IH in C as (raw & -> & Hraw). exists (es ++ raw). split; [now rewrite Eb, <- !app_assoc|].
        apply chars_escape; [exact Hes|now apply surrogate_scalar|exact Hraw].
    - destruct (simple e) as [x|] eqn:X; [|discriminate]. destruct (get_chars f b) as [[s' r']|] eqn:C; [|discriminate].
      injection H as <- <-. apply IH in C as (raw & -> & Hraw). exists (92 :: e :: raw). split; [reflexivity|].
      apply chars_simple; [now apply simple_spec|exact Hraw]. }
  destruct (N.ltb_spec c 32) as [L32|L32]; [discriminate|]. destruct (N.ltb_spec c 128) as [L128|L128].
  { destruct (get_chars f b) as [[s' r']|] eqn:C; [|discriminate]. injection H as <- <-.
    apply IH in C as (raw & -> & Hraw). exists (c :: raw). split; [reflexivity|]. now apply chars_ascii. }
  destruct (get_rune (c :: b)) as [[x r']|] eqn:G.
  - destruct (get_chars f r') as [[s' r2]|] eqn:C; [|discriminate]. injection H as <- <-.
    apply IH in C as (raw & -> & Hraw). apply get_rune_spec in G as (n & Hn & Sn & -> & E); [|exact L128].
    exists (utf8_encode_rune n ++ raw). split; [now rewrite E, <- app_assoc|]. now apply chars_rune.
  - destruct (get_chars f b) as [[s' r']|] eqn:C; [|discriminate]. injection H as <- <-.
    apply IH in C as (raw & -> & Hraw). exists (c :: raw). split; [reflexivity|].
    apply chars_no_rune; [exact L128| |exact Hraw]. intros n rest Sn E.
    apply (proj1 (get_rune_none _ _ L128) G n (rest ++ 34 :: r') Sn). rewrite app_assoc, <- E. reflexivity.
Qed.

Lemma get_chars_complete raw s : chars raw s -> forall fuel r, (length raw < fuel)%nat -> get_chars fuel (raw ++ 34 :: r) = Some (s, r).
Proof.
  intro H. induction H as [|c t s Hc N1 N2 H IH|n t s Hn Sn H IH|c t s Hc N H IH|c x t s Hx H IH|e u t s He Su H IH
    |e e' u u' t s He He' Hh Hl H IH|e u t s He Hu Hlone H IH]; intros fuel r L.
  - destruct fuel; [cbn in L; lia|]. reflexivity.
  - cbn [length] in L. destruct fuel as [|f]; [lia|]. cbn [app get_chars].
    destruct (N.eqb_spec c 34); [contradiction|]. destruct (N.eqb_spec c 92); [contradiction|].
    destruct (N.ltb_spec c 32); [lia|]. destruct (N.ltb_spec c 128); [|lia]. rewrite IH by lia. reflexivity.
  - destruct (encode_length n Hn Sn) as (c & t' & E & Hc & Ln & _).
    rewrite app_length, E in L. cbn [length] in L. destruct fuel as [|f]; [lia|].
    rewrite <- app_assoc. rewrite E at 1. cbn [app get_chars].
    destruct (N.eqb_spec c 34); [lia|]. destruct (N.eqb_spec c 92); [lia|].
    destruct (N.ltb_spec c 32); [lia|]. destruct (N.ltb_spec c 128); [lia|].
    replace (get_rune (c :: t' ++ t ++ 34 :: r)) with (Some (utf8_encode_rune n, t ++ 34 :: r)).
    + rewrite IH by lia. reflexivity.
    + symmetry. apply get_rune_spec; [exact Hc|]. exists n. rewrite E. auto.
  - cbn [length] in L. destruct fuel as [|f]; [lia|]. cbn [app get_chars].
    destruct (N.eqb_spec c 34); [lia|]. destruct (N.eqb_spec c 92); [lia|].
    destruct (N.ltb_spec c 32); [lia|]. destruct (N.ltb_spec c 128); [lia|].
    replace (get_rune (c :: t ++ 34 :: r)) with (@None (bytes * bytes)).
    + rewrite IH by lia. reflexivity.
    + symmetry. apply get_rune_none; [exact Hc|]. now apply no_rune_quote.
  - cbn [length] in L. destruct fuel as [|f]; [lia|]. cbn [app get_chars].
    change (92 =? 34) with false. change (92 =? 92) with true. cbn iota.
    destruct (N.eqb_spec c 117) as [->|_]; [unfold simple_escape in Hx; lia|].
    rewrite (proj2 (simple_spec c x) Hx). rewrite IH by lia. reflexivity.
  - destruct (get_u4_complete e u (t ++ 34 :: r) He) as (h & -> & G & Lh & _).
    cbn [length app] in L. rewrite app_length in L. destruct fuel as [|f]; [lia|]. cbn [app]. rewrite <- app_assoc. cbn [get_chars].
    change (92 =? 34) with false. change (92 =? 92) with true. change (117 =? 117) with true. cbn iota. rewrite G.
    rewrite (proj2 (surrogate_scalar u (u_escape_range _ _ He)) Su). rewrite IH by lia. reflexivity.
  - destruct (get_u4_complete e u (e' ++ t ++ 34 :: r) He) as (h & -> & G & Lh & _).
    cbn [length app] in L. rewrite !app_length in L. destruct fuel as [|f]; [lia|]. cbn [app]. rewrite <- !app_assoc. cbn [get_chars].
    change (92 =? 34) with false. change (92 =? 92) with true. change (117 =? 117) with true. cbn iota. rewrite G.
    rewrite (proj2 (surrogate_spec u) (or_introl Hh)). rewrite (get_pair_complete u e' u' _ He' Hh Hl).
    rewrite IH by lia. reflexivity.
  - destruct (get_u4_complete e u (t ++ 34 :: r) He) as (h & -> & G & Lh & _).
    cbn [length app] in L. rewrite app_length in L. destruct fuel as [|f]; [lia|]. cbn [app]. rewrite <- app_assoc. cbn [get_chars].
    change (92 =? 34) with false. change (92 =? 92) with true. change (117 =? 117) with true. cbn iota. rewrite G.
    rewrite (proj2 (surrogate_spec u) Hu).
    replace (get_pair u (t ++ 34 :: r)) with (@None (N * bytes)); [rewrite IH by lia; reflexivity|].
    symmetry. destruct (get_pair u (t ++ 34 :: r)) as [[p r']|] eqn:P; [|reflexivity]. exfalso.
    apply get_pair_sound in P as (e' & u' & E & He' & Hh & Hl & _).
    destruct (escape_quote e' t r r' u' He' E) as [z ->]. exact (Hlone e' u' z Hh eq_refl He' Hl).
Qed.

(** What is read is always valid UTF-8. *)
Lemma replacement_encode : replacement = utf8_encode_rune 0xFFFD.
Proof. reflexivity. Qed.
Lemma chars_utf8 raw s : chars raw s -> exists t, Forall scalar t /\ s = utf8_encode t.
Proof.
  assert (C : forall n t, scalar n -> (exists u, Forall scalar u /\ t = utf8_encode u) ->
    exists u, Forall scalar u /\ utf8_encode_rune n ++ t = utf8_encode u).
  { intros n t Sn (u & F & ->). exists (n :: u). split; [auto|reflexivity]. }
  induction 1 as [|c t s Hc N1 N2 H IH|n t s Hn Sn H IH|c t s Hc N H IH|c x t s Hx H IH|e u t s He Su H IH
    |e e' u u' t s He He' Hh Hl H IH|e u t s He Hu Hlone H IH].
  - exists []. split; [constructor|reflexivity].
  - change (c :: s) with ([c] ++ s). rewrite <- (encode_ascii c) by lia. apply C; [unfold scalar; lia|exact IH].
  - now apply C.
  - rewrite replacement_encode. apply C; [unfold scalar; lia|exact IH].
  - change (x :: s) with ([x] ++ s). assert (x < 128) by (unfold simple_escape in Hx; lia).
    rewrite <- (encode_ascii x) by lia. apply C; [unfold scalar; lia|exact IH].
  - now apply C.
  - apply C; [now apply pair_rune|exact IH].
  - rewrite replacement_encode. apply C; [unfold scalar; lia|exact IH].
Qed.

(** * Values *)
Scheme json_ind' := Induction for json Sort Prop
  with elements_ind' := Induction for elements Sort Prop
  with members_ind' := Induction for members Sort Prop.
Combined Scheme json_mutind from json_ind', elements_ind', members_ind'.

Lemma literal_sound name v b x r : literal name v b = Some (x, r) -> b = name ++ r /\ x = v.
Proof.
  unfold literal. destruct (text_eqb (firstn (length name) b) name) eqn:E; [|discriminate]. intros [= <- <-].
  apply text_eqb_eq in E. split; [|reflexivity]. rewrite <- E at 1. symmetry. apply firstn_skipn.
Qed.
Lemma literal_complete name v r : literal name v (name ++ r) = Some (v, r).
Proof.
  unfold literal. rewrite firstn_app, Nat.sub_diag, firstn_all. cbn [firstn]. rewrite app_nil_r, text_eqb_refl.
  now rewrite skipn_app, Nat.sub_diag, skipn_all.
Qed.

Lemma parse_sound : forall fuel,
  (forall b v r, parse fuel b = Some (v, r) -> exists t, b = t ++ r /\ json t v) /\
  (forall b l r, parse_elements fuel b = Some (l, r) -> exists t, b = t ++ 93 :: r /\ elements t l) /\
  (forall b l r, parse_members fuel b = Some (l, r) -> exists t, b = t ++ 125 :: r /\ members t l).
Proof.
  induction fuel as [|f (IHv & IHe & IHm)]; [repeat split; intros; discriminate|]. split; [|split].
  - intros b v r H. destruct b as [|c b]; [discriminate|]. cbn [parse] in H.
    destruct (N.eqb_spec c 34) as [->|_].
    { destruct (get_chars (length b) b) as [[s r']|] eqn:G; [|discriminate]. injection H as <- <-.
      apply get_chars_sound in G as (raw & -> & Hc). exists (34 :: raw ++ [34]).
      split; [cbn; now rewrite <- app_assoc|]. now constructor. }
    destruct (N.eqb_spec c 91) as [->|_].
    { destruct (skip_ws_split b) as (w & Hw & E). destruct (skip_ws b) as [|x r']; [discriminate|].
      destruct (N.eqb_spec x 93) as [->|_].
      - injection H as <- <-. exists (91 :: w ++ [93]). split; [cbn; now rewrite <- app_assoc, E|]. now constructor.
      - destruct (parse_elements f b) as [[l r2]|] eqn:P; [|discriminate]. injection H as <- <-.
        apply IHe in P as (t & Et & Ht). exists (91 :: t ++ [93]). split; [cbn; now rewrite <- app_assoc, Et|]. now constructor. }
    destruct (N.eqb_spec c 123) as [->|_].
    { destruct (skip_ws_split b) as (w & Hw & E). destruct (skip_ws b) as [|x r']; [discriminate|].
      destruct (N.eqb_spec x 125) as [->|_].
      - injection H as <- <-. exists (123 :: w ++ [125]). split; [cbn; now rewrite <- app_assoc, E|]. now constructor.
      - destruct (parse_members f b) as [[l r2]|] eqn:P; [|discriminate]. injection H as <- <-.
        apply IHm in P as (t & Et & Ht). exists (123 :: t ++ [125]). split; [cbn; now rewrite <- app_assoc, Et|]. now constructor. }
    destruct (c =? 110). { apply literal_sound in H as [-> ->]. eexists; split; [reflexivity|constructor]. }
    destruct (c =? 116). { apply literal_sound in H as [-> ->]. eexists; split; [reflexivity|constructor]. }
    destruct (c =? 102). { apply literal_sound in H as [-> ->]. eexists; split; [reflexivity|constructor]. }
    destruct (get_number (c :: b)) as [[t r']|] eqn:G; [|discriminate]. injection H as <- <-.
    apply get_number_sound in G as [-> N]. exists t. split; [reflexivity|]. now constructor.
  - intros b l r H. cbn [parse_elements] in H. destruct (skip_ws_split b) as (w & Hw & E).
    destruct (parse f (skip_ws b)) as [[v r1]|] eqn:P; [|discriminate]. apply IHv in P as (t & Et & Ht).
    destruct (skip_ws_split r1) as (w' & Hw' & E'). destruct (skip_ws r1) as [|x r']; [discriminate|].
    destruct (N.eqb_spec x 44) as [->|_].
    + destruct (parse_elements f r') as [[l' r2]|] eqn:P; [|discriminate]. injection H as <- <-.
      apply IHe in P as (t' & -> & Ht'). exists (w ++ t ++ w' ++ 44 :: t').
      split; [rewrite E, Et, E', <- !app_assoc; reflexivity|]. now constructor.
    + destruct (N.eqb_spec x 93) as [->|_]; [|discriminate]. injection H as <- <-.
      exists (w ++ t ++ w'). split; [rewrite E, Et, E', <- !app_assoc; reflexivity|]. now constructor.
  - intros b l r H. cbn [parse_members] in H. destruct (skip_ws_split b) as (w & Hw & E).
    destruct (skip_ws b) as [|q b1]; [discriminate|]. destruct (N.eqb_spec q 34) as [->|_]; [|discriminate].
    destruct (get_chars (length b1) b1) as [[k r1]|] eqn:G; [|discriminate]. apply get_chars_sound in G as (raw & -> & Hc).
    destruct (skip_ws_split r1) as (w1 & Hw1 & E1). destruct (skip_ws r1) as [|x r2]; [discriminate|].
    destruct (N.eqb_spec x 58) as [->|_]; [|discriminate].
    destruct (skip_ws_split r2) as (w2 & Hw2 & E2).
    destruct (parse f (skip_ws r2)) as [[v r3]|] eqn:P; [|discriminate]. apply IHv in P as (t & Et & Ht).
    destruct (skip_ws_split r3) as (w' & Hw' & E'). destruct (skip_ws r3) as [|y r4]; [discriminate|].
    destruct (N.eqb_spec y 44) as [->|_].
    + destruct (parse_members f r4) as [[l' r5]|] eqn:P; [|discriminate]. injection H as <- <-.
      apply IHm in P as (t' & -> & Ht'). exists (w ++ (34 :: raw ++ [34]) ++ w1 ++ 58 :: w2 ++ t ++ w' ++ 44 :: t').
      split; [rewrite E, E1, E2, Et, E'; repeat (rewrite <- !app_assoc; cbn [app]); reflexivity|]. now constructor.
    + destruct (N.eqb_spec y 125) as [->|_]; [|discriminate]. injection H as <- <-.
      exists (w ++ (34 :: raw ++ [34]) ++ w1 ++ 58 :: w2 ++ t ++ w').
      split; [rewrite E, E1, E2, Et, E'; repeat (rewrite <- !app_assoc; cbn [app]); reflexivity|]. now constructor.
Qed.

(** the first byte of a value: not blank, and no closing bracket or brace *)
Lemma json_head t v : json t v -> exists c t', t = c :: t' /\ is_space c = false /\ c <> 93 /\ c <> 125.
Proof.
  intros H. destruct H as [| | |t N|raw s Hc|w Hw|t l He|w Hw|t l Hm]; try (eexists; eexists; split; [vm_compute T; reflexivity|]; split; [reflexivity|lia]);
    try (eexists; eexists; split; [reflexivity|]; split; [reflexivity|lia]).
  destruct (number_head t N) as (c & t' & -> & Hc). exists c, t'. split; [reflexivity|]. unfold decimal_digit in Hc.
  split; [|lia]. destruct (is_space c) eqn:E; [|reflexivity]. apply is_space_spec in E. lia.
Qed.
Lemma skip_ws_json w t v r : white w -> json t v -> skip_ws (w ++ t ++ r) = t ++ r.
Proof.
  intros Hw Ht. rewrite skip_ws_white by exact Hw. destruct (json_head t v Ht) as (c & t' & -> & S & _).
  cbn [app]. now apply skip_ws_stop.
Qed.
Lemma skip_ws_to w c r : white w -> is_space c = false -> skip_ws (w ++ c :: r) = c :: r.
Proof. intros Hw S. rewrite skip_ws_white by exact Hw. now apply skip_ws_stop. Qed.
Lemma elements_head t l r : elements t l -> exists c t', skip_ws (t ++ r) = c :: t' /\ c <> 93.
Proof.
  intros H. destruct H as [w t v w' Hw Hj Hw'|w t v w' t' l Hw Hj Hw' He]; rewrite <- app_assoc, skip_ws_white by exact Hw;
    destruct (json_head t v Hj) as (c & t2 & -> & S & N & _); cbn [app]; rewrite skip_ws_stop by exact S; eauto.
Qed.
Lemma members_head t l r : members t l -> exists t', skip_ws (t ++ r) = 34 :: t'.
Proof.
  intros H. destruct H; rewrite <- app_assoc, skip_ws_white by assumption; cbn [app]; rewrite skip_ws_stop by reflexivity; eauto.
Qed.

Definition is_number (v : jvalue) : Prop := match v with JNumber _ => True | _ => False end.
Lemma parse_complete :
  (forall t v, json t v -> forall fuel r, (2 * length t <= fuel)%nat -> (is_number v -> no_more r) -> parse fuel (t ++ r) = Some (v, r)) /\
  (forall t l, elements t l -> forall fuel r, (2 * length t + 1 <= fuel)%nat -> parse_elements fuel (t ++ 93 :: r) = Some (l, r)) /\
  (forall t l, members t l -> forall fuel r, (2 * length t + 1 <= fuel)%nat -> parse_members fuel (t ++ 125 :: r) = Some (l, r)).
Proof.
  apply json_mutind.
  - intros fuel r L _. destruct fuel; [cbn in L; lia|]. reflexivity.
  - intros fuel r L _. destruct fuel; [cbn in L; lia|]. reflexivity.
  - intros fuel r L _. destruct fuel; [cbn in L; lia|]. reflexivity.
  - intros t N fuel r L M. specialize (M I). destruct (number_head t N) as (c & t' & E & Hc).
    destruct fuel as [|f]; [rewrite E in L; cbn in L; lia|]. pose proof (get_number_complete t r N M) as G.
    rewrite E in G |- *. cbn [app] in G |- *. cbn [parse]. unfold decimal_digit in Hc.
    destruct (N.eqb_spec c 34); [lia|]. destruct (N.eqb_spec c 91); [lia|]. destruct (N.eqb_spec c 123); [lia|].
    destruct (N.eqb_spec c 110); [lia|]. destruct (N.eqb_spec c 116); [lia|]. destruct (N.eqb_spec c 102); [lia|].
    now rewrite G.
  - intros raw s Hc fuel r L _. destruct fuel as [|f]; [cbn in L; lia|]. cbn [app parse]. rewrite N.eqb_refl, <- app_assoc. cbn [app].
    rewrite (get_chars_complete raw s Hc); [reflexivity|]. rewrite app_length. cbn. lia.
  - intros w Hw fuel r L _. destruct fuel as [|f]; [cbn in L; lia|]. cbn [app parse].
    change (91 =? 34) with false. change (91 =? 91) with true. cbn iota. rewrite <- app_assoc. cbn [app].
    rewrite skip_ws_to by (exact Hw || reflexivity). reflexivity.
  - intros t l He IH fuel r L _. destruct fuel as [|f]; [cbn in L; lia|]. cbn [app parse].
    change (91 =? 34) with false. change (91 =? 91) with true. cbn iota. rewrite <- app_assoc. cbn [app].
    destruct (elements_head t l (93 :: r) He) as (c & t' & -> & N). destruct (N.eqb_spec c 93); [contradiction|].
    rewrite IH; [reflexivity|]. cbn [length] in L. rewrite app_length in L. cbn in L. lia.
  - intros w Hw fuel r L _. destruct fuel as [|f]; [cbn in L; lia|]. cbn [app parse].
    change (123 =? 34) with false. change (123 =? 91) with false. change (123 =? 123) with true. cbn iota. rewrite <- app_assoc. cbn [app].
    rewrite skip_ws_to by (exact Hw || reflexivity). reflexivity.
  - intros t l He IH fuel r L _. destruct fuel as [|f]; [cbn in L; lia|]. cbn [app parse].
    change (123 =? 34) with false. change (123 =? 91) with false. change (123 =? 123) with true. cbn iota. rewrite <- app_assoc. cbn [app].
    destruct (members_head t l (125 :: r) He) as (t' & ->). change (34 =? 125) with false. cbn iota.
    rewrite IH; [reflexivity|]. cbn [length] in L. rewrite app_length in L. cbn in L. lia.
  - intros w t v w' Hw Hj IH Hw' fuel r L. rewrite !app_length in L. destruct fuel as [|f]; [lia|]. cbn [parse_elements].
    rewrite <- !app_assoc. rewrite (skip_ws_json w t v) by assumption.
    rewrite IH; [|lia|intros _; apply no_more_white; [exact Hw'|apply no_more_cons; [reflexivity|lia..]]].
    rewrite skip_ws_to by (exact Hw' || reflexivity). reflexivity.
  - intros w t v w' t' l Hw Hj IH Hw' He IHe fuel r L. rewrite !app_length in L. cbn [length] in L. destruct fuel as [|f]; [lia|]. cbn [parse_elements].
    rewrite <- !app_assoc. cbn [app]. rewrite (skip_ws_json w t v) by assumption.
    rewrite IH; [|lia|intros _; apply no_more_white; [exact Hw'|apply no_more_cons; [reflexivity|lia..]]].
    rewrite skip_ws_to by (exact Hw' || reflexivity). change (44 =? 44) with true. cbn iota. rewrite IHe by lia. reflexivity.
  - intros w raw k w1 w2 t v w' Hw Hc Hw1 Hw2 Hj IH Hw' fuel r L.
    do 3 (rewrite ?app_length in L; cbn [length] in L).
    destruct fuel as [|f]; [lia|]. cbn [parse_members].
    repeat (rewrite <- !app_assoc; cbn [app]). rewrite skip_ws_to by (exact Hw || reflexivity). change (34 =? 34) with true. cbn iota.
    rewrite (get_chars_complete raw k Hc) by (rewrite app_length; cbn [length]; lia).
    rewrite skip_ws_to by (exact Hw1 || reflexivity). change (58 =? 58) with true. cbn iota.
    rewrite (skip_ws_json w2 t v) by assumption.
    rewrite IH; [|lia|intros _; apply no_more_white; [exact Hw'|apply no_more_cons; [reflexivity|lia..]]].
    rewrite skip_ws_to by (exact Hw' || reflexivity). reflexivity.
  - intros w raw k w1 w2 t v w' t' l Hw Hc Hw1 Hw2 Hj IH Hw' He IHe fuel r L.
    do 3 (rewrite ?app_length in L; cbn [length] in L).
    destruct fuel as [|f]; [lia|]. cbn [parse_members].
    repeat (rewrite <- !app_assoc; cbn [app]). rewrite skip_ws_to by (exact Hw || reflexivity). change (34 =? 34) with true. cbn iota.
    rewrite (get_chars_complete raw k Hc) by (rewrite app_length; cbn [length]; lia).
    rewrite skip_ws_to by (exact Hw1 || reflexivity). change (58 =? 58) with true. cbn iota.
    rewrite (skip_ws_json w2 t v) by assumption.
    rewrite IH; [|lia|intros _; apply no_more_white; [exact Hw'|apply no_more_cons; [reflexivity|lia..]]].
    rewrite skip_ws_to by (exact Hw' || reflexivity). change (44 =? 44) with true. cbn iota. rewrite IHe by lia. reflexivity.
Qed.

Lemma parse_file_sound file v : parse_file file = Some v -> file_value file v.
Proof.
  unfold parse_file. destruct (parse (2 * length file + 2) (skip_ws file)) as [[x r]|] eqn:P; [|discriminate]. intros [= <-].
  apply (proj1 (parse_sound _)) in P as (t & E & H). destruct (skip_ws_split file) as (w & Hw & Ef).
  exists w, t, r. rewrite Ef, E. auto.
Qed.
Lemma parse_file_complete file v : file_value file v -> ~ is_number v -> parse_file file = Some v.
Proof.
  intros (w & t & r & -> & Hw & H) N. unfold parse_file. rewrite (skip_ws_json w t v) by assumption.
  rewrite (proj1 parse_complete t v H); [reflexivity| |contradiction]. rewrite !app_length. lia.
Qed.
(** a file that starts with a number is taken for one *)
Lemma parse_file_number file t : file_value file (JNumber t) -> forall v, parse_file file = Some v -> is_number v.
Proof.
  intros (w & t0 & r & -> & Hw & H) v P. unfold parse_file in P. rewrite (skip_ws_json w t0 _ r Hw H) in P.
  assert (N : number t0) by (inversion H; assumption). destruct (number_head t0 N) as (c & t' & -> & Hc).
  rewrite app_length in P. unfold decimal_digit in Hc.
  replace (2 * (length w + length ((c :: t') ++ r)) + 2)%nat with (S (2 * (length w + length ((c :: t') ++ r)) + 1)) in P by lia.
  cbn [app parse] in P.
  destruct (N.eqb_spec c 34); [lia|]. destruct (N.eqb_spec c 91); [lia|]. destruct (N.eqb_spec c 123); [lia|].
  destruct (N.eqb_spec c 110); [lia|]. destruct (N.eqb_spec c 116); [lia|]. destruct (N.eqb_spec c 102); [lia|].
  destruct (get_number (c :: t' ++ r)) as [[x r']|]; [|discriminate]. injection P as <-. exact I.
Qed.
