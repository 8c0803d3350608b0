(** Proofs for C98. *)
From Verif Require Import GoBase GoBaseFacts FilesModel FilesSpec FilesProofs GlobSpec.
Local Open Scope N_scope.

Definition term_of (p : piece) : term :=
  match p with
  | AnyText => TStar | AnyChar => TAny | Char c => TLit c
  | OneOf rs => TClass false rs | NoneOf rs => TClass true rs
  end.

(* ---------- parsing ---------- *)
Scheme bracket_mut := Induction for bracket Sort Prop
with more_bracket_mut := Induction for more_bracket Sort Prop.

Lemma get_esc_char c t x r : bracket_char c t -> get_esc (t ++ x :: r) = Some (c, x :: r).
Proof.
  intros [c' H1 H2 H3|c']; cbn.
  - apply N.eqb_neq in H1, H2, H3. rewrite H1, H2, H3. reflexivity.
  - reflexivity.
Qed.

Lemma bracket_char_ne c t : bracket_char c t -> (length t >= 1)%nat /\ forall r, match t ++ r with 45 :: _ => False | 93 :: _ => False | _ => True end.
Proof.
  intros [c' H1 H2 H3|c']; cbn; (split; [lia|]); intros r; [|exact I].
  destruct c' as [|p]; [exact I|]. do 7 (destruct p as [p|p|]; try exact I; try congruence).
Qed.

Lemma class_step f acc p : (match acc, p with _ :: _, 93 :: _ => False | _, _ => True end) ->
  class_ranges (S f) acc p =
  match get_esc p with
  | None => None
  | Some (lo, 45 :: r) =>
      match get_esc r with
      | None => None
      | Some (hi, r') => class_ranges f (acc ++ [(lo, hi)]) r'
      end
  | Some (lo, r) => class_ranges f (acc ++ [(lo, lo)]) r
  end.
Proof.
  intros H. cbn [class_ranges]. destruct acc as [|a acc]; [reflexivity|].
  destruct p as [|c p]; [reflexivity|]. destruct c as [|q]; [reflexivity|].
  do 7 (destruct q as [q|q|]; try reflexivity; try contradiction).
Qed.

Lemma class_one f acc p lo x r : (match acc, p with _ :: _, 93 :: _ => False | _, _ => True end) ->
  get_esc p = Some (lo, x :: r) -> x <> 45 -> class_ranges (S f) acc p = class_ranges f (acc ++ [(lo, lo)]) (x :: r).
Proof.
  intros H G Hx. rewrite class_step by exact H. rewrite G. destruct x as [|q]; [reflexivity|].
  do 6 (destruct q as [q|q|]; try reflexivity; try congruence).
Qed.

Lemma class_bracket rs t : bracket rs t -> forall f acc rest, (length t < f)%nat ->
  class_ranges f acc (t ++ 93 :: rest) = Some (acc ++ rs, rest).
Proof.
  revert rs t.
  apply (bracket_mut (fun rs t _ => forall f acc rest, (length t < f)%nat -> class_ranges f acc (t ++ 93 :: rest) = Some (acc ++ rs, rest))
    (fun rs t _ => forall f acc rest, acc <> [] -> (length t < f)%nat -> class_ranges f acc (t ++ 93 :: rest) = Some (acc ++ rs, rest))).
  - intros c t rs r Hc Hm IH f acc rest Hf. destruct f as [|f]; [lia|]. rewrite app_length in Hf.
    destruct (bracket_char_ne _ _ Hc) as [L Hn]. rewrite <- app_assoc.
    assert (Nx : exists x y, r ++ 93 :: rest = x :: y /\ x <> 45).
    { destruct Hm as [|rs r Hb]; [exists 93, rest; split; [reflexivity|lia]|].
      assert (B : exists c0 t0 r0, bracket_char c0 t0 /\ r = t0 ++ r0) by (destruct Hb; eauto).
      destruct B as (c0 & t0 & r0 & B & ->). rewrite <- app_assoc.
      pose proof (proj2 (bracket_char_ne _ _ B) (r0 ++ 93 :: rest)) as N0. pose proof (proj1 (bracket_char_ne _ _ B)) as L0.
      destruct (t0 ++ r0 ++ 93 :: rest) as [|x y] eqn:E; [destruct t0; cbn in *; [lia|discriminate]|].
      exists x, y. split; [reflexivity|]. intros ->. exact N0. }
    destruct Nx as (x & y & Ex & Hx). rewrite Ex.
    rewrite (class_one f acc _ c x y); [| |apply get_esc_char; exact Hc|exact Hx].
    + rewrite <- Ex.
      rewrite IH by (try lia; destruct acc; discriminate). rewrite <- app_assoc. reflexivity.
    + specialize (Hn (x :: y)). destruct acc; [exact I|]. destruct (t ++ x :: y) as [|z zs]; [exact I|].
      destruct z as [|q]; [exact I|]. do 7 (destruct q as [q|q|]; try exact I; try contradiction).
  - intros lo hi t u rs r Hlo Hhi Hm IH f acc rest Hf. destruct f as [|f]; [lia|].
    rewrite !app_length in Hf. cbn [length T] in Hf.
    destruct (bracket_char_ne _ _ Hlo) as [L Hn]. destruct (bracket_char_ne _ _ Hhi) as [L2 Hn2].
    rewrite <- !app_assoc. change (T "-" ++ u ++ r ++ 93 :: rest) with (45 :: (u ++ r ++ 93 :: rest)).
    rewrite class_step.
    + rewrite (get_esc_char lo t 45 _ Hlo).
      destruct (r ++ 93 :: rest) as [|x y] eqn:E; [destruct r; discriminate|].
      rewrite (get_esc_char hi u x y Hhi). rewrite <- E.
      rewrite IH by (try (cbn in Hf; lia); destruct acc; discriminate). rewrite <- app_assoc. reflexivity.
    + specialize (Hn (45 :: (u ++ r ++ 93 :: rest))). destruct acc; [exact I|].
      destruct (t ++ 45 :: u ++ r ++ 93 :: rest) as [|z zs]; [exact I|].
      destruct z as [|q]; [exact I|]. do 7 (destruct q as [q|q|]; try exact I; try contradiction).
  - intros f acc rest Ha Hf. destruct f as [|f]; [cbn in Hf; lia|]. destruct acc; [contradiction|]. cbn. rewrite app_nil_r. reflexivity.
  - intros rs t Hb IH f acc rest _ Hf. apply IH; exact Hf.
Qed.

Lemma parse_written ps t : written ps t -> forall k, parse_pattern (length t + k) t = Some (map term_of ps).
Proof.
  induction 1 as [|ps t H IH|ps t H IH|c ps t Hc H IH|c ps t H IH|rs r ps t Hb Hp H IH|rs r ps t Hb H IH]; intros k.
  - cbn. destruct k; reflexivity.
  - cbn. rewrite IH. reflexivity.
  - cbn. rewrite IH. reflexivity.
  - cbn [length Nat.add]. rewrite parse_lit; [rewrite IH; reflexivity|].
    cbn in Hc. destruct (N.eqb_spec c 42), (N.eqb_spec c 63), (N.eqb_spec c 91), (N.eqb_spec c 92); try reflexivity; exfalso; apply Hc; auto 6.
  - change (length (T "\" ++ c :: t) + k)%nat with (S (S (length t + k))). change (T "\" ++ c :: t) with (92 :: c :: t).
    replace (S (length t + k)) with (length t + S k)%nat by lia.
    change (parse_pattern (S (length t + S k)) (92 :: c :: t)) with
      (match parse_pattern (length t + S k) t with None => None | Some ts => Some (TLit c :: ts) end).
    rewrite IH. reflexivity.
  - change (T "[" ++ r ++ T "]" ++ t) with (91%N :: (r ++ 93%N :: t)).
    assert (R0 : exists x y, r = x :: y).
    { assert (B : exists c0 t0 r0, bracket_char c0 t0 /\ r = t0 ++ r0) by (destruct Hb; eauto).
      destruct B as (c0 & t0 & r0 & B & ->). destruct B; cbn; eauto. }
    assert (HP : has_prefix (r ++ 93 :: t) (T "^") = false).
    { destruct R0 as (x & y & ->). cbn in *. exact Hp. }
    pose proof (class_bracket rs r Hb (length (r ++ 93 :: t)) [] t ltac:(rewrite app_length; cbn; lia)) as CB.
    set (body := r ++ 93 :: t) in *.
    assert (L : (length body + k = length t + (length r + 1 + k))%nat) by (unfold body; rewrite app_length; cbn; lia).
    change (length (91%N :: body) + k)%nat with (S (length body + k)).
    change (parse_pattern (S (length body + k)) (91 :: body)) with
      (match class_ranges (length body) [] (if has_prefix body (T "^") then tl body else body) with
       | None => None
       | Some (ranges, r') => match parse_pattern (length body + k) r' with None => None | Some ts => Some (TClass (has_prefix body (T "^")) ranges :: ts) end
       end).
    rewrite HP, CB, L, IH. reflexivity.
  - change (T "[^" ++ r ++ T "]" ++ t) with (91%N :: 94%N :: (r ++ 93%N :: t)).
    pose proof (class_bracket rs r Hb (S (length (r ++ 93 :: t))) [] t ltac:(rewrite app_length; cbn; lia)) as CB.
    set (body := r ++ 93 :: t) in *.
    assert (L : (S (length body) + k = length t + (length r + 2 + k))%nat) by (unfold body; rewrite app_length; cbn; lia).
    change (length (91%N :: 94%N :: body) + k)%nat with (S (S (length body) + k)).
    change (parse_pattern (S (S (length body) + k)) (91 :: 94 :: body)) with
      (match class_ranges (S (length body)) [] body with
       | None => None
       | Some (ranges, r') => match parse_pattern (S (length body) + k) r' with None => None | Some ts => Some (TClass true ranges :: ts) end
       end).
    rewrite CB, L, IH. reflexivity.
Qed.

(* ---------- matching ---------- *)
Lemma in_ranges_spec rs c : in_ranges rs c = true <-> exists lo hi, In (lo, hi) rs /\ lo <= c /\ c <= hi.
Proof.
  unfold in_ranges. rewrite existsb_exists. split.
  - intros ([lo hi] & I & H). cbn in H. apply andb_prop in H as [H1 H2]. apply N.leb_le in H1, H2. eauto.
  - intros (lo & hi & I & H1 & H2). exists (lo, hi). split; [exact I|]. cbn. apply andb_true_intro. split; apply N.leb_le; auto.
Qed.

Lemma matches_fits ps : forall n, ~ In 47 n -> (matches (map term_of ps) n = true <-> fits ps n).
Proof.
  induction ps as [|p ps IH]; intros n Hs.
  - cbn. destruct n; split; intros H; try discriminate; try constructor. inversion H.
  - destruct p; cbn [map term_of].
    + cbn [matches]. induction n as [|c n IHn].
      * rewrite Bool.orb_false_r, IH by auto. split; [intros H; apply (FitsText [] _ _ H)|].
        intros H. inversion H as [|a ps' n' Hf E1 E2| | | |]; subst. destruct a; [|discriminate]. cbn in E2. subst. exact Hf.
      * assert (Hs' : ~ In 47 n) by (intros I; apply Hs; right; exact I).
        assert (Hc : c <> 47) by (intros ->; apply Hs; left; reflexivity).
        rewrite Bool.orb_true_iff, Bool.andb_true_iff, IH, IHn by auto. split.
        -- intros [H|[_ H]]; [apply (FitsText [] _ _ H)|]. inversion H as [|a ps' n' Hf| | | |]; subst. apply (FitsText (c :: a) _ _ Hf).
        -- intros H. inversion H as [|a ps' n' Hf E1 E2| | | |]; subst. destruct a as [|x a]; cbn in E2; [left; subst; exact Hf|].
           injection E2 as Ec En. subst c n. right. split; [apply N.eqb_neq in Hc; rewrite Hc; reflexivity|]. constructor; exact Hf.
    + cbn [matches]. destruct n as [|c n]; [split; [discriminate|intros H; inversion H]|].
      assert (Hs' : ~ In 47 n) by (intros I; apply Hs; right; exact I).
      assert (Hc : c <> 47) by (intros ->; apply Hs; left; reflexivity). apply N.eqb_neq in Hc. rewrite Hc. cbn [negb andb].
      rewrite IH by auto. split; [intros H; constructor; exact H|intros H; inversion H; auto].
    + cbn [matches]. destruct n as [|x n]; [split; [discriminate|intros H; inversion H]|].
      assert (Hs' : ~ In 47 n) by (intros I; apply Hs; right; exact I).
      rewrite Bool.andb_true_iff, N.eqb_eq, IH by auto. split; [intros [-> H]; constructor; exact H|intros H; inversion H; auto].
    + cbn [matches]. destruct n as [|x n]; [split; [discriminate|intros H; inversion H]|].
      assert (Hs' : ~ In 47 n) by (intros I; apply Hs; right; exact I).
      replace (negb (Bool.eqb (in_ranges ranges x) false)) with (in_ranges ranges x) by (destruct (in_ranges ranges x); reflexivity).
      rewrite Bool.andb_true_iff, in_ranges_spec, IH by auto. split.
      * intros [(lo & hi & I & A & B) H]. eapply FitsOne; eauto.
      * intros H. inversion H; subst. eauto 8.
    + cbn [matches]. destruct n as [|x n]; [split; [discriminate|intros H; inversion H]|].
      assert (Hs' : ~ In 47 n) by (intros I; apply Hs; right; exact I).
      replace (negb (Bool.eqb (in_ranges ranges x) true)) with (negb (in_ranges ranges x)) by (destruct (in_ranges ranges x); reflexivity).
      rewrite Bool.andb_true_iff, IH by auto. split.
      * intros [A H]. constructor; [|exact H]. intros lo hi I. destruct (in_ranges ranges x) eqn:E; [discriminate|].
        destruct (N.lt_ge_cases x lo); [auto|]. destruct (N.lt_ge_cases hi x); [auto|]. exfalso.
        enough (in_ranges ranges x = true) by congruence. apply in_ranges_spec. eauto.
      * intros H. inversion H as [| | | | |rs c ps' n' Hr Hf]; subst. split; [|exact Hf].
        destruct (in_ranges ranges x) eqn:E; [|reflexivity]. apply in_ranges_spec in E as (lo & hi & I & A & B).
        destruct (Hr lo hi I); lia.
Qed.

(* ---------- expansion ---------- *)
Section Expand.
Variable expand : node -> list (list text * node).
Variable c : list term.
Fixpoint expand_children (es : list (text * node)) : list (list text * node) :=
  match es with
  | [] => []
  | (name, m) :: r => (if matches c name then map (fun q => (name :: fst q, snd q)) (expand m) else []) ++ expand_children r
  end.
End Expand.
Fixpoint expand (cs : list (list term)) (n : node) : list (list text * node) :=
  match cs with
  | [] => [([], n)]
  | c :: cs => match n with Dir (Some es) => expand_children (expand cs) c es | _ => [] end
  end.
Definition step (c : list term) (q : list text * node) : list (list text * node) :=
  match snd q with
  | Dir (Some es) => map (fun e => (fst q ++ [fst e], snd e)) (filter (fun e => matches c (fst e)) es)
  | _ => []
  end.

Lemma expand_snoc cs c : forall n, expand (cs ++ [c]) n = flat_map (step c) (expand cs n).
Proof.
  induction cs as [|a cs IH]; intros n.
  - cbn [app expand flat_map]. rewrite app_nil_r. unfold step. cbn [snd fst app].
    destruct n as [| |[es|]|]; try reflexivity. induction es as [|[name m] es IHe]; [reflexivity|].
    cbn [expand_children filter fst]. rewrite IHe. destruct (matches c name); reflexivity.
  - cbn [app expand]. destruct n as [| |[es|]|]; try reflexivity.
    induction es as [|[name m] es IHe]; [reflexivity|]. cbn [expand_children]. rewrite flat_map_app, <- IHe. f_equal.
    destruct (matches a name); [|reflexivity]. rewrite IH.
    generalize (expand cs m). intros l. induction l as [|q l IHl]; [reflexivity|]. cbn [map flat_map]. rewrite map_app, IHl. f_equal.
    unfold step. cbn [fst snd]. destruct (snd q) as [| |[es'|]|]; try reflexivity. rewrite map_map. reflexivity.
Qed.

Lemma expand_entry cs : forall n ns m, In (ns, m) (expand cs n) -> entry n ns m /\ length ns = length cs.
Proof.
  induction cs as [|c cs IH]; intros n ns m H.
  - destruct H as [[= <- <-]|[]]. split; [constructor|reflexivity].
  - cbn [expand] in H. destruct n as [| |[es|]|]; try destruct H.
    assert (G : exists name k ns', In (name, k) es /\ ns = name :: ns' /\ In (ns', m) (expand cs k)).
    { clear IH. induction es as [|[name k] es IHe]; [destruct H|]. cbn [expand_children] in H. apply in_app_or in H as [H|H].
      - destruct (matches c name); [|destruct H]. apply in_map_iff in H as ([ns' m'] & [= <- <-] & H). exists name, k, ns'. cbn. auto.
      - destruct (IHe H) as (a & b & d & A & B & C). exists a, b, d. cbn. auto. }
    destruct G as (name & k & ns' & I & -> & H'). destruct (IH _ _ _ H') as [A B]. split; [econstructor; eauto|cbn; congruence].
Qed.

Lemma expand_expansion pss : forall n l, tree_ok n -> (expansion pss n l <-> expand (map (map term_of) pss) n = l).
Proof.
  induction pss as [|p pss IH]; intros n l Ok.
  - cbn. split; [intros H; inversion H; reflexivity|intros <-; constructor].
  - cbn [map expand]. destruct n as [| |[es|]|].
    1,2,4,5: split; [intros H; inversion H; reflexivity|intros <-; constructor; discriminate].
    inversion Ok as [| | | |es' Hn Ht]; subst es'. split.
    + intros H. inversion H as [|? ? ? N|? ? ? ? E]; subst; [destruct (N es eq_refl)|]. clear H Ok. revert l E.
      induction es as [|[name m] es IHe]; intros l E; [inversion E; reflexivity|].
      inversion Hn as [|? ? N1 N2]; subst. inversion Ht as [|? ? T1 T2]; subst. cbn [fst snd] in *.
      pose proof N1 as (_ & Ns & _). cbn [expand_children]. inversion E as [|? ? ? ? ? l1 l2 Hf E1 E2|? ? ? ? ? ? Hf E2]; subst.
      * apply (matches_fits p name Ns) in Hf. rewrite Hf. apply (IH m l1 T1) in E1. rewrite E1. rewrite (IHe N2 T2 l2 E2). reflexivity.
      * destruct (matches (map term_of p) name) eqn:M; [apply (matches_fits p name Ns) in M; contradiction|]. rewrite (IHe N2 T2 l E2). reflexivity.
    + intros <-. constructor. clear Ok. induction es as [|[name m] es IHe]; [constructor|].
      inversion Hn as [|? ? N1 N2]; subst. inversion Ht as [|? ? T1 T2]; subst. cbn [fst snd] in *.
      pose proof N1 as (_ & Ns & _). cbn [expand_children]. destruct (matches (map term_of p) name) eqn:M.
      * apply ExpFits; [apply matches_fits; auto|apply IH; auto|apply IHe; auto].
      * cbn [app]. apply ExpNot; [intros F; apply (matches_fits p name Ns) in F; congruence|apply IHe; auto].
Qed.

(* ---------- literal elements ---------- *)
Lemma written_literal ps t : written ps t -> has_meta t = false -> forall n, fits ps n <-> n = t.
Proof.
  induction 1 as [|ps t H IH|ps t H IH|c ps t Hc H IH|c ps t H IH|rs r ps t Hb Hp H IH|rs r ps t Hb H IH]; intros M n; try discriminate M.
  - split; [intros F; inversion F; reflexivity|intros ->; constructor].
  - assert (M' : has_meta t = false).
    { change (has_meta (c :: t)) with (((c =? 42) || (c =? 63) || (c =? 91) || (c =? 92)) || has_meta t)%bool in M.
      apply Bool.orb_false_iff in M as [_ M]. exact M. }
    split; [intros F; inversion F; subst; f_equal; apply IH; auto|]. intros ->. constructor. apply IH; auto.
Qed.

Lemma expand_literal cs ts : Forall2 (fun c t => forall n, name_ok n -> (matches c n = true <-> n = t)) cs ts ->
  forall n, tree_ok n -> tree_distinct n ->
  (exists m, entry n ts m /\ expand cs n = [(ts, m)]) \/ ((forall m, ~ entry n ts m) /\ expand cs n = []).
Proof.
  induction 1 as [|c t cs ts Hc H IH]; intros n Ok Di.
  - left. exists n. split; [constructor|reflexivity].
  - cbn [expand]. destruct n as [| |[es|]|].
    1,2,4,5: right; split; [intros m E; inversion E|reflexivity].
    inversion Ok as [| | | |es' Hn Ht]; subst es'. inversion Di as [| | | |es' Hd Hr]; subst es'.
    assert (G : (exists m k, In (t, k) es /\ entry k ts m /\ expand_children (expand cs) c es = [(t :: ts, m)]) \/
                ((forall m k, In (t, k) es -> ~ entry k ts m) /\ expand_children (expand cs) c es = [])).
    { clear Ok Di. induction es as [|[name k] es IHe]; [right; split; [intros ? ? []|reflexivity]|].
      inversion Hn as [|? ? N1 N2]; subst. inversion Ht as [|? ? T1 T2]; subst. inversion Hr as [|? ? R1 R2]; subst.
      cbn [map fst snd] in *. inversion Hd as [|? ? D1 D2]; subst. cbn [expand_children].
      destruct (matches c name) eqn:M.
      - apply (Hc name N1) in M. subst name.
        assert (Z : expand_children (expand cs) c es = []).
        { destruct (IHe N2 T2 D2 R2) as [(m & k' & I & _)|[_ Z]]; [|exact Z]. exfalso. apply D1. apply (in_map fst) in I. exact I. }
        rewrite Z, app_nil_r. destruct (IH k T1 R1) as [(m & E & X)|[E X]]; rewrite X.
        + left. exists m, k. split; [left; reflexivity|]. split; [exact E|reflexivity].
        + right. split; [|reflexivity]. intros m k' [[= <-]|I]; [apply E|]. exfalso. apply D1. apply (in_map fst) in I. exact I.
      - assert (Nt : name <> t) by (intros ->; apply Bool.not_true_iff_false in M; apply M; apply Hc; auto).
        cbn [app]. destruct (IHe N2 T2 D2 R2) as [(m & k' & I & E & X)|[E X]]; rewrite X.
        + left. exists m, k'. cbn. auto.
        + right. split; [|reflexivity]. intros m k' [[= <- _]|I]; [contradiction|]. apply E; exact I. }
    destruct G as [(m & k & I & E & X)|[E X]]; [left; exists m|right]; split; auto.
    + econstructor; eauto.
    + intros m F. inversion F; subst. eapply E; eauto.
Qed.

(* ---------- Glob ---------- *)
Lemma has_meta_under d ts : has_meta (under d ts) = (has_meta d || existsb has_meta ts)%bool.
Proof.
  unfold under. rewrite has_meta_app. f_equal. induction ts as [|t ts IH]; [reflexivity|]. cbn [flat_map existsb].
  rewrite has_meta_app, has_meta_app, IH. reflexivity.
Qed.

Lemma under_snoc d ns l : under d (ns ++ [l]) = under d ns ++ T "/" ++ l.
Proof. rewrite <- under_app. unfold under at 1. cbn [flat_map]. now rewrite app_nil_r. Qed.

Lemma glob_in_entry w d n ns m file ps : plain d -> tree_ok n -> exactly w d n -> entry n ns m -> written ps file ->
  glob_in w (under d ns) file = Some (map (fun q => under d (fst q)) (step (map term_of ps) (ns, m))).
Proof.
  intros P Ok X E W. pose proof (entry_ok n Ok _ _ E) as On. pose proof (entry_tree_ok n Ok _ _ E) as Om.
  destruct (proj1 (X ns On) m E) as (_ & _ & _ & D). unfold glob_in. rewrite D. unfold step. cbn [snd fst].
  destruct m as [| |[es|]|]; try reflexivity.
  pose proof (parse_written ps file W 0) as PW. rewrite Nat.add_0_r in PW.
  inversion Om as [| | | |es' Hn Ht]; subst es'. pose proof (plain_under d ns P On) as Pn.
  assert (G : map (join_path (under d ns)) (filter (matches (map term_of ps)) (map fst es)) =
    map (fun q : list text * node => under d (fst q)) (map (fun e : text * node => (ns ++ [fst e], snd e)) (filter (fun e => matches (map term_of ps) (fst e)) es))).
  { clear - Hn Pn. induction es as [|[name k] es IHe]; [reflexivity|]. inversion Hn as [|? ? N1 N2]; subst. cbn [map filter fst] in *.
    destruct (matches (map term_of ps) name); cbn [map fst snd]; rewrite (IHe N2); [|reflexivity].
    rewrite join_path_name, under_app by auto. reflexivity. }
  destruct es as [|e es]; [reflexivity|]. cbn [map]. cbn [map] in G. rewrite PW. rewrite G. reflexivity.
Qed.

Lemma glob_step f w pattern : glob (S f) w pattern =
  if negb (has_meta pattern) then match lstat w pattern with None => Some [] | Some _ => Some [pattern] end
  else let '(d, file) := split_file pattern in let dir := clean_glob_path d in
    if negb (has_meta dir) then glob_in w dir file
    else match glob f w dir with None => None | Some m => concat_opt (map (fun d => glob_in w d file) m) end.
Proof. reflexivity. Qed.

Lemma glob_expand w d n : plain d -> has_meta d = false -> tree_ok n -> tree_distinct n -> exactly w d n ->
  forall pss ts, Forall2 written pss ts -> Forall name_ok ts -> forall fuel, (length ts <= fuel)%nat ->
  glob fuel w (under d ts) = Some (map (fun q => under d (fst q)) (expand (map (map term_of) pss) n)).
Proof.
  intros P M Ok Di X. induction pss as [|ps pss IH] using rev_ind; intros ts W On fuel Hf.
  - inversion W; subst. rewrite under_nil. rewrite glob_no_meta by exact M.
    destruct (X [] (Forall_nil _)) as [X1 _]. destruct (X1 n (EntrySelf n)) as (L & _). rewrite under_nil in L. rewrite L.
    cbn. rewrite under_nil. reflexivity.
  - apply Forall2_app_inv_l in W as (ts0 & t1 & W0 & W1 & ->). inversion W1 as [|? t ? ? Wt W2]; subst. inversion W2; subst. clear W1 W2.
    apply Forall_app in On as [O0 O1]. inversion O1 as [|? ? Ot _]; subst. pose proof Ot as (_ & St & _).
    assert (Lit : existsb has_meta ts0 = false ->
      Forall2 (fun c t => forall n, name_ok n -> (matches c n = true <-> n = t)) (map (map term_of) pss) ts0).
    { clear - W0. induction W0 as [|p t pss ts Wt W IHw]; intros H; cbn [map existsb] in *; constructor.
      - apply Bool.orb_false_iff in H as [H _]. intros n (_ & Hs & _). rewrite matches_fits by exact Hs. apply written_literal; auto.
      - apply IHw. apply Bool.orb_false_iff in H as [_ H]. exact H. }
    rewrite map_app. cbn [map]. rewrite expand_snoc.
    destruct (has_meta (under d (ts0 ++ [t]))) eqn:Em.
    + assert (LS : glob fuel w (under d (ts0 ++ [t])) =
        if negb (has_meta (under d ts0)) then glob_in w (under d ts0) t
        else match fuel with O => None | S f => match glob f w (under d ts0) with None => None | Some m => concat_opt (map (fun d => glob_in w d t) m) end end).
      { rewrite under_snoc in *. destruct fuel; cbn [glob]; rewrite Em; cbn [negb]; rewrite split_file_app by exact St;
          rewrite clean_glob_app by (apply plain_nonnil, plain_under; auto); reflexivity. }
      rewrite LS. destruct (has_meta (under d ts0)) eqn:E0; cbn [negb].
      * destruct fuel as [|f]; [rewrite app_length in Hf; cbn in Hf; lia|].
        rewrite (IH ts0 W0 O0 f) by (rewrite app_length in Hf; cbn in Hf; lia).
        assert (En : forall q, In q (expand (map (map term_of) pss) n) -> entry n (fst q) (snd q)) by (intros [ns m] I; apply expand_entry in I; apply I).
        revert En. generalize (expand (map (map term_of) pss) n). intros l En. rewrite map_map.
        induction l as [|[ns m] l IHl]; [reflexivity|]. cbn [map concat_opt flat_map fst].
        rewrite (glob_in_entry w d n ns m t ps P Ok X (En (ns, m) (or_introl eq_refl)) Wt).
        rewrite IHl by (intros q I; apply En; right; exact I). rewrite map_app. reflexivity.
      * rewrite has_meta_under in E0. apply Bool.orb_false_iff in E0 as [_ E0].
        destruct (expand_literal _ _ (Lit E0) n Ok Di) as [(m & E & Xe)|[E Xe]]; rewrite Xe; cbn [flat_map].
        -- rewrite app_nil_r. apply (glob_in_entry w d n ts0 m t ps); auto.
        -- destruct (proj2 (X ts0 O0) E) as [_ D]. unfold glob_in. rewrite D. reflexivity.
    + rewrite glob_no_meta by exact Em. rewrite has_meta_under in Em. apply Bool.orb_false_iff in Em as [_ Em].
      rewrite existsb_app in Em. apply Bool.orb_false_iff in Em as [E0 E1].
      assert (L1 : Forall2 (fun c t => forall n, name_ok n -> (matches c n = true <-> n = t)) (map (map term_of) pss ++ [map term_of ps]) (ts0 ++ [t])).
      { apply Forall2_app; [exact (Lit E0)|]. constructor; [|constructor]. cbn in E1. apply Bool.orb_false_iff in E1 as [E1 _].
        intros k (_ & Hs & _). rewrite matches_fits by exact Hs. apply written_literal; auto. }
      assert (Ot2 : Forall name_ok (ts0 ++ [t])) by (apply Forall_app; auto).
      rewrite <- expand_snoc. destruct (expand_literal _ _ L1 n Ok Di) as [(m & E & Xe)|[E Xe]]; rewrite Xe; cbn [map fst].
      * destruct (proj1 (X _ Ot2) m E) as (L & _). rewrite L. reflexivity.
      * destruct (proj2 (X _ Ot2) E) as [L _]. rewrite L. reflexivity.
Qed.

Lemma under_length d ts : (length ts <= length (under d ts))%nat.
Proof. unfold under. rewrite app_length. induction ts as [|t ts IH]; cbn [flat_map length]; [lia|]. rewrite !app_length. change (length (T "/")) with 1%nat. lia. Qed.

Lemma list_glob_expand w d n pss ts : plain d -> has_meta d = false -> tree_ok n -> tree_distinct n -> exactly w d n ->
  ts <> [] -> Forall2 written pss ts -> Forall name_ok ts ->
  list_glob_files w d (join (T "/") ts) =
  Some (map (fun q => join (T "/") (fst q)) (filter (fun q => is_file w (under d (fst q))) (expand (map (map term_of) pss) n))).
Proof.
  intros P M Ok Di X N W On. unfold list_glob_files. rewrite join_path_names by auto.
  rewrite (glob_expand w d n P M Ok Di X pss ts W On) by apply under_length. f_equal.
  assert (Ne : forall q, In q (expand (map (map term_of) pss) n) -> fst q <> []).
  { intros [ns m] I. apply expand_entry in I as [_ L]. cbn. rewrite map_length in L.
    intros ->. inversion W; subst; [contradiction|discriminate L]. }
  revert Ne. generalize (expand (map (map term_of) pss) n). intros l Ne.
  induction l as [|q l IH]; [reflexivity|]. cbn [map filter]. specialize (IH (fun q I => Ne q (or_intror I))).
  destruct (is_file w (under d (fst q))); cbn [map]; rewrite IH; [|reflexivity].
  rewrite remove_prefix_under by (apply Ne; left; reflexivity). reflexivity.
Qed.

(* ---------- membership ---------- *)
Lemma expansion_in pss n l : expansion pss n l -> tree_ok n -> forall ns m, In (ns, m) l <-> entry n ns m /\ Forall2 fits pss ns.
Proof.
  intros H Ok. apply expand_expansion in H; [|exact Ok]. subst l. revert n Ok. induction pss as [|p pss IH]; intros n Ok ns m.
  - cbn. split.
    + intros [[= <- <-]|[]]. split; constructor.
    + intros [E F]. inversion F; subst. inversion E; subst. auto.
  - cbn [map expand]. destruct n as [| |[es|]|].
    1,2,4,5: split; [intros []|intros [E F]; inversion F; subst; inversion E].
    inversion Ok as [| | | |es' Hn Ht]; subst es'.
    assert (G : In (ns, m) (expand_children (expand (map (map term_of) pss)) (map term_of p) es) <->
      exists name k ns', ns = name :: ns' /\ In (name, k) es /\ fits p name /\ entry k ns' m /\ Forall2 fits pss ns').
    { clear Ok. induction es as [|[name k] es IHe]; [split; [intros []|intros (? & ? & ? & _ & [] & _)]|].
      inversion Hn as [|? ? N1 N2]; subst. inversion Ht as [|? ? T1 T2]; subst. cbn [fst snd] in *. pose proof N1 as (_ & Ns & _).
      cbn [expand_children]. rewrite in_app_iff, (IHe N2 T2). split.
      - intros [H|(a & b & c & -> & I & R)]; [|exists a, b, c; cbn; tauto].
        destruct (matches (map term_of p) name) eqn:M; [|destruct H]. apply in_map_iff in H as ([ns' m'] & [= <- <-] & H).
        apply (IH k T1) in H as [E F]. exists name, k, ns'. cbn. repeat split; auto. apply matches_fits; auto.
      - intros (a & b & c & -> & [[= <- <-]|I] & F & E & Fs); [left|right; exists a, b, c; auto].
        apply (matches_fits p name Ns) in F. rewrite F. apply in_map_iff. exists (c, m). split; [reflexivity|]. apply IH; auto. }
    rewrite G. split.
    + intros (name & k & ns' & -> & I & F & E & Fs). split; [econstructor; eauto|constructor; auto].
    + intros [E F]. inversion F; subst. inversion E; subst. eauto 10.
Qed.

(* ---------- a file system that holds exactly a tree ---------- *)
Fixpoint find_entry (name : text) (es : list (text * node)) : option node :=
  match es with [] => None | (a, k) :: r => if text_eqb a name then Some k else find_entry name r end.
Fixpoint lookup (n : node) (ns : list text) : option node :=
  match ns with
  | [] => Some n
  | a :: r => match n with Dir (Some es) => match find_entry a es with Some k => lookup k r | None => None end | _ => None end
  end.
Definition fs_of (d : text) (n : node) : fs :=
  let at_ p := let r := skipn (length d) p in
               if has_prefix p d then match r with [] => Some n | _ => lookup n (split_slash (tl r)) end else None in
  {| lstat := at_;
     is_file := fun p => match at_ p with Some File => true | _ => false end;
     dir_names := fun p => match at_ p with Some (Dir (Some es)) => Some (map fst es) | _ => None end |}.

Lemma find_entry_in name es : NoDup (map fst es) -> forall k, find_entry name es = Some k <-> In (name, k) es.
Proof.
  induction es as [|[a b] es IH]; intros D k; cbn [find_entry].
  - split; [discriminate|intros []].
  - inversion D; subst. destruct (text_eqb a name) eqn:E.
    + apply text_eqb_eq in E. subst a. split; [intros [= <-]; left; reflexivity|]. intros [[= ->]|I]; [reflexivity|].
      exfalso. apply H1. apply (in_map fst) in I. exact I.
    + rewrite IH by auto. apply text_eqb_neq in E. split; [intros I; right; exact I|]. intros [[= <- _]|I]; [contradiction|exact I].
Qed.
Lemma lookup_entry ns : forall n m, tree_distinct n -> (lookup n ns = Some m <-> entry n ns m).
Proof.
  induction ns as [|a ns IH]; intros n m Di; cbn [lookup].
  - split; [intros [= ->]; constructor|intros E; inversion E; reflexivity].
  - destruct n as [| |[es|]|].
    1,2,4,5: split; [discriminate|intros E; inversion E].
    inversion Di as [| | | |es' Hd Hr]; subst es'. rewrite Forall_forall in Hr. split.
    + destruct (find_entry a es) as [k|] eqn:F; [|discriminate]. apply (find_entry_in a es Hd) in F. intros H.
      apply IH in H; [econstructor; eauto|]. exact (Hr _ F).
    + intros E. inversion E as [|? ? c ? ? I E']; subst. rewrite (proj2 (find_entry_in a es Hd c) I). apply IH; [exact (Hr _ I)|exact E'].
Qed.

Lemma fs_of_exactly d n : tree_ok n -> tree_distinct n -> exactly (fs_of d n) d n.
Proof.
  intros Ok Di ns On.
  assert (A : forall p, p = under d ns -> (if has_prefix p d then match skipn (length d) p with [] => Some n | _ => lookup n (split_slash (tl (skipn (length d) p))) end else None) = lookup n ns).
  { intros p ->. unfold under. rewrite has_prefix_app, skipn_app, skipn_all, Nat.sub_diag. cbn [skipn app].
    destruct ns as [|a ns]; [reflexivity|]. rewrite flat_map_join by discriminate. cbn [app T tl].
    rewrite <- (split_slash_join (a :: ns)) at 2; [reflexivity|discriminate|apply ok_no_slash; exact On]. }
  split.
  - intros m E. apply (lookup_entry ns n m Di) in E. unfold fs_of. cbn [lstat is_file dir_names]. rewrite (A _ eq_refl), E.
    repeat split; intros; subst; reflexivity.
  - intros N. assert (E : lookup n ns = None).
    { destruct (lookup n ns) as [m|] eqn:E; [|reflexivity]. apply lookup_entry in E; [|exact Di]. destruct (N m E). }
    unfold fs_of. cbn [lstat dir_names]. rewrite (A _ eq_refl), E. auto.
Qed.
