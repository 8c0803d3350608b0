(** Proofs for C123. *)
From Verif Require Import GoBase GoBaseFacts PlaylistModel SliceModel SliceSpec.
Local Open Scope nat_scope.

(** *** Lists *)
Lemma nth_error_ext' {A} (a b : list A) : (forall i, nth_error a i = nth_error b i) -> a = b.
Proof.
  revert b; induction a as [|x a IH]; intros [|y b] H; try reflexivity;
    [specialize (H 0); discriminate|specialize (H 0); discriminate|].
  pose proof (H 0) as H0. cbn in H0. injection H0 as <-. f_equal. apply IH. intro i. exact (H (S i)).
Qed.
Lemma nth_error_firstn' {A} n : forall (l : list A) i, nth_error (firstn n l) i = if i <? n then nth_error l i else None.
Proof.
  induction n as [|n IH]; intros [|x l] [|i]; cbn; try reflexivity.
  - match goal with |- _ = if ?b then _ else _ => destruct b; reflexivity end.
  - rewrite IH. reflexivity.
Qed.
Lemma nth_error_skipn' {A} n : forall (l : list A) i, nth_error (skipn n l) i = nth_error l (n + i).
Proof.
  induction n as [|n IH]; intros [|x l] i; cbn; try reflexivity; [destruct i; reflexivity|]. apply IH.
Qed.
Lemma nth_error_app' {A} (a b : list A) i : nth_error (a ++ b) i = if i <? length a then nth_error a i else nth_error b (i - length a).
Proof.
  destruct (i <? length a) eqn:E; [apply Nat.ltb_lt in E; now apply nth_error_app1|apply Nat.ltb_ge in E; now apply nth_error_app2].
Qed.
Lemma nth_error_overwrite off l a i : off + length l <= length a ->
  nth_error (overwrite off l a) i =
    if i <? off then nth_error a i else if i <? off + length l then nth_error l (i - off) else nth_error a i.
Proof.
  intro H. unfold overwrite. rewrite !nth_error_app', firstn_length, nth_error_firstn', nth_error_skipn'.
  rewrite Nat.min_l by lia. destruct (i <? off) eqn:E; [reflexivity|]. apply Nat.ltb_ge in E.
  destruct (i <? off + length l) eqn:E2.
  - apply Nat.ltb_lt in E2. now replace (i - off <? length l) with true by (symmetry; apply Nat.ltb_lt; lia).
  - apply Nat.ltb_ge in E2. replace (i - off <? length l) with false by (symmetry; apply Nat.ltb_ge; lia).
    f_equal. lia.
Qed.
Lemma overwrite_length off l a : off + length l <= length a -> length (overwrite off l a) = length a.
Proof. intro H. unfold overwrite. rewrite !app_length, firstn_length, skipn_length. lia. Qed.
Lemma overwrite_nil off a : overwrite off [] a = a.
Proof. unfold overwrite. cbn. rewrite Nat.add_0_r. apply firstn_skipn. Qed.
Lemma overwrite_view o n i l a : i + length l <= n -> o + n <= length a ->
  firstn n (skipn o (overwrite (o + i) l a)) = overwrite i l (firstn n (skipn o a)).
Proof.
  intros H1 H2. apply nth_error_ext'. intro j.
  rewrite nth_error_overwrite by (rewrite firstn_length, skipn_length; lia).
  rewrite !nth_error_firstn', !nth_error_skipn', nth_error_overwrite by lia.
  destruct (j <? n) eqn:E.
  - apply Nat.ltb_lt in E. destruct (j <? i) eqn:E1.
    + apply Nat.ltb_lt in E1. replace (o + j <? o + i) with true by (symmetry; apply Nat.ltb_lt; lia). reflexivity.
    + apply Nat.ltb_ge in E1. replace (o + j <? o + i) with false by (symmetry; apply Nat.ltb_ge; lia).
      destruct (j <? i + length l) eqn:E2.
      * apply Nat.ltb_lt in E2. replace (o + j <? o + i + length l) with true by (symmetry; apply Nat.ltb_lt; lia).
        f_equal. lia.
      * apply Nat.ltb_ge in E2. replace (o + j <? o + i + length l) with false by (symmetry; apply Nat.ltb_ge; lia). reflexivity.
  - apply Nat.ltb_ge in E. replace (j <? i) with false by (symmetry; apply Nat.ltb_ge; lia).
    replace (j <? i + length l) with false by (symmetry; apply Nat.ltb_ge; lia). reflexivity.
Qed.

(** *** The heap *)
Lemma array_set h a x b : a < length h -> array_of (set_array h a x) b = if b =? a then x else array_of h b.
Proof.
  intro H. unfold array_of, set_array. destruct (b =? a) eqn:E.
  - apply Nat.eqb_eq in E as ->. rewrite app_nth2, firstn_length, Nat.min_l, Nat.sub_diag by (rewrite ?firstn_length; lia). reflexivity.
  - apply Nat.eqb_neq in E. destruct (Nat.lt_ge_cases b a).
    + rewrite app_nth1 by (rewrite firstn_length; lia). rewrite <- (firstn_skipn a h) at 2.
      rewrite (app_nth1 (firstn a h) (skipn a h)) by (rewrite firstn_length; lia). reflexivity.
    + rewrite app_nth2 by (rewrite firstn_length; lia). rewrite firstn_length, Nat.min_l by lia.
      destruct (b - a) as [|q] eqn:Q; [lia|]. cbn [nth].
      rewrite <- (firstn_skipn (S a) h) at 2. rewrite app_nth2 by (rewrite firstn_length; lia).
      rewrite firstn_length, Nat.min_l by lia. f_equal. lia.
Qed.
Lemma set_array_length h a x : a < length h -> length (set_array h a x) = length h.
Proof. intro H. unfold set_array. rewrite app_length, firstn_length. cbn [length]. rewrite skipn_length. lia. Qed.

Definition valid (h : heap) (s : slice) : Prop :=
  s_arr s < length h /\ s_off s + s_cap s <= length (array_of h (s_arr s)) /\ s_len s <= s_cap s.

(** Only the array of [s] (and only if it has room at all) is touched. *)
Definition touches (h h' : heap) (s : slice) : Prop :=
  length h <= length h' /\ forall a, a < length h ->
    length (array_of h' a) = length (array_of h a)
    /\ (a <> s_arr s \/ s_cap s = 0 -> array_of h' a = array_of h a).
Definition from_ (h : heap) (s s' : slice) : Prop :=
  (s_arr s' = s_arr s /\ s_cap s' <= s_cap s) \/ length h <= s_arr s'.
Definition disjoint (s t : slice) : Prop := s_arr s <> s_arr t \/ s_cap s = 0 \/ s_cap t = 0.

Lemma touches_refl h s : touches h h s.
Proof. split; [lia|]. intros. split; reflexivity. Qed.
Lemma touches_trans h1 h2 h3 s : touches h1 h2 s -> touches h2 h3 s -> touches h1 h3 s.
Proof.
  intros [L1 H1] [L2 H2]. split; [lia|]. intros a Ha. destruct (H1 a Ha) as [A1 B1]. destruct (H2 a ltac:(lia)) as [A2 B2].
  split; [lia|]. intro X. rewrite B2, B1 by exact X. reflexivity.
Qed.
Lemma touches_valid h h' s t : touches h h' s -> valid h t -> valid h' t.
Proof. intros [L H] (V1 & V2 & V3). destruct (H _ V1) as [A _]. unfold valid. rewrite A. repeat split; [lia|exact V2|exact V3]. Qed.
Lemma touches_view h h' s t : touches h h' s -> valid h t -> disjoint s t -> view h' t = view h t.
Proof.
  intros [L H] (V1 & V2 & V3) D. unfold view. destruct D as [D|[D|D]].
  - destruct (H _ V1) as [_ B]. rewrite B by (left; congruence). reflexivity.
  - destruct (H _ V1) as [_ B]. rewrite B by (now right). reflexivity.
  - assert (s_len t = 0) as -> by lia. reflexivity.
Qed.
Lemma from_disjoint h s s' t : valid h t -> from_ h s s' -> disjoint s t -> disjoint s' t.
Proof.
  intros (V1 & _) F D. destruct F as [[F1 F2]|F].
  - destruct D as [D|[D|D]]; [left; congruence|right; left; lia|now right; right].
  - left. lia.
Qed.
Lemma from_trans h h' s1 s2 s3 : length h <= length h' -> from_ h s1 s2 -> from_ h' s2 s3 -> from_ h s1 s3.
Proof. intros L [[A B]|A] [[C D]|C]; [left; split; [congruence|lia]|right; lia|right; congruence || lia|right; lia]. Qed.

(** *** The operations *)
Lemma write_view h s i l : valid h s -> i + length l <= s_len s -> view (write h s i l) s = overwrite i l (view h s).
Proof.
  intros (V1 & V2 & V3) H. unfold view, write. rewrite array_set, Nat.eqb_refl by exact V1. apply overwrite_view; lia.
Qed.
Lemma write_touches h s i l : valid h s -> i + length l <= s_cap s -> touches h (write h s i l) s.
Proof.
  intros (V1 & V2 & V3) H. unfold write. split; [rewrite set_array_length; lia|].
  intros a Ha. rewrite array_set by exact V1. destruct (a =? s_arr s) eqn:E.
  - apply Nat.eqb_eq in E as ->. split; [apply overwrite_length; lia|]. intros [X|X]; [congruence|].
    assert (l = []) as -> by (destruct l; cbn in H; [reflexivity|lia]). apply overwrite_nil.
  - split; reflexivity.
Qed.
Lemma view_length h s : valid h s -> length (view h s) = s_len s.
Proof. intros (V1 & V2 & V3). unfold view. rewrite firstn_length, skipn_length. lia. Qed.
Lemma zlen_view h s : valid h s -> zlen (view h s) = Z.of_nat (s_len s).
Proof. intro V. unfold zlen. now rewrite view_length. Qed.

Lemma alloc_ok h l c : length l <= c -> forall h' s, alloc h l c = (h', s) ->
  view h' s = l /\ valid h' s /\ length h <= s_arr s /\ (forall t, touches h h' t) /\ s_len s = length l.
Proof.
  intros Hc h' s [= <- <-]. unfold view, valid, touches. cbn.
  assert (A : array_of (h ++ [l ++ repeat [] (c - length l)]) (length h) = l ++ repeat [] (c - length l)).
  { unfold array_of. rewrite app_nth2, Nat.sub_diag by lia. reflexivity. }
  rewrite A. split; [rewrite firstn_app, Nat.sub_diag, firstn_all, firstn_O, app_nil_r; reflexivity|].
  split; [rewrite !app_length, repeat_length; cbn; lia|]. split; [lia|]. split; [|reflexivity].
  intros t. split; [rewrite app_length; lia|]. intros a Ha.
  assert (B : array_of (h ++ [l ++ repeat [] (c - length l)]) a = array_of h a) by (unfold array_of; now rewrite app_nth1).
  rewrite B. split; reflexivity.
Qed.

Lemma append_ok h s v extra h' s' : valid h s -> go_append h s v extra = (h', s') ->
  view h' s' = view h s ++ [v] /\ valid h' s' /\ touches h h' s /\ from_ h s s' /\ s_len s' = S (s_len s).
Proof.
  intros V. pose proof V as (V1 & V2 & V3). unfold go_append. destruct (s_len s <? s_cap s) eqn:E.
  - apply Nat.ltb_lt in E. intros [= <- <-].
    set (s' := {| s_arr := s_arr s; s_off := s_off s; s_len := S (s_len s); s_cap := s_cap s |}).
    assert (V' : valid h s') by (unfold valid; cbn; lia).
    assert (Wr : write h s (s_len s) [v] = write h s' (s_len s) [v]) by reflexivity.
    assert (T : touches h (write h s (s_len s) [v]) s) by (apply write_touches; [exact V|cbn; lia]).
    split; [|split; [exact (touches_valid _ _ _ _ T V')|split; [exact T|split; [left; cbn; split; [reflexivity|lia]|reflexivity]]]].
    rewrite Wr, write_view by (cbn; try exact V'; lia).
    apply nth_error_ext'. intro i. rewrite nth_error_overwrite by (rewrite view_length by exact V'; cbn; lia).
    rewrite nth_error_app', (view_length h s V). cbn [length].
    assert (X : i < s_len s -> nth_error (view h s') i = nth_error (view h s) i).
    { intro Hi. unfold view. cbn [s_len s_off s_arr s']. rewrite !nth_error_firstn'.
      replace (i <? S (s_len s)) with true by (symmetry; apply Nat.ltb_lt; lia).
      replace (i <? s_len s) with true by (symmetry; apply Nat.ltb_lt; lia). reflexivity. }
    destruct (i <? s_len s) eqn:Ei; [apply Nat.ltb_lt in Ei; exact (X Ei)|]. apply Nat.ltb_ge in Ei.
    destruct (i <? s_len s + 1) eqn:Ej; [reflexivity|]. apply Nat.ltb_ge in Ej.
    assert (Y : forall (l : list song) j, length l <= j -> nth_error l j = None) by (intros; now apply nth_error_None).
    rewrite !Y; [reflexivity|cbn; lia|rewrite view_length by exact V'; cbn; lia].
  - intro A. destruct (alloc_ok h (view h s ++ [v]) (S (s_len s) + extra)) with (h' := h') (s := s') as (B1 & B2 & B3 & B4 & B5).
    { rewrite app_length, view_length by exact V. cbn. lia. }
    { exact A. }
    split; [exact B1|]. split; [exact B2|]. split; [apply B4|]. split; [now right|].
    rewrite B5, app_length, view_length by exact V. cbn. lia.
Qed.

Lemma slice_set_overwrite (l : list song) i v :
  slice_set l i v = if ((i <? 0) || (zlen l <=? i))%Z then Panic else Ok (overwrite (Z.to_nat i) [v] l).
Proof.
  unfold slice_set, overwrite. destruct ((i <? 0) || (zlen l <=? i))%Z; [reflexivity|]. cbn [length app].
  now rewrite Nat.add_1_r.
Qed.
Lemma store_ok h s i v : valid h s ->
  match slice_set (view h s) i v with
  | Panic => go_store h s i v = Panic
  | Ok l => exists h', go_store h s i v = Ok h' /\ view h' s = l /\ touches h h' s
  end.
Proof.
  intros V. rewrite slice_set_overwrite, zlen_view by exact V. unfold go_store.
  destruct ((i <? 0) || (Z.of_nat (s_len s) <=? i))%Z eqn:E; [reflexivity|].
  apply orb_false_iff in E as [E1 E2]. apply Z.ltb_ge in E1. apply Z.leb_gt in E2.
  eexists. split; [reflexivity|]. destruct V as (V1 & V2 & V3). split.
  - apply write_view; [repeat split; assumption|cbn; lia].
  - apply write_touches; [repeat split; assumption|cbn; lia].
Qed.

Lemma copy_ok h p d e : valid h p ->
  match copy_within (view h p) d e with
  | Panic => (do d' <- go_from p d; do e' <- go_from p e; Ok (go_copy h d' e')) = Panic
  | Ok l => exists d' e', go_from p d = Ok d' /\ go_from p e = Ok e'
      /\ view (go_copy h d' e') p = l /\ touches h (go_copy h d' e') p
  end.
Proof.
  intro V. unfold copy_within. rewrite zlen_view by exact V. unfold go_from.
  destruct ((d <? 0) || (Z.of_nat (s_len p) <? d))%Z eqn:E1; [reflexivity|].
  destruct ((e <? 0) || (Z.of_nat (s_len p) <? e))%Z eqn:E2.
  { cbn [obind]. apply orb_true_iff in E2 as [E2|E2]; rewrite E2; cbn [orb]; [|rewrite !orb_true_r]; reflexivity. }
  apply orb_false_iff in E1 as [E1 E1']. apply orb_false_iff in E2 as [E2 E2']. rewrite E2, E2'. cbn [orb obind].
  apply Z.ltb_ge in E1, E1', E2, E2'. pose proof V as (V1 & V2 & V3).
  eexists. eexists. split; [reflexivity|]. split; [reflexivity|].
  set (dn := Z.to_nat d). set (en := Z.to_nat e). rewrite view_length by exact V.
  assert (W : go_copy h {| s_arr := s_arr p; s_off := s_off p + dn; s_len := s_len p - dn; s_cap := s_cap p - dn |}
      {| s_arr := s_arr p; s_off := s_off p + en; s_len := s_len p - en; s_cap := s_cap p - en |}
    = write h p dn (firstn (Nat.min (s_len p - dn) (s_len p - en)) (skipn en (view h p)))).
  { unfold go_copy, write, view. cbn. rewrite Nat.add_0_r. do 3 f_equal.
    rewrite skipn_firstn_comm, skipn_skipn. now rewrite (Nat.add_comm en). }
  rewrite W. set (n := Nat.min (s_len p - dn) (s_len p - en)).
  assert (L : length (firstn n (skipn en (view h p))) = n).
  { rewrite firstn_length, skipn_length, view_length by exact V. lia. }
  split.
  - rewrite write_view; [|exact V|rewrite L; lia]. unfold overwrite. rewrite L. reflexivity.
  - apply write_touches; [exact V|rewrite L; lia].
Qed.

Lemma to_ok h p j : valid h p -> (j <= zlen (view h p))%Z ->
  match slice_to (view h p) j with
  | Panic => go_to p j = Panic
  | Ok l => exists p', go_to p j = Ok p' /\ view h p' = l /\ valid h p' /\ from_ h p p'
  end.
Proof.
  intros V H. pose proof V as (V1 & V2 & V3). unfold slice_to, go_to. rewrite zlen_view in H |- * by exact V.
  destruct (j <? 0)%Z eqn:E; [reflexivity|]. apply Z.ltb_ge in E.
  replace (Z.of_nat (s_len p) <? j)%Z with false by (symmetry; apply Z.ltb_ge; lia).
  replace (Z.of_nat (s_cap p) <? j)%Z with false by (symmetry; apply Z.ltb_ge; lia). cbn [orb].
  eexists. split; [reflexivity|]. split; [|split].
  - unfold view. cbn. rewrite firstn_firstn, Nat.min_l by lia. reflexivity.
  - unfold valid. cbn. lia.
  - left. cbn. lia.
Qed.

Definition result (h : heap) (p : slice) (h' : heap) (p' : slice) (l : list song) : Prop :=
  view h' p' = l /\ valid h' p' /\ touches h h' p /\ from_ h p p'.

Lemma insert_ok h p s i extra : valid h p ->
  match insert_song (view h p) s i with
  | Panic => insert_h h p s i extra = Panic
  | Ok l => exists h' p', insert_h h p s i extra = Ok (h', p') /\ result h p h' p' l
  end.
Proof.
  intro V. unfold insert_song, insert_h. rewrite zlen_view by exact V. set (k := (if i <? 0 then 0 else i)%Z).
  destruct (Z.of_nat (s_len p) <? k)%Z.
  - destruct (go_append h p s extra) as [h1 p1] eqn:A. destruct (append_ok _ _ _ _ _ _ V A) as (A1 & A2 & A3 & A4 & _).
    exists h1, p1. split; [reflexivity|]. split; [exact A1|]. split; [exact A2|]. split; [exact A3|exact A4].
  - destruct (go_append h p [] extra) as [h1 p1] eqn:A. destruct (append_ok _ _ _ _ _ _ V A) as (A1 & A2 & A3 & A4 & A5).
    rewrite <- A1. pose proof (copy_ok h1 p1 (k + 1) k A2) as C. cbv zeta beta.
    destruct (copy_within (view h1 p1) (k + 1) k) as [l1|]; cbn [obind].
    + destruct C as (d & e & -> & -> & C1 & C2). cbn [obind].
      pose proof (touches_valid _ _ _ _ C2 A2) as V2.
      pose proof (store_ok (go_copy h1 d e) p1 k s V2) as St. rewrite C1 in St.
      destruct (slice_set l1 k s) as [l2|].
      * destruct St as (h3 & -> & S1 & S2). cbn [obind]. exists h3, p1. split; [reflexivity|].
        split; [exact S1|]. split; [exact (touches_valid _ _ _ _ S2 V2)|]. split; [|exact A4].
        pose proof (touches_trans _ _ _ _ C2 S2) as T. clear -A3 A4 T V.
        destruct A3 as [L1 H1]. destruct T as [L2 H2]. destruct V as (V1 & _). split; [lia|].
        intros a Ha. destruct (H1 a Ha) as [B1 B2]. destruct (H2 a ltac:(lia)) as [B3 B4]. split; [lia|].
        intro X. rewrite B4; [now apply B2|]. destruct A4 as [[A4 A5]|A4].
        -- destruct X as [X|X]; [left; congruence|right; lia].
        -- left. lia.
      * rewrite St. reflexivity.
    + revert C. destruct (go_from p1 (k + 1)); [|reflexivity]. cbn [obind]. destruct (go_from p1 k); [discriminate|reflexivity].
Qed.

Lemma remove_ok h p i : valid h p ->
  match remove_song (view h p) i with
  | Panic => remove_h h p i = Panic
  | Ok (l, r) => exists h' p', remove_h h p i = Ok (h', p', r) /\ result h p h' p' l
  end.
Proof.
  intro V. unfold remove_song, remove_h. rewrite zlen_view by exact V.
  destruct (s_len p =? 0) eqn:E.
  { apply Nat.eqb_eq in E. rewrite E. change (Z.of_nat 0 =? 0)%Z with true. cbv iota. exists h, p. split; [reflexivity|].
    split; [reflexivity|]. split; [exact V|]. split; [apply touches_refl|]. left. lia. }
  apply Nat.eqb_neq in E. replace (Z.of_nat (s_len p) =? 0)%Z with false by (symmetry; apply Z.eqb_neq; lia).
  set (k := (if i <? 0 then 0 else i)%Z). cbv zeta. unfold go_load.
  destruct (Z.of_nat (s_len p) <? k)%Z.
  - destruct (slice_get (view h p) (Z.of_nat (s_len p) - 1)) as [r|]; [|reflexivity]. cbn [obind].
    pose proof (to_ok h p (Z.of_nat (s_len p) - 1) V) as T. rewrite zlen_view in T by exact V. specialize (T ltac:(lia)).
    destruct (slice_to (view h p) (Z.of_nat (s_len p) - 1)) as [l|].
    + destruct T as (p' & -> & T1 & T2 & T3). cbn [obind]. exists h, p'. split; [reflexivity|].
      split; [exact T1|]. split; [exact T2|]. split; [apply touches_refl|exact T3].
    + rewrite T. reflexivity.
  - destruct (slice_get (view h p) k) as [r|]; [|reflexivity]. cbn [obind].
    pose proof (copy_ok h p k (k + 1) V) as C. destruct (copy_within (view h p) k (k + 1)) as [l1|] eqn:Cw.
    + destruct C as (d & e & -> & -> & C1 & C2). cbn [obind].
      pose proof (touches_valid _ _ _ _ C2 V) as V2.
      assert (L1 : zlen l1 = Z.of_nat (s_len p)) by (rewrite <- C1; now apply zlen_view). rewrite L1.
      pose proof (store_ok (go_copy h d e) p (Z.of_nat (s_len p) - 1) [] V2) as St. rewrite C1 in St.
      destruct (slice_set l1 (Z.of_nat (s_len p) - 1) []) as [l2|]; [|rewrite St; reflexivity].
      destruct St as (h2 & -> & S1 & S2). cbn [obind]. pose proof (touches_valid _ _ _ _ S2 V2) as V3.
      assert (L2 : zlen l2 = Z.of_nat (s_len p)) by (rewrite <- S1; now apply zlen_view). rewrite L2.
      pose proof (to_ok h2 p (Z.of_nat (s_len p) - 1) V3) as T. rewrite zlen_view in T by exact V3. specialize (T ltac:(lia)).
      rewrite S1 in T. destruct (slice_to l2 (Z.of_nat (s_len p) - 1)) as [l3|]; [|rewrite T; reflexivity].
      destruct T as (p' & -> & T1 & T2 & T3). cbn [obind]. exists h2, p'. split; [reflexivity|].
      split; [exact T1|]. split; [exact T2|]. split; [exact (touches_trans _ _ _ _ C2 S2)|].
      destruct T3 as [T3|T3]; [now left|right]. destruct C2 as [C2 _]. destruct S2 as [S2 _]. lia.
    + revert C. destruct (go_from p k); [|reflexivity]. cbn [obind]. destruct (go_from p (k + 1)); [discriminate|reflexivity].
Qed.

Lemma edit_ok h p e extra : valid h p ->
  match apply_edit (view h p) e with
  | Panic => edit_h h p e extra = Panic
  | Ok (l, r) => exists h' p', edit_h h p e extra = Ok (h', p', r) /\ result h p h' p' l
  end.
Proof.
  intro V. destruct e as [s|s i|i]; cbn [apply_edit edit_h].
  - unfold add_h. destruct (go_append h p s extra) as [h1 p1] eqn:A. destruct (append_ok _ _ _ _ _ _ V A) as (A1 & A2 & A3 & A4 & _).
    exists h1, p1. split; [reflexivity|]. unfold add_song. split; [exact A1|]. auto.
  - pose proof (insert_ok h p s i extra V) as I. destruct (insert_song (view h p) s i) as [l|]; cbn [obind].
    + destruct I as (h' & p' & -> & R). exists h', p'. split; [reflexivity|exact R].
    + now rewrite I.
  - pose proof (remove_ok h p i V) as R. destruct (remove_song (view h p) i) as [[l r]|]; cbn [obind].
    + destruct R as (h' & p' & -> & R). exists h', p'. split; [reflexivity|exact R].
    + now rewrite R.
Qed.

Lemma songs_ok h p h' r : valid h p -> songs_h h p = (h', r) ->
  view h' r = view h p /\ valid h' r /\ (forall t, touches h h' t) /\ length h <= s_arr r.
Proof.
  intro V. unfold songs_h. destruct (alloc h (repeat [] (s_len p)) (s_len p)) as [h1 r1] eqn:A.
  destruct (alloc_ok h (repeat [] (s_len p)) (s_len p)) with (h' := h1) (s := r1) as (A1 & A2 & A3 & A4 & A5).
  { rewrite repeat_length. lia. } { exact A. }
  intros [= <- <-]. rewrite repeat_length in A5.
  assert (Vp : view h1 p = view h p).
  { apply (touches_view h h1 r1 p (A4 r1) V). left. destruct V as (V1 & _). lia. }
  unfold go_copy. rewrite A5, Nat.min_id, Vp.
  assert (F : firstn (s_len p) (view h p) = view h p) by (rewrite firstn_all2; [reflexivity|]; rewrite view_length by exact V; lia).
  rewrite F.
  assert (T : touches h1 (write h1 r1 0 (view h p)) r1).
  { apply write_touches; [exact A2|]. rewrite view_length by exact V. destruct A2 as (_ & _ & A2). lia. }
  split; [|split; [exact (touches_valid _ _ _ _ T A2)|split; [|exact A3]]].
  - rewrite write_view; [|exact A2|rewrite view_length by exact V; lia]. rewrite A1.
    unfold overwrite. cbn [firstn app plus]. rewrite skipn_all2; [apply app_nil_r|]. rewrite repeat_length, view_length by exact V. lia.
  - intro t. destruct (A4 t) as [L1 H1]. destruct T as [L2 H2]. split; [lia|]. intros a Ha.
    destruct (H1 a Ha) as [B1 B2]. destruct (H2 a ltac:(lia)) as [B3 B4]. split; [lia|]. intro X.
    rewrite B4 by (left; lia). now apply B2.
Qed.

(** *** Histories *)
Record apart (w : world) : Prop := {
  a_songs : valid (w_heap w) (w_songs w);
  a_held : forall o s, In (o, s) (w_held w) -> valid (w_heap w) s /\ disjoint (w_songs w) s;
  a_owners : forall o s o' s', In (o, s) (w_held w) -> In (o', s') (w_held w) -> o <> o' -> disjoint s s'
}.

Lemma disjoint_sym s t : disjoint s t -> disjoint t s.
Proof. intros [H|[H|H]]; [left; congruence|now right; right|now right; left]. Qed.

Definition others_kept (w w' : world) (who : option nat) : Prop :=
  forall o s, In (o, s) (w_held w) -> who <> Some o -> view (w_heap w') s = view (w_heap w) s.

(** One step: the playlist's value changes only by its own methods, others' slices only by
    what their owner does. *)
Lemma wstep_ok w a w' x : apart w -> wstep w a = Some (w', x) ->
  apart w' /\ others_kept w w' (actor w a) /\
  as_values (view (w_heap w) (w_songs w)) [a] = Ok (view (w_heap w') (w_songs w'), [x]).
Proof.
  intros [As Ah Ao]. destruct a as [e extra|o|k i v|k v extra|k i j]; cbn [wstep actor as_values].
  - pose proof (edit_ok (w_heap w) (w_songs w) e extra As) as Ed.
    destruct (edit_h (w_heap w) (w_songs w) e extra) as [[[h1 p1] r]|]; [|discriminate]. intros [= <- <-].
    destruct (apply_edit (view (w_heap w) (w_songs w)) e) as [[l q]|]; [|discriminate Ed].
    destruct Ed as (h' & p' & [= <- <- <-] & R1 & R2 & R3 & R4). cbn [w_heap w_songs].
    split; [|split].
    + constructor; cbn; [exact R2| |exact Ao]. intros o s H. destruct (Ah o s H) as [A1 A2].
      split; [exact (touches_valid _ _ _ _ R3 A1)|exact (from_disjoint _ _ _ _ A1 R4 A2)].
    + intros o s H _. destruct (Ah o s H) as [A1 A2]. exact (touches_view _ _ _ _ R3 A1 A2).
    + cbn. now rewrite R1.
  - destruct (songs_h (w_heap w) (w_songs w)) as [h1 r] eqn:S. intros [= <- <-].
    destruct (songs_ok _ _ _ _ As S) as (S1 & S2 & S3 & S4). cbn [w_heap w_songs].
    split; [|split].
    + constructor; cbn.
      * exact (touches_valid _ _ _ _ (S3 r) As).
      * intros o1 s H. apply in_app_iff in H as [H|[[= <- <-]|[]]].
        -- destruct (Ah o1 s H) as [A1 A2]. split; [exact (touches_valid _ _ _ _ (S3 r) A1)|exact A2].
        -- split; [exact S2|]. left. destruct As as (As & _). lia.
      * intros o1 s o2 s' H H' D. apply in_app_iff in H as [H|[[= <- <-]|[]]]; apply in_app_iff in H' as [H'|[[= <- <-]|[]]].
        -- exact (Ao _ _ _ _ H H' D).
        -- destruct (Ah _ _ H) as [(A1 & _) _]. left. lia.
        -- destruct (Ah _ _ H') as [(A1 & _) _]. left. lia.
        -- congruence.
    + intros o1 s H _. destruct (Ah o1 s H) as [A1 A2]. apply (touches_view _ _ r s (S3 r) A1). left. destruct A1 as (A1 & _). lia.
    + cbn. rewrite S1. assert (V : view h1 (w_songs w) = view (w_heap w) (w_songs w)).
      { apply (touches_view _ _ r _ (S3 r) As). left. destruct As as (As & _). lia. }
      now rewrite V.
  - destruct (nth_error (w_held w) k) as [[o s]|] eqn:K; [|discriminate]. apply nth_error_In in K.
    destruct (Ah o s K) as [A1 A2]. pose proof (store_ok (w_heap w) s i v A1) as St.
    destruct (go_store (w_heap w) s i v) as [h1|]; [|discriminate]. intros [= <- <-].
    destruct (slice_set (view (w_heap w) s) i v) as [l|]; [|discriminate St]. destruct St as (h' & [= <-] & _ & T).
    cbn [w_heap w_songs option_map fst]. split; [|split].
    + constructor; cbn; [exact (touches_valid _ _ _ _ T As)| |exact Ao].
      intros o1 s1 H. destruct (Ah o1 s1 H) as [B1 B2]. split; [exact (touches_valid _ _ _ _ T B1)|exact B2].
    + intros o1 s1 H D. cbn. destruct (Ah o1 s1 H) as [B1 B2]. apply (touches_view _ _ s s1 T B1).
      apply (Ao o s o1 s1 K H). intro X. apply D. now subst.
    + cbn. rewrite (touches_view _ _ s (w_songs w) T As (disjoint_sym _ _ A2)). reflexivity.
  - destruct (nth_error (w_held w) k) as [[o s]|] eqn:K; [|discriminate]. apply nth_error_In in K.
    destruct (Ah o s K) as [A1 A2]. destruct (go_append (w_heap w) s v extra) as [h1 r] eqn:G. intros [= <- <-].
    destruct (append_ok _ _ _ _ _ _ A1 G) as (G1 & G2 & T & F & _). cbn [w_heap w_songs option_map fst]. split; [|split].
    + constructor; cbn.
      * exact (touches_valid _ _ _ _ T As).
      * intros o1 s1 H. apply in_app_iff in H as [H|[[= <- <-]|[]]].
        -- destruct (Ah o1 s1 H) as [B1 B2]. split; [exact (touches_valid _ _ _ _ T B1)|exact B2].
        -- split; [exact G2|]. apply disjoint_sym. exact (from_disjoint _ _ _ _ As F (disjoint_sym _ _ A2)).
      * intros o1 s1 o2 s2 H H' D. apply in_app_iff in H as [H|[[= <- <-]|[]]]; apply in_app_iff in H' as [H'|[[= <- <-]|[]]].
        -- exact (Ao _ _ _ _ H H' D).
        -- destruct (Ah _ _ H) as [B1 _]. apply disjoint_sym. apply (from_disjoint _ _ _ _ B1 F). exact (Ao _ _ _ _ K H (not_eq_sym D)).
        -- destruct (Ah _ _ H') as [B1 _]. apply (from_disjoint _ _ _ _ B1 F). exact (Ao _ _ _ _ K H' D).
        -- congruence.
    + intros o1 s1 H D. cbn. destruct (Ah o1 s1 H) as [B1 B2]. apply (touches_view _ _ s s1 T B1).
      apply (Ao o s o1 s1 K H). intro X. apply D. now subst.
    + cbn. rewrite (touches_view _ _ s (w_songs w) T As (disjoint_sym _ _ A2)). reflexivity.
  - destruct (nth_error (w_held w) k) as [[o s]|] eqn:K; [|discriminate]. apply nth_error_In in K.
    destruct (Ah o s K) as [A1 A2]. destruct (go_to s j) as [s1|] eqn:G1; [|discriminate]. cbn [obind].
    destruct (go_from s1 i) as [r|] eqn:G2; [|discriminate]. intros [= <- <-].
    assert (X : valid (w_heap w) r /\ from_ (w_heap w) s r).
    { unfold go_to in G1. destruct ((j <? 0) || (Z.of_nat (s_cap s) <? j))%Z eqn:E1; [discriminate|]. injection G1 as <-.
      unfold go_from in G2. cbn in G2. destruct ((i <? 0) || (Z.of_nat (Z.to_nat j) <? i))%Z eqn:E2; [discriminate|]. injection G2 as <-.
      apply orb_false_iff in E1 as [E1 E1']. apply orb_false_iff in E2 as [E2 E2']. apply Z.ltb_ge in E1, E1', E2, E2'.
      destruct A1 as (B1 & B2 & B3). unfold valid, from_. cbn. split; [lia|]. left. lia. }
    destruct X as [G3 F]. cbn [w_heap w_songs option_map fst]. split; [|split].
    + constructor; cbn.
      * exact As.
      * intros o1 s2 H. apply in_app_iff in H as [H|[[= <- <-]|[]]]; [exact (Ah o1 s2 H)|].
        split; [exact G3|]. apply disjoint_sym. exact (from_disjoint _ _ _ _ As F (disjoint_sym _ _ A2)).
      * intros o1 s2 o2 s3 H H' D. apply in_app_iff in H as [H|[[= <- <-]|[]]]; apply in_app_iff in H' as [H'|[[= <- <-]|[]]].
        -- exact (Ao _ _ _ _ H H' D).
        -- destruct (Ah _ _ H) as [B1 _]. apply disjoint_sym. apply (from_disjoint _ _ _ _ B1 F). exact (Ao _ _ _ _ K H (not_eq_sym D)).
        -- destruct (Ah _ _ H') as [B1 _]. apply (from_disjoint _ _ _ _ B1 F). exact (Ao _ _ _ _ K H' D).
        -- congruence.
    + intros o1 s2 H _. reflexivity.
    + reflexivity.
Qed.

Lemma as_values_cons l a r : as_values l (a :: r) =
  do '(l1, xs) <- as_values l [a]; do '(l2, ys) <- as_values l1 r; Ok (l2, xs ++ ys).
Proof.
  destruct a; cbn [as_values obind app]; try (destruct (as_values l r) as [[l2 xs]|]; reflexivity).
  destruct (apply_edit l e) as [[l1 x]|]; [|reflexivity]. cbn [obind]. destruct (as_values l1 r) as [[l2 xs]|]; reflexivity.
Qed.

Lemma wrun_ok acts : forall w w' xs, apart w -> wrun w acts = Some (w', xs) ->
  apart w' /\ as_values (view (w_heap w) (w_songs w)) acts = Ok (view (w_heap w') (w_songs w'), xs).
Proof.
  induction acts as [|a acts IH]; intros w w' xs Ap; cbn [wrun].
  - intros [= <- <-]. split; [exact Ap|reflexivity].
  - destruct (wstep w a) as [[w1 x]|] eqn:H1; [|discriminate]. destruct (wrun w1 acts) as [[w2 ys]|] eqn:H2; [|discriminate].
    intros [= <- <-]. destruct (wstep_ok _ _ _ _ Ap H1) as (Ap1 & _ & V1). destruct (IH _ _ _ Ap1 H2) as [Ap2 V2].
    split; [exact Ap2|]. rewrite as_values_cons, V1. cbn [obind]. rewrite V2. reflexivity.
Qed.

Lemma new_world_apart l spare keeps : keeps = false \/ (l = [] /\ spare = 0) -> apart (new_world l spare keeps).
Proof.
  intro H. unfold new_world. destruct (alloc [] l (length l + spare)) as [h s] eqn:A.
  destruct (alloc_ok [] l (length l + spare)) with (h' := h) (s := s) as (A1 & A2 & _); [lia|exact A|].
  assert (Cap : s_cap s = length l + spare) by (unfold alloc in A; now injection A as <- <-).
  constructor; cbn [w_heap w_songs w_held].
  - exact A2.
  - intros o t Ht. destruct keeps; [|destruct Ht]. destruct Ht as [[= <- <-]|[]]. split; [exact A2|].
    destruct H as [H|[-> ->]]; [discriminate|]. right. left. exact Cap.
  - intros o t o' t' Ht Ht' D. destruct keeps; [|destruct Ht]. destruct Ht as [[= <- <-]|[]]. destruct Ht' as [[= <- <-]|[]]. congruence.
Qed.
