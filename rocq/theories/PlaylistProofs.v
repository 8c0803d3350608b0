(** Proofs about the playlist. *)
From Verif Require Import GoBase GoBaseFacts PlaylistModel PlaylistSpec.
From Coq Require Import ZifyBool ZifyNat ZifyN.
Ltac Zify.zify_post_hook ::= Z.div_mod_to_equations.
Local Open Scope Z_scope.

(* ---------------- list edits ---------------- *)

Lemma split_at {A} (l : list A) (k : nat) :
  (k <= length l)%nat -> l = firstn k l ++ skipn k l /\ length (firstn k l) = k.
Proof. intros H; split; [symmetry; apply firstn_skipn|apply firstn_length_le; exact H]. Qed.

Lemma skipn_snoc_split {A} (l : list A) (k : nat) x :
  (k <= length l)%nat ->
  firstn k (l ++ [x]) = firstn k l /\ skipn k (l ++ [x]) = skipn k l ++ [x].
Proof.
  intros H. rewrite firstn_app, skipn_app.
  replace (k - length l)%nat with 0%nat by lia. cbn [firstn skipn].
  rewrite app_nil_r. auto.
Qed.

Lemma insert_song_spec l s i :
  exists l', insert_song l s i = Ok l' /\ inserted_at (clip i (zlen l)) s l l'.
Proof.
  unfold insert_song, clip.
  set (j := if i <? 0 then 0 else i).
  assert (Hj : j = Z.max 0 i) by (unfold j; destruct (Z.ltb_spec i 0); lia).
  destruct (Z.ltb_spec (zlen l) j) as [Hgt|Hle].
  - exists (l ++ [s]). split; [reflexivity|].
    exists l, []. rewrite app_nil_r. pose proof (zlen_nonneg l). repeat split; lia.
  - assert (Hj0 : 0 <= j) by lia.
    destruct (split_at l (Z.to_nat j)) as [Hl Hfl]; [unfold zlen in Hle; lia|].
    set (b := firstn (Z.to_nat j) l) in *. set (a := skipn (Z.to_nat j) l) in *.
    exists (b ++ s :: a). split.
    + unfold copy_within.
      rewrite !zlen_app. change (zlen (@cons song [] [])) with 1.
      replace ((j + 1 <? 0) || (zlen l + 1 <? j + 1) || (j <? 0) || (zlen l + 1 <? j))%bool
        with false by (pose proof (zlen_nonneg l); lia).
      cbn [obind].
      assert (Hlen : length l = (Z.to_nat j + length a)%nat)
        by (rewrite Hl, app_length; lia).
      rewrite app_length. cbn [length].
      replace (Nat.min (length l + 1 - Z.to_nat (j + 1)) (length l + 1 - Z.to_nat j))
        with (length a) by lia.
      replace (Z.to_nat (j + 1)) with (S (Z.to_nat j)) by lia.
      destruct (@skipn_snoc_split song l (Z.to_nat j) ([] : song)) as [_ Hs]; [lia|].
      rewrite Hs. fold a.
      rewrite (skipn_all2 (l ++ @cons song [] [])) by (rewrite app_length; cbn [length]; lia).
      rewrite app_nil_r.
      rewrite (firstn_app (length a) a). rewrite Nat.sub_diag, firstn_all. rewrite ?firstn_O.
      rewrite app_nil_r.
      assert (Hx : exists x, firstn (S (Z.to_nat j)) (l ++ @cons song [] []) = b ++ [x]).
      { destruct a as [|x a'] eqn:Ea.
        - exists []. rewrite app_nil_r in Hl. cbn [length] in Hlen.
          rewrite firstn_all2 by (rewrite app_length; cbn [length]; lia).
          rewrite Hl at 1. reflexivity.
        - exists x. rewrite Hl. rewrite <- app_assoc.
          rewrite firstn_app, Hfl.
          replace (S (Z.to_nat j) - Z.to_nat j)%nat with 1%nat by lia.
          rewrite firstn_all2 by lia. reflexivity. }
      destruct Hx as [x ->].
      unfold slice_set. rewrite !zlen_app.
      assert (zlen b = j) by (unfold zlen; lia).
      change (zlen [x]) with 1.
      replace ((j <? 0) || (zlen b + 1 + zlen a <=? j))%bool with false
        by (pose proof (zlen_nonneg a); lia).
      f_equal. rewrite <- app_assoc.
      rewrite firstn_app, Hfl, Nat.sub_diag. rewrite ?firstn_O.
      rewrite app_nil_r, firstn_all2 by lia.
      f_equal. f_equal.
      rewrite skipn_app, Hfl.
      replace (S (Z.to_nat j) - Z.to_nat j)%nat with 1%nat by lia.
      rewrite skipn_all2 by lia. reflexivity.
    + exists b, a. split; [exact Hl|]. split; [|reflexivity].
      unfold zlen. rewrite Hfl. unfold zlen in Hle. lia.
Qed.

Lemma add_song_spec l s : inserted_at (zlen l) s l (add_song l s).
Proof. exists l, []. rewrite app_nil_r. auto. Qed.

Lemma remove_song_spec l i :
  l <> [] -> i <> zlen l ->
  exists l' x, remove_song l i = Ok (l', x) /\ removed_at (clip i (zlen l - 1)) x l l'.
Proof.
  intros Hne Hi. unfold remove_song, clip.
  assert (Hpos : 0 < zlen l) by (apply zlen_pos; assumption).
  replace (zlen l =? 0) with false by lia.
  set (j := if i <? 0 then 0 else i).
  assert (Hj : j = Z.max 0 i) by (unfold j; destruct (Z.ltb_spec i 0); lia).
  destruct (Z.ltb_spec (zlen l) j) as [Hgt|Hle].
  - destruct (exists_last Hne) as [b [x Hl]].
    exists b, x. split.
    + subst l. rewrite zlen_app. change (zlen [x]) with 1.
      replace (zlen b + 1 - 1) with (zlen b) by lia.
      unfold slice_get, slice_to.
      replace (zlen b <? 0) with false by (pose proof (zlen_nonneg b); lia).
      unfold zlen. rewrite Nat2Z.id, nth_error_app2, Nat.sub_diag by lia.
      cbn [nth_error obind].
      rewrite app_length. cbn [length].
      replace ((Z.of_nat (length b + 1) <? Z.of_nat (length b)))%Z with false by lia.
      cbn [orb]. cbn [obind].
      rewrite firstn_app, Nat.sub_diag, firstn_all. rewrite ?firstn_O. rewrite app_nil_r. reflexivity.
    + exists b, []. subst l. rewrite app_nil_r. split; [reflexivity|]. split; [|reflexivity].
      rewrite zlen_app in *. change (zlen [x]) with 1 in *. pose proof (zlen_nonneg b). lia.
  - assert (Hj0 : 0 <= j < zlen l) by lia.
    destruct (split_at l (Z.to_nat j)) as [Hl Hfl]; [unfold zlen in Hj0; lia|].
    destruct (skipn (Z.to_nat j) l) as [|x a] eqn:Ea.
    { exfalso. assert (length (skipn (Z.to_nat j) l) = 0%nat) by (rewrite Ea; reflexivity).
      rewrite skipn_length in H. unfold zlen in Hj0. lia. }
    set (b := firstn (Z.to_nat j) l) in *.
    exists (b ++ a), x. split.
    + assert (Hlen : length l = (Z.to_nat j + S (length a))%nat)
        by (rewrite Hl, app_length; cbn [length]; lia).
      assert (Hget : slice_get l j = Ok x).
      { apply slice_get_ok. split; [lia|]. rewrite Hl, nth_error_app2 by lia.
        rewrite Hfl, Nat.sub_diag. reflexivity. }
      rewrite Hget. cbn [obind].
      unfold copy_within.
      replace ((j <? 0) || (zlen l <? j) || (j + 1 <? 0) || (zlen l <? j + 1))%bool
        with false by lia.
      cbn [obind].
      replace (Nat.min (length l - Z.to_nat j) (length l - Z.to_nat (j + 1)))
        with (length a) by lia.
      replace (Z.to_nat (j + 1)) with (S (Z.to_nat j)) by lia.
      fold b.
      assert (Hsk : skipn (S (Z.to_nat j)) l = a).
      { rewrite Hl, skipn_app, Hfl.
        replace (S (Z.to_nat j) - Z.to_nat j)%nat with 1%nat by lia.
        rewrite skipn_all2 by lia. reflexivity. }
      rewrite Hsk, firstn_all.
      assert (Hy : exists y, skipn (Z.to_nat j + length a) l = [y]).
      { assert (Hn : length (skipn (Z.to_nat j + length a) l) = 1%nat)
          by (rewrite skipn_length; lia).
        destruct (skipn (Z.to_nat j + length a) l) as [|y [|]]; cbn in Hn; try lia.
        exists y; reflexivity. }
      destruct Hy as [y ->].
      rewrite app_assoc. set (c := b ++ a).
      assert (Hc : zlen (c ++ [y]) - 1 = zlen c) by (rewrite zlen_app; change (zlen [y]) with 1; lia).
      unfold slice_set. rewrite Hc.
      replace ((zlen c <? 0) || (zlen (c ++ [y]) <=? zlen c))%bool
        with false by (pose proof (zlen_nonneg c); lia).
      cbn [obind].
      unfold slice_to.
      assert (HfX : firstn (Z.to_nat (zlen c)) (c ++ [y]) = c).
      { unfold zlen. rewrite Nat2Z.id, firstn_app, Nat.sub_diag, firstn_all, firstn_O. apply app_nil_r. }
      rewrite HfX.
      rewrite (skipn_all2 (c ++ [y])) by (rewrite app_length; unfold zlen; cbn [length]; lia).
      rewrite zlen_app. change (zlen (@cons song [] [])) with 1.
      replace ((zlen c + 1 - 1 <? 0) || (zlen c + 1 <? zlen c + 1 - 1))%bool
        with false by (pose proof (zlen_nonneg c); lia).
      cbn [obind].
      replace (zlen c + 1 - 1) with (zlen c) by lia.
      unfold zlen. rewrite Nat2Z.id.
      rewrite firstn_app, Nat.sub_diag, firstn_all. rewrite ?firstn_O. rewrite app_nil_r. reflexivity.
    + exists b, a. split; [exact Hl|]. split; [|reflexivity].
      unfold zlen. rewrite Hfl. unfold zlen in *. lia.
Qed.

Lemma remove_song_empty i : remove_song [] i = Ok ([], []).
Proof. reflexivity. Qed.

Lemma remove_song_at_len l : l <> [] -> remove_song l (zlen l) = Panic.
Proof.
  intros Hne. unfold remove_song.
  assert (Hpos : 0 < zlen l) by (apply zlen_pos; assumption).
  replace (zlen l =? 0) with false by lia.
  replace (zlen l <? 0) with false by lia.
  rewrite Z.ltb_irrefl.
  unfold slice_get. replace (zlen l <? 0) with false by lia.
  unfold zlen. rewrite Nat2Z.id.
  replace (nth_error l (length l)) with (@None song); [reflexivity|].
  symmetry. apply nth_error_None. lia.
Qed.

Lemma inserted_at_len {A} k (x : A) l l' : inserted_at k x l l' -> zlen l' = zlen l + 1.
Proof. intros (b & a & -> & _ & ->). rewrite !zlen_app, zlen_cons. lia. Qed.
Lemma removed_at_len {A} k (x : A) l l' : removed_at k x l l' -> zlen l' = zlen l - 1.
Proof. intros (b & a & -> & _ & ->). rewrite !zlen_app, zlen_cons. lia. Qed.

Lemma apply_edit_spec l e :
  no_boundary_removal (zlen l) [e] ->
  exists l' r, apply_edit l e = Ok (l', r) /\ list_edit l e l' r.
Proof.
  destruct e as [s|s i|i]; cbn [no_boundary_removal apply_edit]; intros H.
  - exists (l ++ [s]), None. split; [reflexivity|constructor].
  - destruct (insert_song_spec l s i) as (l' & -> & Hi).
    exists l', None. split; [reflexivity|constructor; exact Hi].
  - destruct l as [|y l0] eqn:El.
    + exists [], (Some []). split; [reflexivity|constructor].
    + rewrite <- El in *. destruct (remove_song_spec l i) as (l' & x & Hr & Hx).
      * congruence.
      * destruct H as [[H|H] _]; [|exact H].
        subst l. rewrite zlen_cons in H. pose proof (zlen_nonneg l0). lia.
      * rewrite Hr. exists l', (Some x). split; [reflexivity|].
        constructor; [congruence|exact Hx].
Qed.

Lemma list_edit_len l e l' r :
  list_edit l e l' r ->
  zlen l' = match e with ERemove _ => Z.max 0 (zlen l - 1) | _ => zlen l + 1 end.
Proof.
  intros H; destruct H as [l s|l s i l' Hi|i|l i x l' Hne Hx].
  - rewrite zlen_app; reflexivity.
  - eapply inserted_at_len; exact Hi.
  - reflexivity.
  - rewrite (removed_at_len _ _ _ _ Hx).
    pose proof (zlen_pos l Hne). lia.
Qed.

Lemma no_boundary_cons n e es :
  no_boundary_removal n (e :: es) ->
  no_boundary_removal n [e] /\
  no_boundary_removal (match e with ERemove _ => Z.max 0 (n - 1) | _ => n + 1 end) es.
Proof. destruct e; cbn [no_boundary_removal]; tauto. Qed.

Lemma apply_edits_spec es : forall l,
  no_boundary_removal (zlen l) es ->
  exists l' rs, apply_edits l es = Ok (l', rs) /\ list_edits l es l' rs.
Proof.
  induction es as [|e es IH]; intros l H.
  - exists l, []. split; [reflexivity|constructor].
  - apply no_boundary_cons in H. destruct H as [He Hes].
    destruct (apply_edit_spec l e He) as (l1 & r & Ha & Hle).
    rewrite <- (list_edit_len _ _ _ _ Hle) in Hes.
    destruct (IH l1 Hes) as (l2 & rs & Hb & Hles).
    cbn [apply_edits]. rewrite Ha. cbn [obind]. rewrite Hb. cbn [obind].
    exists l2, (r :: rs). split; [reflexivity|econstructor; eassumption].
Qed.

(** The specification is functional: the list edits determine the result. *)
Lemma app_split_eq {A} (b1 b2 a1 a2 : list A) :
  b1 ++ a1 = b2 ++ a2 -> length b1 = length b2 -> b1 = b2 /\ a1 = a2.
Proof.
  revert b2; induction b1 as [|x b1 IH]; intros [|y b2] H Hl; cbn in *; try lia.
  - auto.
  - injection H as -> H. destruct (IH b2 H) as [-> ->]; [lia|auto].
Qed.

Lemma list_edit_det l e l1 r1 l2 r2 :
  list_edit l e l1 r1 -> list_edit l e l2 r2 -> l1 = l2 /\ r1 = r2.
Proof.
  intros H1 H2. destruct H1 as [l s|l s i l1 Hi|i|l i x l1 Hne Hx].
  - inversion H2; auto.
  - inversion H2 as [|l0 s0 i0 l' Hi2| |]; subst.
    destruct Hi as (b1 & a1 & Hl1 & Hk1 & ->), Hi2 as (b2 & a2 & Hl2 & Hk2 & ->).
    rewrite Hl1 in Hl2. apply app_split_eq in Hl2; [|unfold zlen in *; lia].
    destruct Hl2 as [-> ->]. auto.
  - inversion H2; subst; [auto|congruence].
  - inversion H2 as [| |i0|l0 i0 x0 l' Hne2 Hx2]; subst; [congruence|].
    destruct Hx as (b1 & a1 & Hl1 & Hk1 & ->), Hx2 as (b2 & a2 & Hl2 & Hk2 & ->).
    rewrite Hl1 in Hl2. apply app_split_eq in Hl2; [|unfold zlen in *; lia].
    destruct Hl2 as [-> Hc]. injection Hc as -> ->. auto.
Qed.

(* ---------------- next song, Pos ---------------- *)

Lemma next_song_nonneg l p :
  l <> [] -> 0 <= p -> next_song l p = Ok (p mod zlen l, cyclic_song l p 0).
Proof.
  intros Hne Hp.
  assert (Hpos : 0 < zlen l) by (apply zlen_pos; assumption).
  unfold next_song, go_mod. replace (zlen l =? 0) with false by lia.
  rewrite Z.rem_mod_nonneg by lia.
  assert (Hr : 0 <= p mod zlen l < zlen l) by (apply Z.mod_pos_bound; lia).
  assert (Hg : slice_get l (p mod zlen l) = Ok (nth (Z.to_nat (p mod zlen l)) l [])).
  { apply slice_get_ok. split; [lia|]. apply nth_error_nth'. unfold zlen in *. lia. }
  rewrite Hg. cbn [obind]. unfold cyclic_song. rewrite Z.add_0_r. reflexivity.
Qed.

Lemma next_song_panics l p :
  next_song l p = Panic <-> (l <> [] /\ p < 0 /\ ~ (zlen l | p)).
Proof.
  destruct l as [|x l0] eqn:El.
  - split; [discriminate|intros [H _]; congruence].
  - rewrite <- El. assert (Hne : l <> []) by congruence.
    assert (Hpos : 0 < zlen l) by (rewrite El, zlen_cons; pose proof (zlen_nonneg l0); lia).
    destruct (Z_lt_ge_dec p 0) as [Hlt|Hge].
    + unfold next_song, go_mod. replace (zlen l =? 0) with false by lia.
      destruct (Z.eq_dec (Z.rem p (zlen l)) 0) as [E|E].
      * rewrite E. destruct (slice_get_in_range l 0) as (a & Ha & _); [lia|].
        rewrite Ha. cbn [obind]. split; [discriminate|].
        intros (_ & _ & Hd). exfalso; apply Hd. apply Z.rem_divide; lia.
      * assert (Z.rem p (zlen l) < 0).
        { pose proof (Z.rem_sign_nz p (zlen l) ltac:(lia) E). lia. }
        unfold slice_get. replace (Z.rem p (zlen l) <? 0) with true by lia. cbn [obind].
        split; [|reflexivity]. intros _. split; [exact Hne|]. split; [exact Hlt|].
        intros Hd. apply Z.rem_divide in Hd; lia.
    + rewrite next_song_nonneg by (auto; lia). split; [discriminate|lia].
Qed.

Lemma cyclic_mod l p k : l <> [] -> cyclic_song l (p mod zlen l) k = cyclic_song l p k.
Proof.
  intros Hne. unfold cyclic_song. rewrite Zplus_mod_idemp_l. reflexivity.
Qed.
Lemma cyclic_shift l p k j : cyclic_song l (p + j) k = cyclic_song l p (j + k).
Proof. unfold cyclic_song. f_equal. f_equal. f_equal. lia. Qed.

Lemma pos_of_range l p : l <> [] -> 0 <= p -> 0 <= pos_of l p < zlen l.
Proof.
  intros Hne Hp.
  assert (Hpos : 0 < zlen l) by (apply zlen_pos; assumption).
  unfold pos_of, go_mod. replace (zlen l =? 0) with false by lia.
  rewrite Z.rem_mod_nonneg by lia. apply Z.mod_pos_bound; lia.
Qed.
