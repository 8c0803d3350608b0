From Verif Require Import GoBase GoBaseFacts GoUtf8 WireModel SenderModel InfoerModel InfoerSpec InfoerProofs ServerModel ServerSpec.
From Coq Require Import Permutation Sorted ZifyBool ZifyNat.
Local Open Scope Z_scope.

Lemma remove_first_ok k l : (k <= length l)%nat -> remove_first k l = Ok (skipn k l).
Proof.
  intros H. unfold remove_first. destruct (Nat.ltb_spec 0 k).
  - unfold slice_from. assert ((Z.of_nat k <? 0) || (zlen l <? Z.of_nat k) = false)%bool as -> by (unfold zlen; lia).
    cbn [obind]. rewrite Nat2Z.id. set (r := skipn k l).
    assert (L : length r = (length l - k)%nat) by apply skipn_length.
    unfold slice_to, zlen. rewrite app_length, skipn_length, L.
    assert ((Z.of_nat (length l) - Z.of_nat k <? 0) || (Z.of_nat (length l - k + (length l - (length l - k))) <? Z.of_nat (length l) - Z.of_nat k) = false)%bool as -> by lia.
    replace (Z.to_nat (Z.of_nat (length l) - Z.of_nat k)) with (length r) by lia.
    rewrite firstn_app, firstn_all, Nat.sub_diag, firstn_O, app_nil_r. reflexivity.
  - assert (k = 0%nat) by lia. subst. reflexivity.
Qed.

Lemma remove_first_panic k l : (length l < k)%nat -> remove_first k l = Panic.
Proof.
  intros H. unfold remove_first. destruct (Nat.ltb_spec 0 k); [|lia].
  unfold slice_from. assert ((Z.of_nat k <? 0) || (zlen l <? Z.of_nat k) = true)%bool as -> by (unfold zlen; lia). reflexivity.
Qed.

(** what removable_loop finds *)
Lemma removable_loop_spec start l i p :
  removable_loop start l i p = p \/
  exists n x, nth_error l n = Some x /\ removable_loop start l i p = (i + n)%nat /\ t_playing x = true /\ t_index x <= start.
Proof.
  revert i p. induction l as [|x l IH]; intros i p; [now left|]. cbn [removable_loop].
  destruct (start <? t_index x) eqn:E; cbn [negb andb].
  - now left.
  - destruct (t_playing x) eqn:Ep.
    + destruct (IH (S i) i) as [->|(n & y & H1 & H2 & H3 & H4)].
      * right. exists O, x. repeat split; auto; lia.
      * right. exists (S n), y. repeat split; auto; lia.
    + destruct (IH (S i) p) as [->|(n & y & H1 & H2 & H3 & H4)]; [now left|].
      right. exists (S n), y. repeat split; auto; lia.
Qed.

Lemma removable_le newest l : (removable newest l <= length l)%nat.
Proof.
  unfold removable. destruct newest as [m|]; [|lia].
  destruct (removable_loop_spec (start_of m) l 0 0) as [->|(n & x & H1 & -> & _)]; [lia|].
  assert (n < length l)%nat; [|lia]. apply nth_error_Some. congruence.
Qed.

Lemma remove_old_ok newest l : remove_old newest l = Ok (skipn (removable newest l) l).
Proof. apply remove_first_ok, removable_le. Qed.

(** [quiet_rest start l]: the loop finds no resume in [l] *)
Definition quiet_rest (start : Z) (l : list toggle) : Prop := forall i p, removable_loop start l i p = p.

Lemma removable_loop_split start l i p :
  (removable_loop start l i p = p /\ quiet_rest start l) \/
  exists l1 x l2, l = l1 ++ x :: l2 /\ removable_loop start l i p = (i + length l1)%nat
    /\ t_playing x = true /\ t_index x <= start /\ quiet_rest start l2.
Proof.
  revert i p. induction l as [|x l IH]; intros i p; [left; split; [reflexivity|intros ? ?; reflexivity]|].
  cbn [removable_loop]. destruct (start <? t_index x) eqn:E; cbn [negb andb].
  - left. split; [reflexivity|]. intros a b. cbn [removable_loop]. rewrite E. reflexivity.
  - destruct (t_playing x) eqn:Ep.
    + right. destruct (IH (S i) i) as [[-> Q]|(l1 & y & l2 & -> & -> & H1 & H2 & H3)].
      * exists [], x, l. repeat split; auto; cbn [length]; lia.
      * exists (x :: l1), y, l2. repeat split; auto; cbn [length]; lia.
    + destruct (IH (S i) p) as [[-> Q]|(l1 & y & l2 & -> & -> & H1 & H2 & H3)].
      * left. split; [reflexivity|]. intros a b. cbn [removable_loop]. rewrite E, Ep. cbn [negb andb]. apply Q.
      * right. exists (x :: l1), y, l2. repeat split; auto; cbn [length]; lia.
Qed.

(** the outcome of one pruning *)
Lemma remove_old_split newest l : exists r l', l = r ++ l' /\ length r = removable newest l /\
  remove_old newest l = Ok l' /\
  (r = [] \/ exists m k rest, newest = Some m /\ l' = k :: rest /\ t_playing k = true /\ t_index k <= start_of m)
  /\ removable newest l' = O.
Proof.
  exists (firstn (removable newest l) l), (skipn (removable newest l) l).
  split; [symmetry; apply firstn_skipn|].
  split; [apply firstn_length_le, removable_le|].
  split; [apply remove_old_ok|].
  destruct newest as [m|]; [|split; [now left|reflexivity]].
  unfold removable.
  destruct (removable_loop_split (start_of m) l 0 0) as [[E Q]|(l1 & x & l2 & E1 & E & H1 & H2 & H3)]; rewrite E.
  - split; [now left|]. cbn [skipn]. apply Q.
  - clear E. subst l. cbn [plus]. rewrite skipn_app, skipn_all, Nat.sub_diag. cbn [skipn app]. split.
    + right. exists m, x, l2. auto.
    + cbn [removable_loop]. assert (start_of m <? t_index x = false) as -> by lia. rewrite H1. cbn [negb andb]. apply H3.
Qed.

Lemma remove_old_twice newest l l' : remove_old newest l = Ok l' -> remove_old newest l' = Ok l'.
Proof.
  intros H. destruct (remove_old_split newest l) as (r & l2 & _ & _ & E & _ & Z). rewrite E in H. injection H as <-.
  rewrite remove_old_ok, Z. reflexivity.
Qed.

(** * Sequential lives *)
Lemma sequential_inv tr n h l : sequential tr n h l ->
  sorted_toggles h /\ exists r, h = r ++ l /\
    (r = [] \/ exists m k rest, n = Some m /\ l = k :: rest /\ t_index k <= start_of m).
Proof.
  induction 1 as [|tr n h l m H [S (r & -> & C)] Hm|tr n h l t H [S (r & -> & C)] Ht|tr n h l l' H [S (r & -> & C)] Hp].
  - split; [constructor|]. exists []. auto.
  - split; [auto|]. exists r. split; [auto|]. destruct C as [->|(m' & k & rest & -> & -> & Hk)]; [now left|].
    right. exists m, k, rest. repeat split; auto. specialize (Hm _ eq_refl). lia.
  - split; [apply StronglySorted_snoc; auto|]. exists r. split; [now rewrite app_assoc|].
    destruct C as [->|(m & k & rest & -> & -> & Hk)]; [now left|]. right. exists m, k, (rest ++ [t]). auto.
  - split; [auto|]. destruct (remove_old_split n l) as (r2 & l2 & -> & _ & E & C2 & _). rewrite E in Hp. injection Hp as <-.
    exists (r ++ r2). split; [now rewrite app_assoc|].
    destruct C2 as [->|(m & k & rest & H1 & H2 & _ & H3)].
    + rewrite app_nil_r. cbn [app] in C. exact C.
    + right. exists m, k, rest. auto.
Qed.

Lemma plays_suffix r k rest x : t_index k <= x -> plays_at (r ++ k :: rest) x = plays_at (k :: rest) x.
Proof. intros H. unfold plays_at. rewrite fold_left_app. apply plays_at_reset. exists k. split; [now left|auto]. Qed.

(** * Concurrent executions *)
Lemma appended_app a b : appended (a ++ b) = appended a ++ appended b.
Proof. unfold appended. apply flat_map_app. Qed.
Lemma announced_app a b : announced (a ++ b) = announced a ++ announced b.
Proof. unfold announced. apply flat_map_app. Qed.

Lemma wrun_snoc tr l w' : wrun (tr ++ [l]) w' -> exists w, wrun tr w /\ w_crashed w = false /\ wstep w l w'.
Proof.
  intros H. inversion H as [|tr0 w l0 w0 Hr Hc Hs E]; [now destruct tr|]. apply app_inj_tail in E as [-> ->]. eauto.
Qed.

Lemma newest_last tr w : wrun tr w -> w_newest w = last (map Some (announced tr)) None.
Proof.
  induction 1 as [|tr w l w' H IH Hc Hs]; [reflexivity|]. rewrite announced_app, map_app.
  inversion Hs; subst; cbn [announced flat_map map app]; rewrite ?app_nil_r; cbn; auto.
  cbn [app]. now rewrite last_last.
Qed.

Lemma newest_in tr w m : wrun tr w -> w_newest w = Some m -> In m (announced tr).
Proof.
  intros H E. rewrite (newest_last _ _ H) in E. clear H. 
  destruct (announced tr) as [|a l] using rev_ind; [discriminate|]. rewrite map_app in E. cbn in E.
  rewrite last_last in E. injection E as ->. apply in_or_app. right. now left.
Qed.

(** pruning without overlap *)
Definition head_ok (newest : option message) (l : list toggle) : Prop :=
  exists m k rest, newest = Some m /\ l = k :: rest /\ t_playing k = true /\ t_index k <= start_of m.

Lemma pruning_inv tr w : wrun tr w -> songs_in_order tr -> no_overlap tr ->
  w_crashed w = false /\
  (exists r, appended tr = r ++ w_pauses w /\ (r = [] \/ head_ok (w_newest w) (w_pauses w)))
  /\ (w_removals w = [] \/ exists k a b, w_removals w = [k] /\ w_pauses w = a ++ b /\ length a = k /\ head_ok (w_newest w) b).
Proof.
  induction 1 as [|tr w l w' Hr IH Hc Hs]; intros Ho Hn.
  { split; [reflexivity|]. split; [exists []; auto|now left]. }
  assert (Ho' : songs_in_order tr).
  { unfold songs_in_order in *. rewrite announced_app in Ho. now apply StronglySorted_app in Ho as (? & _). }
  assert (Hn' : no_overlap tr).
  { intros b a w0 E. apply (Hn b (a ++ [l])). rewrite E, <- app_assoc. reflexivity. }
  destruct (IH Ho' Hn') as (_ & (r & Ea & Hh) & Hrem). clear IH.
  assert (Mono : forall m l, l <> [] -> announced tr ++ [m] = announced (tr ++ [NewSong m]) ->
            songs_in_order (tr ++ [NewSong m]) -> head_ok (w_newest w) l -> head_ok (Some m) l).
  { intros m l0 _ E Ho2 (m' & k & rest & N & L & P & I). exists m, k, rest. repeat split; auto.
    unfold songs_in_order in Ho2. rewrite <- E in Ho2. apply StronglySorted_snoc in Ho2 as [_ Ho2].
    rewrite Forall_forall in Ho2. specialize (Ho2 m' (newest_in _ _ _ Hr N)). cbn in Ho2. lia. }
  assert (Hne : forall n l, head_ok n l -> l <> []) by (intros n l0 (m & k & rest & _ & -> & _); discriminate).
  assert (Happ : forall n l x, head_ok n l -> head_ok n (l ++ x)).
  { intros n l0 x (m & k & rest & N & -> & P & I). exists m, k, (rest ++ x). auto. }
  rewrite appended_app.
  inversion Hs; subst; cbn [upd_song upd_pauses upd_toggle upd_client w_crashed w_pauses w_newest w_removals appended flat_map app] in *;
    rewrite ?app_nil_r; (split; [solve [auto]|]) || idtac.
  - split; [exists r; auto|exact Hrem].
  - (* NewSong *)
    assert (E : announced tr ++ [m] = announced (tr ++ [NewSong m])) by (rewrite announced_app; reflexivity).
    split.
    + exists r. split; [auto|]. destruct Hh as [->|Hh]; [now left|right]. eapply Mono; eauto.
    + destruct Hrem as [E0|(k & a2 & b2 & E0 & E2 & L & Hh2)]; rewrite E0; [now left|right]. exists k, a2, b2. repeat split; auto. eapply Mono; eauto.
  - split; [exists r; auto|exact Hrem].
  - split; [exists r; auto|exact Hrem].
  - split; [exists r; auto|exact Hrem].
  - (* Append *)
    split.
    + exists r. split; [rewrite Ea, <- app_assoc; reflexivity|]. destruct Hh as [->|Hh]; [now left|right; auto].
    + destruct Hrem as [E0|(k & a0 & b0 & E0 & E2 & L & Hh2)]; rewrite E0; [now left|right]. exists k, a0, (b0 ++ [t]).
      repeat split; auto. rewrite E2, <- app_assoc. reflexivity.
  - (* Count *)
    split; [exists r; auto|].
    rewrite (Hn tr [] w eq_refl Hr).
    destruct (remove_old_split (w_newest w) (w_pauses w)) as (r2 & l2 & E2 & L2 & _ & C2 & _).
    destruct (Nat.ltb_spec 0 k) as [Hk|Hk]; [|now left]. right. exists k, r2, l2. repeat split; auto.
    destruct C2 as [->|(m & x & rest & N & X1 & X2 & X3)]; [cbn in L2; fold k in L2; lia|]. exists m, x, rest. auto.
  - (* Remove *)
    destruct Hrem as [E|(k' & a' & b' & E & E2 & L & Hh2)]; [rewrite E in H; now destruct a|].
    assert (a = [] /\ b = [] /\ k = k') as (-> & -> & ->).
    { rewrite E in H. destruct a as [|x a]; [injection H as -> ->; auto|]. injection H as _ H. now destruct a. }
    rewrite remove_first_ok in H0 by (rewrite E2, app_length; lia). injection H0 as <-.
    rewrite E2, <- L, skipn_app, skipn_all, Nat.sub_diag. cbn [skipn app].
    split; [|now left]. exists (r ++ a'). split; [rewrite Ea, E2, app_assoc; reflexivity|]. now right.
  - (* Remove panics: impossible *)
    exfalso. destruct Hrem as [E|(k' & a' & b' & E & E2 & L & Hh2)]; [rewrite E in H; now destruct a|].
    assert (k = k') as -> by (rewrite E in H; destruct a as [|x a]; [now injection H as ? ?|]; injection H as _ H; now destruct a).
    rewrite remove_first_ok in H0 by (rewrite E2, app_length; lia). discriminate.
  - split; [exists r; auto|exact Hrem].
  - split; [exists r; auto|exact Hrem].
  - split; [exists r; auto|exact Hrem].
Qed.

(** * What a subscriber hears *)
Lemma received_grows tr w l w' m : wrun tr w -> wstep w l w' -> In m (w_received w) -> In m (w_received w').
Proof. intros _ Hs Hm. inversion Hs; subst; cbn; auto; apply in_or_app; auto. Qed.

Lemma client_phase tr w : wrun tr w ->
  (In Subscribe tr -> is_subscribed (w_client w) = true) /\ (In SendSong tr -> w_client w = SongSent \/ w_client w = Done)
  /\ (In SendPauses tr -> w_client w = Done).
Proof.
  induction 1 as [|tr w l w' H (I1 & I2 & I3) Hc Hs]; [repeat split; intros []|].
  assert (D : w_client w' = w_client w \/ l = Subscribe \/ l = SendSong \/ l = SendPauses) by (inversion Hs; subst; cbn; auto).
  split; [|split]; intros Hin; apply in_app_iff in Hin as [Hin|[Hin|[]]].
  - specialize (I1 Hin). destruct D as [->|D]; [auto|]. inversion Hs; subst; cbn in *; auto.
  - subst l. inversion Hs; subst; reflexivity.
  - specialize (I2 Hin). destruct D as [->|D]; [auto|]. inversion Hs; subst; cbn in *; auto;
    destruct I2 as [I2|I2]; congruence.
  - subst l. inversion Hs; subst; auto.
  - specialize (I3 Hin). destruct D as [->|D]; [auto|]. inversion Hs; subst; cbn in *; auto; congruence.
  - subst l. inversion Hs; subst; auto.
Qed.

Lemma phase_subscribed w : w_client w = SongSent \/ w_client w = Done -> is_subscribed (w_client w) = true.
Proof. intros [->| ->]; reflexivity. Qed.

Lemma newest_heard tr w m : wrun tr w -> In SendSong tr -> w_newest w = Some m ->
  In m (w_received w) \/ (0 < w_song_broadcasts w)%nat.
Proof.
  intros H. revert m. induction H as [|tr w l w' H IH Hc Hs]; intros m Hin Hm; [destruct Hin|].
  apply in_app_iff in Hin as [Hin|[Hin|[]]].
  - destruct (client_phase _ _ H) as (_ & P & _). specialize (P Hin). apply phase_subscribed in P.
    specialize (fun m => IH m Hin).
    inversion Hs; subst; cbn in *; auto; try (destruct (IH _ Hm); [left; apply in_or_app; auto|auto]; fail).
    + right. lia.
    + left. apply in_or_app. right. rewrite Hm in H1. injection H1 as ->. unfold heard. cbn. rewrite P. now left.
  - subst l. inversion Hs; subst; cbn in *. rewrite Hm. left. apply in_or_app. right. now left.
Qed.

(** a song stored after the subscription *)
Lemma later_songs_heard tr w a b m : wrun tr w -> announced_one_by_one tr -> tr = a ++ Subscribe :: b -> In m (announced b) ->
  In m (w_received w) \/ (w_newest w = Some m /\ (0 < w_song_broadcasts w)%nat).
Proof.
  intros H. revert b m. induction H as [|tr w l w' H IH Hc Hs]; intros b m Ho E Hm; [now destruct a|].
  assert (Ho' : announced_one_by_one tr).
  { intros b' m' a' w0 E'. apply (Ho b' m' (a' ++ [l])). rewrite E', <- app_assoc. reflexivity. }
  destruct b as [|l' b _] using rev_ind; [destruct Hm|].
  change (a ++ Subscribe :: b ++ [l']) with (a ++ (Subscribe :: b) ++ [l']) in E. rewrite app_assoc in E.
  apply app_inj_tail in E as [E ->].
  assert (P : is_subscribed (w_client w) = true).
  { apply (client_phase _ _ H). rewrite E. apply in_or_app. right. now left. }
  rewrite announced_app in Hm. apply in_app_iff in Hm as [Hm|Hm].
  - specialize (IH b m Ho' E Hm). 
    inversion Hs; subst; cbn in *; auto; try (destruct IH; [left; apply in_or_app; auto|auto]; fail).
    + destruct IH as [I|[_ I]]; [auto|].
      assert (w_song_broadcasts w = O) by (eapply Ho; [reflexivity|exact H]). lia.
    + destruct IH as [I|[I _]]; [left; apply in_or_app; auto|].
      left. apply in_or_app. right. rewrite I in H1. injection H1 as ->. unfold heard. cbn. rewrite P. now left.
  - inversion Hs; subst; cbn in Hm; try (destruct Hm; fail). destruct Hm as [->|[]]. right. cbn. split; [auto|lia].
Qed.

Lemma toggled_app a b : toggled (a ++ b) = toggled a ++ toggled b.
Proof. unfold toggled. apply flat_map_app. Qed.

Lemma later_toggles_heard tr w a b t : wrun tr w -> tr = a ++ Subscribe :: b -> In t (toggled b) ->
  In (pause_message t) (w_received w) \/ In t (w_pause_broadcasts w).
Proof.
  intros H. revert b t. induction H as [|tr w l w' H IH Hc Hs]; intros b t E Hm; [now destruct a|].
  destruct b as [|l' b _] using rev_ind; [destruct Hm|].
  change (a ++ Subscribe :: b ++ [l']) with (a ++ (Subscribe :: b) ++ [l']) in E. rewrite app_assoc in E.
  apply app_inj_tail in E as [E ->].
  assert (P : is_subscribed (w_client w) = true).
  { apply (client_phase _ _ H). rewrite E. apply in_or_app. right. now left. }
  rewrite toggled_app in Hm. apply in_app_iff in Hm as [Hm|Hm].
  - specialize (IH b t E Hm). inversion Hs; subst; cbn in *; auto; try (destruct IH; [left; apply in_or_app; auto|auto]; fail).
    + destruct IH as [I|I]; [auto|right; apply in_or_app; auto].
    + destruct IH as [I|I]; [left; apply in_or_app; auto|]. rewrite H0 in I.
      apply in_app_iff in I as [I|[I|I]].
      * right. apply in_or_app. auto.
      * left. apply in_or_app. right. subst. unfold heard. cbn. rewrite P. now left.
      * right. apply in_or_app. auto.
  - inversion Hs; subst; cbn in Hm; try (destruct Hm; fail). destruct Hm as [->|[]]. right. cbn. apply in_or_app. right. now left.
Qed.

Lemma retained_heard tr w a b : wrun tr w -> tr = a ++ SendPauses :: b ->
  exists w0, wrun a w0 /\ forall t, In t (w_pauses w0) -> In (pause_message t) (w_received w).
Proof.
  intros H. revert b. induction H as [|tr w l w' H IH Hc Hs]; intros b E; [now destruct a|].
  destruct b as [|l' b _] using rev_ind.
  - apply app_inj_tail in E as [-> ->]. exists w. split; [auto|]. intros t Ht.
    inversion Hs; subst. cbn. apply in_or_app. right. now apply in_map.
  - change (a ++ SendPauses :: b ++ [l']) with (a ++ (SendPauses :: b) ++ [l']) in E. rewrite app_assoc in E.
    apply app_inj_tail in E as [E ->]. destruct (IH _ E) as (w0 & H0 & Hw). exists w0. split; [auto|].
    intros t Ht. apply (received_grows tr w l' w'); auto.
Qed.
