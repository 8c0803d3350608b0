From Verif Require Import GoBase GoBaseFacts WireModel SenderModel SenderSpec.
From Coq Require Import Permutation ZifyBool ZifyNat.
Local Open Scope Z_scope.

Lemma run_ops_app st h1 h2 : run_ops st (h1 ++ h2) = (do st' <- run_ops st h1; run_ops st' h2).
Proof.
  revert st; induction h1 as [|o h1 IH]; intros st; [reflexivity|].
  cbn [app run_ops]. destruct (apply_op st o); [cbn [obind]; apply IH|reflexivity].
Qed.

(** DelConn removes one occurrence. *)
Lemma find_conn_spec l c : forall i,
  (find_conn l c i = -1 /\ ~ In c l) \/
  (exists l1 l2, l = l1 ++ c :: l2 /\ find_conn l c i = i + zlen l1 /\ ~ In c l1).
Proof.
  induction l as [|x l IH]; intros i; cbn [find_conn]; [left; split; [reflexivity|intros []]|].
  destruct (Nat.eqb x c) eqn:E.
  - apply Nat.eqb_eq in E; subst x. right; exists [], l. unfold zlen; cbn. repeat split; [lia|auto].
  - apply Nat.eqb_neq in E. destruct (IH (i + 1)) as [[H1 H2]|(l1 & l2 & H1 & H2 & H3)].
    + left; split; [exact H1|intros [Hx|Hx]; [congruence|contradiction]].
    + right; exists (x :: l1), l2. rewrite H2, zlen_cons. split; [rewrite H1; reflexivity|].
      split; [lia|intros [Hx|Hx]; [congruence|contradiction]].
Qed.

Lemma del_conn_spec st c :
  (~ In c (connections st) /\ del_conn st c = Ok st) \/
  (exists st', del_conn st c = Ok st' /\ channels st' = channels st
               /\ Permutation (connections st) (c :: connections st')).
Proof.
  unfold del_conn. destruct (find_conn_spec (connections st) c 0) as [[H1 H2]|(l1 & l2 & H1 & H2 & H3)].
  - left; split; [exact H2|]. rewrite H1. reflexivity.
  - right. rewrite H2. replace (0 <=? 0 + zlen l1) with true by (pose proof (zlen_nonneg l1); lia).
    set (l := connections st) in *.
    assert (Hne : l <> []) by (rewrite H1; destruct l1; discriminate).
    destruct (exists_last Hne) as [init [z Hz]].
    assert (Hlen : zlen l = zlen init + 1) by (rewrite Hz, zlen_app; unfold zlen at 2; cbn; lia).
    assert (G : slice_get l (zlen l - 1) = Ok z).
    { rewrite slice_get_ok. split; [pose proof (zlen_nonneg init); lia|].
      rewrite Hlen, Hz, nth_error_app2 by (unfold zlen; lia).
      replace (Z.to_nat (zlen init + 1 - 1) - length init)%nat with O by (unfold zlen; lia). reflexivity. }
    rewrite G. cbn [obind].
    assert (Hl1 : zlen l = zlen l1 + zlen l2 + 1) by (rewrite H1, zlen_app, zlen_cons; lia).
    pose proof (zlen_nonneg l2). pose proof (zlen_nonneg l1).
    unfold slice_set. replace ((0 + zlen l1 <? 0) || (zlen l <=? 0 + zlen l1))%bool with false by lia.
    cbn [obind]. replace (Z.to_nat (0 + zlen l1)) with (length l1) by (unfold zlen; lia).
    assert (F1 : firstn (length l1) l = l1) by (rewrite H1, firstn_app, firstn_all, Nat.sub_diag; cbn; apply app_nil_r).
    assert (F2 : skipn (S (length l1)) l = l2).
    { rewrite H1, skipn_app, skipn_all2 by lia. replace (S (length l1) - length l1)%nat with 1%nat by lia. reflexivity. }
    rewrite F1, F2. unfold slice_to.
    set (k := l1 ++ z :: l2).
    assert (Hk : zlen k = zlen l) by (subst k; rewrite zlen_app, zlen_cons; lia).
    replace ((zlen k - 1 <? 0) || (zlen k <? zlen k - 1))%bool with false by lia. cbn [obind].
    eexists. split; [reflexivity|]. split; [reflexivity|]. cbn [connections].
    (* l = init ++ [z] = l1 ++ c :: l2; firstn (len-1) (l1 ++ z :: l2) *)
    destruct l2 as [|y l2'].
    + assert (Hi : init = l1 /\ z = c).
      { rewrite H1 in Hz. apply app_inj_tail in Hz. intuition congruence. }
      destruct Hi as [-> ->]. replace (Z.to_nat (zlen k - 1)) with (length l1) by (rewrite Hk; unfold zlen in *; lia).
      subst k. rewrite firstn_app, firstn_all, Nat.sub_diag, firstn_O, app_nil_r.
      rewrite H1. apply Permutation_sym, Permutation_cons_append.
    + assert (Hne2 : y :: l2' <> []) by discriminate.
      destruct (exists_last Hne2) as [m2 [z2 Hz2]].
      assert (Hz' : z2 = z).
      { rewrite Hz2 in H1. rewrite Hz in H1. change (c :: m2 ++ [z2]) with ((c :: m2) ++ [z2]) in H1.
        rewrite app_assoc in H1. apply app_inj_tail in H1. intuition congruence. }
      subst z2.
      assert (Hf : firstn (Z.to_nat (zlen k - 1)) k = l1 ++ z :: m2).
      { assert (Hkk : k = (l1 ++ z :: m2) ++ [z]) by (subst k; rewrite <- app_assoc; cbn [app]; rewrite <- Hz2; reflexivity).
        rewrite Hkk. replace (Z.to_nat (zlen ((l1 ++ z :: m2) ++ [z]) - 1)) with (length (l1 ++ z :: m2)).
        - rewrite firstn_app, firstn_all, Nat.sub_diag, firstn_O, app_nil_r. reflexivity.
        - unfold zlen. rewrite (app_length (l1 ++ z :: m2)). cbn [length]. lia. }
      rewrite Hf, H1, Hz2. transitivity (c :: l1 ++ m2 ++ [z]); [apply Permutation_sym, Permutation_middle|].
      apply perm_skip, Permutation_app_head, Permutation_sym, Permutation_cons_append.
Qed.

(** Every history runs without a panic. *)
Lemma apply_op_ok st o : exists st', apply_op st o = Ok st'.
Proof.
  destruct o as [c|c|c ch]; cbn [apply_op]; try (eexists; reflexivity).
  destruct (del_conn_spec st c) as [[_ H]|(st' & H & _)]; eauto.
Qed.
Lemma run_ops_ok h : forall st, exists st', run_ops st h = Ok st'.
Proof.
  induction h as [|o h IH]; intros st; [exists st; reflexivity|].
  destruct (apply_op_ok st o) as [st' E]. cbn [run_ops]. rewrite E. apply IH.
Qed.

Lemma NoDup_app_l {A} (l1 l2 : list A) : NoDup (l1 ++ l2) -> NoDup l1.
Proof.
  induction l1 as [|a l1 IH]; intros H; [constructor|]. inversion H as [|? ? Hn Hd]; subst.
  constructor; [intros Hin; apply Hn, in_or_app; left; exact Hin|apply IH; exact Hd].
Qed.

Lemma added_once_app h1 h2 : added_once (h1 ++ h2) -> added_once h1.
Proof. unfold added_once. rewrite flat_map_app. intros H. apply NoDup_app_l in H. exact H. Qed.

Lemma added_once_fresh h c : added_once (h ++ [AddConn c]) -> ~ In (AddConn c) h.
Proof.
  unfold added_once. rewrite flat_map_app. cbn [flat_map app]. intros H Hin.
  apply NoDup_remove_2 in H. rewrite app_nil_r in H. apply H, in_flat_map.
  exists (AddConn c); split; [exact Hin|left; reflexivity].
Qed.

Lemma open_after_snoc h o c :
  open_after (h ++ [o]) c <-> (o = AddConn c \/ (open_after h c /\ o <> DelConn c)).
Proof.
  split.
  - intros (h1 & h2 & E & Hn).
    destruct h2 as [|x h2'] using rev_ind.
    + apply app_inj_tail in E. destruct E as [_ <-]. left; reflexivity.
    + clear IHh2'. change (h1 ++ AddConn c :: h2' ++ [x]) with (h1 ++ (AddConn c :: h2') ++ [x]) in E.
      rewrite app_assoc in E. apply app_inj_tail in E. destruct E as [-> ->]. right. split.
      * exists h1, h2'; split; [reflexivity|]. intros Hx. apply Hn, in_or_app; left; exact Hx.
      * intros ->. apply Hn, in_or_app; right; left; reflexivity.
  - intros [->|[(h1 & h2 & -> & Hn) Ho]].
    + exists h, []; split; [reflexivity|intros []].
    + exists h1, (h2 ++ [o]). split; [rewrite <- app_assoc; reflexivity|].
      intros Hx. apply in_app_or in Hx. destruct Hx as [Hx|[Hx|[]]]; [contradiction|congruence].
Qed.

Lemma run_ops_inv h : forall st, added_once h -> run_ops new_mms h = Ok st ->
  NoDup (connections st)
  /\ (forall c, In c (connections st) <-> open_after h c)
  /\ (forall c ch, (exists l, channels st c = Some l /\ In ch l) <-> subscribed_to h c ch).
Proof.
  induction h as [|o h IH] using rev_ind; intros st Hon Hrun.
  - cbn in Hrun. injection Hrun as <-. cbn [connections channels new_mms].
    split; [constructor|]. split.
    + intros c; split; [intros []|]. intros (h1 & h2 & E & _). destruct h1; discriminate.
    + intros c ch; split; [intros (l & E & _); discriminate|intros []].
  - rewrite run_ops_app in Hrun. destruct (run_ops_ok h new_mms) as [s0 E0]. rewrite E0 in Hrun.
    cbn [obind run_ops] in Hrun.
    destruct (IH s0 (added_once_app _ _ Hon) E0) as (Hnd & Hop & Hsub).
    destruct (apply_op s0 o) as [st'|] eqn:Eo; [|discriminate]. injection Hrun as ->.
    destruct o as [c0|c0|c0 ch0]; cbn [apply_op] in Eo.
    + injection Eo as <-. cbn [add_conn connections channels].
      pose proof (added_once_fresh _ _ Hon) as Hf.
      assert (Hnin : ~ In c0 (connections s0)).
      { intros Hin. apply Hop in Hin. destruct Hin as (h1 & h2 & -> & _). apply Hf, in_or_app; right; left; reflexivity. }
      split; [apply (Permutation_NoDup (Permutation_cons_append _ _)); constructor; assumption|]. split.
      * intros c. rewrite open_after_snoc, in_app_iff, Hop. split.
        -- intros [Hx|[<-|[]]]; [right; split; [exact Hx|discriminate]|left; reflexivity].
        -- intros [E|[Hx _]]; [injection E as <-; right; left; reflexivity|left; exact Hx].
      * intros c ch. rewrite Hsub. unfold subscribed_to. rewrite in_app_iff. cbn.
        split; [auto|intros [Hx|[Hx|[]]]; [exact Hx|discriminate]].
    + assert (Hch : channels st = channels s0 /\ NoDup (connections st)
                    /\ forall c, In c (connections st) <-> (In c (connections s0) /\ c <> c0)).
      { destruct (del_conn_spec s0 c0) as [[Hn Hd]|(st' & Hd & Hc & Hp)].
        - rewrite Hd in Eo; injection Eo as <-. split; [reflexivity|]. split; [exact Hnd|].
          intros c; split; [intros Hx; split; [exact Hx|intros ->; contradiction]|intros [Hx _]; exact Hx].
        - rewrite Hd in Eo; injection Eo as <-. split; [exact Hc|].
          pose proof (Permutation_NoDup Hp Hnd) as Hnd'. inversion Hnd' as [|? ? Hn1 Hn2]; subst.
          split; [exact Hn2|]. intros c. split.
          + intros Hx. split; [apply (Permutation_in _ (Permutation_sym Hp)); right; exact Hx|].
            intros ->; contradiction.
          + intros [Hx Hne]. apply (Permutation_in _ Hp) in Hx. destruct Hx as [Hx|Hx]; [congruence|exact Hx]. }
      destruct Hch as (Hc & Hnd' & Hin). split; [exact Hnd'|]. split.
      * intros c. rewrite Hin, Hop, open_after_snoc. split.
        -- intros [Hx Hne]. right; split; [exact Hx|congruence].
        -- intros [E|[Hx Hne]]; [discriminate|]. split; [exact Hx|congruence].
      * intros c ch. rewrite Hc, Hsub. unfold subscribed_to. rewrite in_app_iff. cbn.
        split; [auto|intros [Hx|[Hx|[]]]; [exact Hx|discriminate]].
    + injection Eo as <-. cbn [subscribe connections channels]. split; [exact Hnd|]. split.
      * intros c. rewrite Hop, open_after_snoc. split; [intros Hx; right; split; [exact Hx|discriminate]|].
        intros [E|[Hx _]]; [discriminate|exact Hx].
      * intros c ch. unfold subscribed_to in *. rewrite in_app_iff. cbn [In]. rewrite <- (Hsub c ch).
        destruct (Nat.eqb c c0) eqn:Ec.
        -- apply Nat.eqb_eq in Ec; subst c0.
           destruct (channels s0 c) as [l|] eqn:El.
           ++ split.
              ** intros (l' & E & Hx). injection E as <-. apply in_app_or in Hx.
                 destruct Hx as [Hx|[->|[]]]; [left; exists l; auto|right; left; reflexivity].
              ** intros [(l' & E & Hx)|[E|[]]].
                 { injection E as <-. eexists; split; [reflexivity|apply in_or_app; left; exact Hx]. }
                 { injection E as ->. eexists; split; [reflexivity|apply in_or_app; right; left; reflexivity]. }
           ++ split.
              ** intros (l' & E & Hx). injection E as <-. destruct Hx as [->|[]]. right; left; reflexivity.
              ** intros [(l' & E & Hx)|[E|[]]]; [discriminate|]. injection E as ->.
                 eexists; split; [reflexivity|left; reflexivity].
        -- apply Nat.eqb_neq in Ec. split; [auto|]. intros [Hx|[E|[]]]; [exact Hx|]. congruence.
Qed.

Lemma contains_channel_In chs ch : contains_channel chs ch = true <-> In ch chs.
Proof.
  induction chs as [|c chs IH]; cbn [contains_channel In]; [split; [discriminate|intros []]|].
  destruct (ch =? c) eqn:E; [apply Z.eqb_eq in E; subst; split; auto|].
  apply Z.eqb_neq in E. rewrite IH. split; [auto|intros [Hx|Hx]; [congruence|exact Hx]].
Qed.

Lemma is_subscribed_spec st c chs :
  is_subscribed st c chs = true <-> exists ch, In ch chs /\ exists l, channels st c = Some l /\ In ch l.
Proof.
  unfold is_subscribed. destruct (channels st c) as [l|].
  - rewrite existsb_exists. split.
    + intros (ch & H1 & H2). apply contains_channel_In in H2. exists ch; split; [exact H2|exists l; auto].
    + intros (ch & H1 & l' & E & H2). injection E as <-. exists ch; split; [exact H2|apply contains_channel_In; exact H1].
  - split; [discriminate|intros (ch & _ & l & E & _); discriminate].
Qed.

Lemma channel_of_spec m : (snd (channel_of m) = true <-> exists ch, carried_by m ch)
  /\ forall ch, In ch (fst (channel_of m)) <-> carried_by m ch.
Proof.
  split.
  - destruct m; cbn; (split; [intros H; try discriminate; eexists; constructor|intros [ch H]; inversion H; reflexivity]).
  - intros ch. destruct m; cbn; (split; [intros H; repeat destruct H as [<-|H]; try contradiction; constructor|
      intros H; inversion H; subst; auto]).
Qed.

Lemma writes_to_spec st m c : writes_to st m c = true <->
  ((exists ch, carried_by m ch /\ exists l, channels st c = Some l /\ In ch l) \/ (forall ch, ~ carried_by m ch)).
Proof.
  unfold writes_to. destruct (channel_of_spec m) as [H1 H2]. destruct (channel_of m) as [chs hasCh]; cbn [fst snd] in *.
  rewrite orb_true_iff, is_subscribed_spec. split.
  - intros [H|(ch & Hc & Hl)].
    + right. intros ch Hc. assert (E : hasCh = true) by (apply H1; eauto). rewrite E in H; discriminate.
    + left. exists ch; split; [apply H2; exact Hc|exact Hl].
  - intros [(ch & Hc & Hl)|H].
    + right. exists ch; split; [apply H2; exact Hc|exact Hl].
    + left. destruct hasCh; [|reflexivity]. exfalso. destruct H1 as [H1 _]. destruct (H1 eq_refl) as [ch Hc].
      exact (H ch Hc).
Qed.

Lemma recipients_spec h m st : added_once h -> run_ops new_mms h = Ok st ->
  NoDup (recipients st m) /\ forall c, In c (recipients st m) <-> should_get h m c.
Proof.
  intros Hon Hrun. destruct (run_ops_inv h st Hon Hrun) as (Hnd & Hop & Hsub).
  split; [apply NoDup_filter; exact Hnd|].
  intros c. unfold recipients, should_get. rewrite filter_In, Hop, writes_to_spec.
  setoid_rewrite Hsub. reflexivity.
Qed.

(** * Broadcast runs *)
Section Broadcast.
Context {E : Type} (st : mms) (m : message) (res : nat -> send_result E).

Definition wr (l : list nat) : list nat := filter (writes_to st m) l.

Definition bc_inv (b : broadcast E) : Prop :=
  Permutation (connections st) (connections st)
  /\ Permutation (recipients st m) (wr (fresh b) ++ attempted b)
  /\ exists done, Permutation (attempted b) (writing b ++ done)
                  /\ Permutation (failures res done) (adding b ++ errs b)
                  /\ Forall (fun c => res c <> Stalled) done.

Lemma wr_remove l1 c l2 : wr (l1 ++ c :: l2) = wr l1 ++ (if writes_to st m c then [c] else []) ++ wr l2.
Proof. unfold wr. rewrite filter_app. cbn [filter]. destruct (writes_to st m c); reflexivity. Qed.
Lemma wr_app l1 l2 : wr (l1 ++ l2) = wr l1 ++ wr l2.
Proof. apply filter_app. Qed.

Lemma bc_inv_step b b' : bc_inv b -> bc_step st m res b b' -> bc_inv b'.
Proof.
  intros (H0 & H1 & done & H2 & H3 & H4) Hs.
  inversion Hs as [c l1 l2 w a e t Hw|c l1 l2 w a e t Hw|c f l1 l2 a e t Hr|c x f l1 l2 a e t Hr|x f w l1 l2 e t];
    subst b b'; unfold bc_inv; cbn [fresh writing adding errs attempted] in *; (split; [exact H0|]).
  - rewrite wr_remove, Hw in H1. cbn [app] in H1. rewrite wr_app. split; [exact H1|exists done; auto].
  - rewrite wr_remove, Hw in H1. rewrite wr_app. split.
    + rewrite H1. cbn [app]. rewrite <- !app_assoc. apply Permutation_app_head. cbn [app].
      rewrite Permutation_middle. apply Permutation_app_head. apply Permutation_cons_append.
    + exists done. split; [|auto]. rewrite <- Permutation_cons_append, H2. reflexivity.
  - split; [exact H1|]. exists (c :: done). split; [rewrite H2, <- !app_assoc; cbn [app]; apply Permutation_app_head; apply Permutation_middle|].
    split; [cbn [failures flat_map]; rewrite Hr; exact H3|]. constructor; [congruence|exact H4].
  - split; [exact H1|]. exists (c :: done). split; [rewrite H2, <- !app_assoc; cbn [app]; apply Permutation_app_head; apply Permutation_middle|].
    split; [cbn [failures flat_map]; rewrite Hr; cbn [app]; apply perm_skip; exact H3|]. constructor; [congruence|exact H4].
  - split; [exact H1|]. exists done. split; [exact H2|]. split; [|exact H4].
    rewrite H3, <- !app_assoc. cbn [app]. apply Permutation_app_head. rewrite Permutation_middle.
    apply Permutation_app_head. apply Permutation_cons_append.
Qed.

Lemma bc_inv_start : bc_inv (bc_start st).
Proof.
  unfold bc_inv, bc_start; cbn [fresh writing adding errs attempted]. split; [reflexivity|].
  split; [rewrite app_nil_r; reflexivity|]. exists []. cbn. repeat split; constructor.
Qed.

Lemma bc_inv_run b b' : bc_inv b -> bc_run st m res b b' -> bc_inv b'.
Proof. intros H Hr; induction Hr as [|b b1 b2 Hs Hr IH]; [exact H|]. apply IH. eapply bc_inv_step; eauto. Qed.

Lemma failures_perm l l' : Permutation l l' -> Permutation (failures res l) (failures res l').
Proof. intros H. unfold failures. apply Permutation_flat_map. exact H. Qed.

Lemma bc_result b r : bc_run st m res (bc_start st) b -> bc_returned b = Some r ->
  Permutation (attempted b) (recipients st m)
  /\ match r with
     | None => forall c, In c (recipients st m) -> res c = Sent
     | Some l => l <> [] /\ Permutation l (failures res (recipients st m))
     end.
Proof.
  intros Hr Hret. destruct (bc_inv_run _ _ bc_inv_start Hr) as (_ & H1 & done & H2 & H3 & H4).
  unfold bc_returned in Hret. destruct (fresh b); [|discriminate]. destruct (writing b); [|discriminate].
  destruct (adding b); [|discriminate]. cbn [wr filter app] in *.
  assert (Hp : Permutation (recipients st m) done) by (rewrite H1; exact H2).
  split; [symmetry; exact H1|].
  apply failures_perm in Hp. rewrite H3 in Hp. injection Hret as <-.
  assert (Hd : Forall (fun c => res c <> Stalled) (recipients st m)).
  { rewrite Forall_forall in *. intros c Hc. apply H4. rewrite H1 in Hc. rewrite H2 in Hc. exact Hc. }
  destruct (errs b) as [|x l].
  - intros c Hc. destruct (res c) as [|e|] eqn:Er; [reflexivity| |].
    + exfalso. apply Permutation_sym, Permutation_nil in Hp.
      assert (Hin : In e (failures res (recipients st m))) by (apply in_flat_map; exists c; rewrite Er; split; [exact Hc|left; reflexivity]).
      rewrite Hp in Hin. exact Hin.
    + exfalso. rewrite Forall_forall in Hd. exact (Hd c Hc Er).
  - split; [discriminate|]. symmetry; exact Hp.
Qed.

(** Every step makes progress, and without stalled writes some step is possible until
    the broadcast has returned. *)
Definition bc_size (b : broadcast E) : nat :=
  (3 * length (fresh b) + 2 * length (writing b) + length (adding b))%nat.
Lemma bc_step_size b b' : bc_step st m res b b' -> (bc_size b' < bc_size b)%nat.
Proof.
  intros Hs; inversion Hs; subst; unfold bc_size; cbn [fresh writing adding]; rewrite ?app_length; cbn [length]; rewrite ?app_length; cbn [length]; lia.
Qed.
Lemma bc_progress b : bc_inv b -> (forall c, In c (recipients st m) -> res c <> Stalled) ->
  bc_returned b <> None \/ exists b', bc_step st m res b b'.
Proof.
  intros Hinv Hok. destruct b as [f w a e t]. destruct f as [|c f].
  - destruct w as [|c w].
    + destruct a as [|x a]; [left; unfold bc_returned; cbn; discriminate|right].
      eexists. apply (BcAppend st m res x [] [] [] a e t).
    + right. destruct (res c) as [|x|] eqn:Er.
      * eexists. apply (BcSent st m res c [] [] w a e t Er).
      * eexists. apply (BcFailed st m res c x [] [] w a e t Er).
      * exfalso. destruct Hinv as (_ & H1 & done & H2 & _). cbn [fresh writing attempted wr filter app] in *.
        apply (Hok c); [|exact Er]. rewrite H1, H2. left; reflexivity.
  - right. destruct (writes_to st m c) eqn:Ew.
    + eexists. apply (BcStart st m res c [] f w a e t Ew).
    + eexists. apply (BcSkip st m res c [] f w a e t Ew).
Qed.

Lemma bc_terminates : (forall c, In c (recipients st m) -> res c <> Stalled) ->
  forall n b, bc_inv b -> (bc_size b <= n)%nat -> exists b', bc_run st m res b b' /\ bc_returned b' <> None.
Proof.
  intros Hok; induction n as [|n IH]; intros b Hinv Hn.
  - destruct (bc_progress b Hinv Hok) as [H|[b' H]]; [exists b; split; [constructor|exact H]|].
    apply bc_step_size in H; lia.
  - destruct (bc_progress b Hinv Hok) as [H|[b' H]]; [exists b; split; [constructor|exact H]|].
    pose proof (bc_step_size _ _ H). destruct (IH b' (bc_inv_step _ _ Hinv H) ltac:(lia)) as (b2 & H1 & H2).
    exists b2; split; [econstructor; eauto|exact H2].
Qed.

(** Even with stalled writes everybody can be attempted. *)
Lemma bc_attempt_all : forall n b, bc_inv b -> (length (fresh b) <= n)%nat ->
  exists b', bc_run st m res b b' /\ Permutation (attempted b') (recipients st m).
Proof.
  induction n as [|n IH]; intros b Hinv Hn; destruct b as [f w a e t]; cbn [fresh] in *.
  - destruct f; [|cbn in Hn; lia]. eexists; split; [constructor|].
    destruct Hinv as (_ & H1 & _). cbn [fresh attempted wr filter app] in *. symmetry; exact H1.
  - destruct f as [|c f].
    + eexists; split; [constructor|]. destruct Hinv as (_ & H1 & _). cbn [fresh attempted wr filter app] in *. symmetry; exact H1.
    + cbn [length] in Hn. destruct (writes_to st m c) eqn:Ew.
      * pose proof (BcStart st m res c [] f w a e t Ew) as Hs. cbn [app] in Hs.
        destruct (IH _ (bc_inv_step _ _ Hinv Hs)) as (b2 & H1 & H2); [cbn [fresh]; lia|].
        exists b2; split; [econstructor; eauto|exact H2].
      * pose proof (BcSkip st m res c [] f w a e t Ew) as Hs. cbn [app] in Hs.
        destruct (IH _ (bc_inv_step _ _ Hinv Hs)) as (b2 & H1 & H2); [cbn [fresh]; lia|].
        exists b2; split; [econstructor; eauto|exact H2].
Qed.

Lemma bc_stalled_forever b c : In c (recipients st m) -> res c = Stalled ->
  bc_run st m res (bc_start st) b -> bc_returned b = None.
Proof.
  intros Hc Hs Hr. destruct (bc_returned b) as [r|] eqn:Er; [|reflexivity]. exfalso.
  destruct (bc_inv_run _ _ bc_inv_start Hr) as (_ & H1 & done & H2 & H3 & H4).
  unfold bc_returned in Er. destruct (fresh b); [|discriminate]. destruct (writing b); [|discriminate].
  cbn [wr filter app] in *. rewrite H1, H2 in Hc. rewrite Forall_forall in H4. exact (H4 c Hc Hs).
Qed.
End Broadcast.

(** * The lock *)
Lemma hub_frozen s s' m : hub_run s s' -> In (m, true) (delivering s) -> waiting_writers s <> [] ->
  begun s' = begun s /\ hub_state s' = hub_state s /\ In (m, true) (delivering s') /\ waiting_writers s' <> [].
Proof.
  intros Hr; induction Hr as [s|s s1 s2 Hs Hr IH]; intros Hd Hw; [auto|].
  inversion Hs; subst; cbn [delivering waiting_writers begun hub_state] in *.
  - congruence.
  - destruct IH as (I1 & I2 & I3 & I4); [|exact Hw|auto].
    apply in_app_or in Hd. destruct Hd as [Hd|[Hd|Hd]]; [apply in_or_app; left; exact Hd|congruence|apply in_or_app; right; exact Hd].
  - destruct IH as (I1 & I2 & I3 & I4); auto. destruct w; discriminate.
  - destruct Hd.
Qed.

(** * Volume *)
Lemma vol_run_trans a b c : vol_run a b -> vol_run b c -> vol_run a c.
Proof. intros H; induction H; auto. intros. econstructor; eauto. Qed.

Lemma vol_receive_all i : forall h x, vol_run {| inbox := i; handlers := h; volume := x |}
                                     {| inbox := []; handlers := h ++ i; volume := x |}.
Proof.
  induction i as [|v i IH]; intros h x; [rewrite app_nil_r; constructor|].
  econstructor; [constructor|]. replace (h ++ v :: i) with ((h ++ [v]) ++ i) by (rewrite <- app_assoc; reflexivity). apply IH.
Qed.
Lemma vol_handle_all h : forall k x, exists y, vol_run {| inbox := []; handlers := h ++ k; volume := x |}
                                              {| inbox := []; handlers := k; volume := y |}.
Proof.
  induction h as [|v h IH]; intros k x; [exists x; constructor|].
  destruct (IH k (Some v)) as [y Hy]. exists y. econstructor; [apply (VolHandle v [] [] (h ++ k))|]. exact Hy.
Qed.

Lemma vol_any_last vs v x : In v vs ->
  vol_run {| inbox := vs; handlers := []; volume := x |} {| inbox := []; handlers := []; volume := Some v |}.
Proof.
  intros Hin. apply in_split in Hin. destruct Hin as (l1 & l2 & ->).
  eapply vol_run_trans; [apply vol_receive_all|]. cbn [app].
  destruct (vol_handle_all l1 (v :: l2) x) as [y Hy]. eapply vol_run_trans; [exact Hy|].
  assert (H2 : forall l z, exists u, vol_run {| inbox := []; handlers := v :: l; volume := z |} {| inbox := []; handlers := [v]; volume := u |}).
  { induction l as [|a l IH]; intros z; [exists z; constructor|].
    destruct (IH (Some a)) as [u Hu]. exists u. econstructor; [apply (VolHandle a [] [v] l)|]. exact Hu. }
  destruct (H2 l2 y) as [u Hu]. eapply vol_run_trans; [exact Hu|].
  econstructor; [apply (VolHandle v [] [] [])|constructor].
Qed.

(** The volume is always one of those sent (or the initial one). *)
Lemma vol_run_in vs s s' : vol_run s s' ->
  (forall v, In v (inbox s) \/ In v (handlers s) -> In v vs) ->
  (volume s' = volume s \/ exists v, In v vs /\ volume s' = Some v).
Proof.
  intros Hr; induction Hr as [s|s s1 s2 Hs Hr IH]; intros Hin; [left; reflexivity|].
  inversion Hs; subst; cbn [inbox handlers volume] in *.
  - apply IH. intros u [Hu|Hu]; [apply Hin; left; right; exact Hu|]. apply in_app_or in Hu.
    destruct Hu as [Hu|[<-|[]]]; [apply Hin; right; exact Hu|apply Hin; left; left; reflexivity].
  - assert (Hv : In v vs) by (apply Hin; right; apply in_or_app; right; left; reflexivity).
    destruct IH as [H|H].
    + intros u [Hu|Hu]; [apply Hin; left; exact Hu|]. apply Hin; right. apply in_app_or in Hu.
      apply in_or_app. destruct Hu as [Hu|Hu]; [left; exact Hu|right; right; exact Hu].
    + right. exists v; auto.
    + right; exact H.
Qed.

(** Prompt handling: the pending handler is the newest message received. *)
Lemma vol_prompt_inv vs s s' : vol_run_prompt s s' ->
  (exists got, vs = got ++ inbox s /\
     ((handlers s = [] /\ (got = [] \/ exists g v, got = g ++ [v] /\ volume s = Some v))
      \/ exists g v, got = g ++ [v] /\ handlers s = [v])) ->
  (exists got, vs = got ++ inbox s' /\
     ((handlers s' = [] /\ (got = [] \/ exists g v, got = g ++ [v] /\ volume s' = Some v))
      \/ exists g v, got = g ++ [v] /\ handlers s' = [v])).
Proof.
  intros Hr; induction Hr as [s|s s1 s2 Hs Hl Hr IH]; intros H; [exact H|]. apply IH; clear IH Hr.
  destruct H as (got & Hv & Hc). inversion Hs; subst; cbn [inbox handlers volume] in *.
  - exists (got ++ [v]). split; [rewrite <- app_assoc; reflexivity|]. right.
    destruct h as [|a h]; [exists got, v; split; reflexivity|]. rewrite app_length in Hl. cbn in Hl. lia.
  - exists got. split; [reflexivity|]. left.
    destruct Hc as [[Hn _]|(g & u & Hg & Hh)]; [destruct h1; discriminate|].
    destruct h1 as [|a h1]; [|destruct h1; discriminate]. cbn in Hh. injection Hh as -> ->.
    split; [reflexivity|right; exists g, u; auto].
Qed.
