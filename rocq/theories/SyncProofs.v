(** Proofs for C99. *)
From Verif Require Import GoBase GoBaseFacts WireModel TimingModel TimingSpec TimingProofs LifeModel E2EModel SyncModel SyncSpec.
From Coq Require Import ZifyBool ZifyNat.
Local Open Scope Z_scope.

(** Twice the distance of an offset from [theta]. *)
Definition near (theta e o : Z) : Prop := 2 * Z.abs (o - theta) <= e.

Lemma measures_calc clock x o : measures clock x o ->
  o = calc_offset (x_sent x) (clock (x_sent x + x_out x)) (clock (x_sent x + x_out x + x_work x))
        (x_sent x + x_out x + x_work x + x_back x).
Proof.
  intros (s & s' & c & m & H & Ho & Hr). unfold sync_request, server_handle in H. injection H as <-.
  unfold write_to in Ho. cbn [sv_out] in Ho. rewrite Nat.eqb_refl in Ho. apply app_inv_head in Ho. injection Ho as <-.
  cbn in Hr. injection Hr as <-. reflexivity.
Qed.

Lemma measures_near clock theta rho A x o : sane theta rho A -> apart clock theta rho ->
  Z.abs (x_out x - x_back x) <= A -> measures clock x o -> near theta (A + 2 * rho + 1) o.
Proof.
  intros (Ht & Hr & HA) Hc Hx Hm. apply measures_calc in Hm. rewrite Hm. clear Hm.
  pose proof (Hc (x_sent x + x_out x)) as C1. pose proof (Hc (x_sent x + x_out x + x_work x)) as C2.
  set (r1 := clock (x_sent x + x_out x)) in *. set (r2 := clock (x_sent x + x_out x + x_work x)) in *.
  set (v := (r1 - x_sent x) + (r2 - (x_sent x + x_out x + x_work x + x_back x))).
  assert (Hv : Z.abs (v - 2 * theta) <= A + 2 * rho) by (unfold v; lia).
  rewrite calc_exact; fold v.
  - unfold near. pose proof (Z.quot_rem' v 2) as E.
    destruct (Z.le_gt_cases 0 v) as [Hp|Hp].
    + pose proof (Z.rem_bound_pos v 2 Hp ltac:(lia)). lia.
    + pose proof (Z.rem_bound_pos (- v) 2 ltac:(lia) ltac:(lia)) as B. rewrite Z.rem_opp_l in B by lia. lia.
  - unfold in_int64. change (2 ^ 63) with (8 * 2 ^ 60). lia.
Qed.

Lemma measured_near clock theta rho A acts : sane theta rho A -> apart clock theta rho ->
  measured_with clock A acts -> Forall (near theta (A + 2 * rho + 1)) (measured acts).
Proof.
  intros Hs Hc. unfold measured_with. apply Forall_impl. intros o (x & Hx & Hm). eapply measures_near; eassumption.
Qed.

Lemma near_int64 theta rho A o : sane theta rho A -> near theta (A + 2 * rho + 1) o -> in_int64 o.
Proof. intros (Ht & Hr & HA) H. unfold near in H. unfold in_int64. change (2 ^ 63) with (8 * 2 ^ 60). lia. Qed.

Lemma mean_near theta e l : l <> [] -> Forall (near theta e) l -> near theta e (total l / zlen l).
Proof.
  intros Hn H.
  assert (B : Forall (fun o => theta - e / 2 <= o <= theta + e / 2) l).
  { eapply Forall_impl; [|exact H]. intros o Ho. unfold near in Ho.
    pose proof (Z.div_mod e 2 ltac:(lia)). pose proof (Z.mod_pos_bound e 2 ltac:(lia)). lia. }
  pose proof (mean_bounds _ _ _ Hn B) as M. unfold near.
  pose proof (Z.div_mod e 2 ltac:(lia)). pose proof (Z.mod_pos_bound e 2 ltac:(lia)). lia.
Qed.

(** Whatever the schedule: the collected measurements are near, and so is the offset once it
    was computed. *)
Lemma near_step grow theta rho A (P : Z -> Prop) s a s' : sane theta rho A ->
  (forall o, near theta (A + 2 * rho + 1) o -> P o) ->
  Forall (near theta (A + 2 * rho + 1)) (offs s) -> P (off s) ->
  Forall (near theta (A + 2 * rho + 1)) (measured [a]) ->
  tstep grow s a = Some (Ok s') ->
  Forall (near theta (A + 2 * rho + 1)) (offs s') /\ P (off s').
Proof.
  intros Hs HP Ho Hp Hm H. destruct a as [n|o|i|i|i]; cbn [tstep measured] in *.
  - destruct (n <? 0); [discriminate|]. injection H as <-. cbn [offs off]. auto.
  - injection H as <-. cbn [offs off]. split; [|exact Hp]. apply Forall_app. auto.
  - destruct (nth_error (upcs s) i) as [[| | | |]|]; try discriminate; injection H as <-; auto.
  - destruct (nth_error (upcs s) i) as [[| | | |]|]; try discriminate; injection H as <-; auto.
  - destruct (nth_error (upcs s) i) as [[| | | |]|]; try discriminate.
    destruct (average (offs s)) as [v|] eqn:Ea; cbn [obind] in H; [|discriminate]. injection H as <-.
    cbn [offs off]. split; [exact Ho|]. apply HP.
    assert (Hne : offs s <> []) by (intros E; rewrite E in Ea; discriminate).
    rewrite average_mean in Ea; [|exact Hne|].
    + injection Ea as <-. apply mean_near; assumption.
    + eapply Forall_impl; [|exact Ho]. intros o. apply near_int64. exact Hs.
Qed.

Lemma near_run grow theta rho A (P : Z -> Prop) acts : sane theta rho A ->
  (forall o, near theta (A + 2 * rho + 1) o -> P o) -> forall s s',
  Forall (near theta (A + 2 * rho + 1)) (offs s) -> P (off s) ->
  Forall (near theta (A + 2 * rho + 1)) (measured acts) ->
  trun grow s acts = Some (Ok s') ->
  Forall (near theta (A + 2 * rho + 1)) (offs s') /\ P (off s').
Proof.
  intros Hs HP. induction acts as [|a acts IH]; intros s s' Ho Hp Hm H; cbn [trun] in H.
  - injection H as <-. auto.
  - destruct (tstep grow s a) as [[s1|]|] eqn:E; try discriminate.
    rewrite measured_cons, Forall_app in Hm. destruct Hm as [M1 M2].
    destruct (near_step grow theta rho A P _ _ _ Hs HP Ho Hp M1 E) as [O1 P1]. eapply IH; eassumption.
Qed.

Lemma trun_app grow a b : forall s s', trun grow s (a ++ b) = Some (Ok s') ->
  exists s1, trun grow s a = Some (Ok s1) /\ trun grow s1 b = Some (Ok s').
Proof.
  induction a as [|x a IH]; intros s s' H; cbn [app trun] in *; [eauto|].
  destruct (tstep grow s x) as [[s1|]|]; try discriminate. apply IH. exact H.
Qed.
Lemma measured_app a b : measured (a ++ b) = measured a ++ measured b.
Proof. induction a as [|x a IH]; [reflexivity|]. rewrite <- app_comm_cons, measured_cons, (measured_cons x a), IH, app_assoc. reflexivity. Qed.

(** A near offset gives a synchronised clock near the server's. *)
Lemma near_clock clock theta rho A s t : sane theta rho A -> apart clock theta rho -> Z.abs t <= 2 ^ 61 ->
  near theta (A + 2 * rho + 1) (off s) ->
  2 * Z.abs (get_synced_time s t - clock t) <= A + 4 * rho + 1.
Proof.
  intros (Ht & Hr & HA) Hc Hb Hn. unfold near in Hn. unfold get_synced_time. rewrite wrap64_id.
  - specialize (Hc t). lia.
  - unfold in_int64. change (2 ^ 63) with (8 * 2 ^ 60). change (2 ^ 61) with (2 * 2 ^ 60) in Hb. lia.
Qed.
