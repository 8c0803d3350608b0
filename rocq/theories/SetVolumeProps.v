(** C128: everybody ends up with the volume set last. *)
From Verif Require Import GoBase GoBaseFacts SetVolumeModel SetVolumeSpec SetVolumeProofs.
Local Open Scope nat_scope.

(** Partial: from any state in which nothing is under way, if commands and subscriptions then come one
    after the other and no command is refused: every reply confirms the volume typed, the volume is the one
    typed last, and every client that has subscribed - once a volume was typed, or if it subscribed since -
    was sent that volume last, unless a message to it failed. *)
Theorem C128_one_after_another_partial : forall v cs acts0 s0 es0 acts s es,
  vrun (started v cs) acts0 = Some (s0, es0) -> no_command s0 -> no_subscription s0 ->
  vrun s0 acts = Some (s, es) -> undisturbed s0 acts -> accepted acts -> no_command s ->
  replies es = typed acts /\ volume s = last_typed (volume s0) acts
  /\ forall c, client s c = Done -> reached c acts -> typed acts <> [] \/ client s0 c = Fresh ->
     last_sent c es = Some (volume s).
Proof.
  intros v cs acts0 s0 es0 acts s es R0 Nc Ns R U A Nc'.
  destruct (inv_run s0 (connected _ _ _ _ _ R0) acts s es Nc Ns R U A) as [V _ [(_ & Re & T & _)|(i & _ & _ & _ & X)]]; [|now rewrite Nc' in X].
  split; [exact Re|]. split; [exact V|]. intros c Dn Rc D. apply T; [exact Dn|]. split; assumption.
Qed.

(** Partial: whatever the schedule, every volume a client is sent or a session is told is the one the
    server started with or one that was typed - or 0, if one was typed that cannot be read. *)
Theorem C128_only_typed_partial : forall v cs acts s es, vrun (started v cs) acts = Some (s, es) ->
  In (volume s) (v :: typed acts) /\ forall w, In w (volumes_seen es) -> In w (v :: typed acts).
Proof. intros v cs acts s es R. destruct (from_run _ _ _ _ _ R) as [[V _] S]. split; assumption. Qed.

Ltac go := eapply vrun_cons; [cbn [vstep session at_command at_client locked client clients volume readers]; repeat (rewrite set_same || rewrite set_other by congruence)|].

(** Refuted: whenever two sessions set the volume at once, any two of the clients can be left with
    different volumes for good, and both sessions be told the same one. *)
Theorem C128_two_volumes_refuted : forall v cs acts0 s es0 i j c1 c2 v1 v2,
  vrun (started v cs) acts0 = Some (s, es0) -> session s i = Idle -> session s j = Idle -> i <> j ->
  c1 <> c2 -> client s c1 = Done -> client s c2 = Done ->
  exists acts s' es, vrun s acts = Some (s', es) /\ typed acts = [v1; v2]
    /\ session s' i = Idle /\ session s' j = Idle /\ (forall k, k <> i -> k <> j -> session s' k = session s k)
    /\ client s' = client s
    /\ volume s' = v2 /\ told i es = [(true, v2)] /\ told j es = [(true, v2)]
    /\ last_sent c1 es = Some v2 /\ last_sent c2 es = Some v1.
Proof.
  intros v cs acts0 s es0 i j c1 c2 v1 v2 R0 Ei Ej Nij Nc D1 D2.
  set (l := filter (fun c => subscribed (client s c)) (clients s)).
  assert (I1 : existsb (Nat.eqb c1) l = true).
  { apply existsb_in. apply filter_In. split; [apply (connected _ _ _ _ _ R0); congruence|now rewrite D1]. }
  assert (I2 : existsb (Nat.eqb c2) l = true).
  { apply existsb_in. apply filter_In. split; [apply (connected _ _ _ _ _ R0); congruence|now rewrite D2]. }
  assert (W : forall a b m, a <> b -> existsb (Nat.eqb a) m = true -> existsb (Nat.eqb a) (without b m) = true).
  { intros a b m Nab. rewrite !existsb_in, without_in. tauto. }
  assert (F : exists s1 e1, e1 = [Received c1 v1; Received c1 v2; Received c2 v2; Received c2 v1] /\ vrun s [Type_ i (Some v1); Build i; Type_ j (Some v2); Build j; Begin i; Begin j; Write i c1 true; Write j c1 true; Write j c2 true; Write i c2 true]
      = Some (s1, e1)
    /\ session s1 i = Sending v1 (without c2 (without c1 l)) true /\ session s1 j = Sending v2 (without c2 (without c1 l)) true
    /\ (forall k, k <> i -> k <> j -> session s1 k = session s k) /\ client s1 = client s /\ volume s1 = v2).
  { eexists _, _. split; [|split].
    2:{ go; [rewrite Ei; reflexivity|]. go; [reflexivity|]. go; [rewrite Ej; reflexivity|]. go; [reflexivity|]. go; [reflexivity|]. go; [reflexivity|].
      fold l. go; [rewrite I1; reflexivity|]. go; [rewrite I1; reflexivity|].
      go; [rewrite W by (auto; congruence); reflexivity|]. go; [rewrite W by (auto; congruence); reflexivity|]. reflexivity. }
    - reflexivity.
    - cbn [session at_command locked client volume]. repeat split.
      + rewrite set_same. reflexivity.
      + rewrite set_other, set_same by congruence. reflexivity.
      + intros k Ki Kj. rewrite !set_other by assumption. reflexivity. }
  destruct F as (s1 & e1 & -> & R1 & S1 & S2 & S3 & S4 & S5).
  destruct (complete _ _ _ _ S1) as (a2 & s2 & e2 & R2 & T2 & V2 & _ & C2 & Z2 & O2 & L2 & Q2).
  rewrite <- O2 in S2 by congruence.
  destruct (complete _ _ _ _ S2) as (a3 & s3 & e3 & R3 & T3 & V3 & _ & C3 & Z3 & O3 & L3 & Q3).
  eexists _, s3, _. split; [eapply vrun_trans; [exact R1|eapply vrun_trans; [exact R2|exact R3]]|].
  assert (N1 : existsb (Nat.eqb c1) (without c2 (without c1 l)) = false).
  { apply Bool.not_true_is_false. rewrite existsb_in, !without_in. tauto. }
  assert (N2 : existsb (Nat.eqb c2) (without c2 (without c1 l)) = false).
  { apply Bool.not_true_is_false. rewrite existsb_in, !without_in. tauto. }
  repeat split.
  - rewrite !typed_app, T2, T3. reflexivity.
  - rewrite O3 by congruence. exact Z2.
  - exact Z3.
  - intros k Ki Kj. rewrite O3, O2 by assumption. now apply S3.
  - now rewrite C3, C2.
  - now rewrite V3, V2.
  - rewrite !told_app, Q2, Q3, V2, S5, Nat.eqb_refl. destruct (Nat.eqb_spec j i); [congruence|reflexivity].
  - rewrite !told_app, Q2, Q3, V2, S5, Nat.eqb_refl. destruct (Nat.eqb_spec i j); [congruence|reflexivity].
  - rewrite !last_sent_app, L2, L3, N1. cbn. rewrite Nat.eqb_refl. destruct (Nat.eqb_spec c2 c1); [congruence|reflexivity].
  - rewrite !last_sent_app, L2, L3, N2. cbn. now rewrite Nat.eqb_refl.
Qed.

(** Refuted: a client that subscribes while the volume is set can be left with the old one for good. *)
Theorem C128_late_client_refuted : forall s i c w,
  session s i = Idle -> readers s = 0 -> client s c = Fresh -> In c (clients s) ->
  exists acts s' es, vrun s acts = Some (s', es) /\ typed acts = [w]
    /\ session s' i = Idle /\ (forall k, k <> i -> session s' k = session s k) /\ client s' c = Done
    /\ volume s' = w /\ told i es = [(true, w)] /\ last_sent c es = Some (volume s).
Proof.
  intros s i c w Ei Rd Fc Ic.
  assert (F : exists s1 l e1, e1 = [] /\ vrun s [Subscribe c; ReadVolume c; Type_ i (Some w); Build i; Begin i] = Some (s1, e1)
    /\ session s1 i = Sending w l true /\ (forall k, k <> i -> session s1 k = session s k) /\ client s1 c = Read (volume s) /\ volume s1 = w).
  { eexists _, _, _. split; [|split].
    2:{ go; [rewrite Fc, Rd, (proj2 (existsb_in c _) Ic); reflexivity|]. go; [reflexivity|]. go; [rewrite Ei; reflexivity|]. go; [reflexivity|]. go; [reflexivity|]. reflexivity. }
    - reflexivity.
    - cbn [session at_command at_client locked client volume]. repeat split; try apply set_same.
      intros k Ki. now rewrite !set_other by assumption. }
  destruct F as (s1 & l & e1 & -> & R1 & S1 & S2 & S3 & S4).
  destruct (complete _ _ _ _ S1) as (a2 & s2 & e2 & R2 & T2 & V2 & _ & C2 & Z2 & O2 & L2 & Q2).
  eexists _, (at_client s2 c Done), _. split; [eapply vrun_trans; [exact R1|eapply vrun_trans; [exact R2|]]|].
  - apply (vrun_cons _ (Send c true) [] (at_client s2 c Done) [Received c (volume s)] _ []); [|reflexivity]. cbn [vstep]. now rewrite C2, S3.
  - cbn [session at_client client volume]. repeat split.
    + rewrite !typed_app, T2. reflexivity.
    + exact Z2.
    + intros k Ki. rewrite O2 by exact Ki. now apply S2.
    + apply set_same.
    + now rewrite V2.
    + rewrite !told_app, Q2, Nat.eqb_refl, S4. reflexivity.
    + rewrite !last_sent_app. cbn. now rewrite Nat.eqb_refl.
Qed.

(** Refuted: a text that is no number, refused in one session while another sets the volume, can silence
    all clients; the other session is told that it set the volume 0. *)
Theorem C128_typo_silences_refuted : forall s i j v, session s i = Idle -> session s j = Idle -> i <> j ->
  exists acts s' es, vrun s acts = Some (s', es) /\ typed acts = [v; 0%N] /\ In (Type_ j None) acts
    /\ session s' i = Idle /\ (forall k, k <> i -> session s' k = session s k) /\ client s' = client s
    /\ In (Usage j) es /\ told i es = [(true, 0%N)] /\ volume s' = 0%N
    /\ forall c, In c (clients s) -> client s c <> Fresh -> last_sent c es = Some 0%N.
Proof.
  intros s i j v Ei Ej Nij.
  assert (F : exists s1 e1, e1 = [Usage j] /\ vrun s [Type_ i (Some v); Type_ j None; Build i; Begin i] = Some (s1, e1)
    /\ session s1 i = Sending 0%N (filter (fun c => subscribed (client s c)) (clients s)) true
    /\ (forall k, k <> i -> session s1 k = session s k) /\ client s1 = client s /\ volume s1 = 0%N).
  { eexists _, _. split; [|split].
    2:{ go; [rewrite Ei; reflexivity|]. go; [rewrite Ej; reflexivity|]. go; [reflexivity|]. go; [reflexivity|]. reflexivity. }
    - reflexivity.
    - cbn [session at_command locked client volume]. repeat split; try apply set_same.
      intros k Ki. now rewrite !set_other by assumption. }
  destruct F as (s1 & e1 & -> & R1 & S1 & S2 & S3 & S4).
  destruct (complete _ _ _ _ S1) as (a2 & s2 & e2 & R2 & T2 & V2 & _ & C2 & Z2 & O2 & L2 & Q2).
  eexists _, s2, _. split; [eapply vrun_trans; [exact R1|exact R2]|].
  repeat split.
  - rewrite typed_app, T2. reflexivity.
  - right. left. reflexivity.
  - exact Z2.
  - intros k Ki. rewrite O2 by exact Ki. now apply S2.
  - now rewrite C2.
  - now left.
  - rewrite told_app, Q2, Nat.eqb_refl, S4. reflexivity.
  - now rewrite V2.
  - intros c Ic Nf. rewrite last_sent_app, L2. rewrite (proj2 (existsb_in c _)); [reflexivity|].
    apply filter_In. split; [exact Ic|]. destruct (client s c); congruence || reflexivity.
Qed.

(** Nobody waits for ever: whatever the schedule, a session that is in the command and a subscription that was
    begun can always go on, and a client can subscribe exactly if no session is in SendMessage. *)
Theorem C128_nobody_waits : forall v cs acts s es, vrun (started v cs) acts = Some (s, es) ->
  (forall i, session s i <> Idle -> exists a, of_session i a /\ vstep s a <> None)
  /\ (forall c, client s c = Subscribed -> vstep s (ReadVolume c) <> None)
  /\ (forall c w, client s c = Read w -> vstep s (Send c true) <> None)
  /\ (forall c, In c cs -> client s c = Fresh -> (vstep s (Subscribe c) <> None <-> forall i, ~ sending s i)).
Proof.
  intros v cs acts s es R. split; [|split; [|split]].
  - intros i N. unfold of_session. destruct (session s i) as [| |w|w [|c l] ok|ok] eqn:E; [congruence| | | | |].
    + exists (Build i). split; [auto|]. cbn [vstep]. now rewrite E.
    + exists (Begin i). split; [auto|]. cbn [vstep]. now rewrite E.
    + exists (End_ i). split; [auto|]. cbn [vstep]. now rewrite E.
    + exists (Write i c true). split; [right; right; left; eauto|]. cbn [vstep existsb]. rewrite E. cbn [existsb]. now rewrite Nat.eqb_refl.
    + exists (Reply i). split; [auto|]. cbn [vstep]. now rewrite E.
  - intros c E. cbn [vstep]. now rewrite E.
  - intros c w E. cbn [vstep]. now rewrite E.
  - intros c Ic E. cbn [vstep]. rewrite E.
    assert (Cc : existsb (Nat.eqb c) (clients s) = true) by (apply existsb_in; rewrite (same_clients _ _ _ _ _ R); exact Ic).
    rewrite Cc, andb_true_r. destruct (counts_run _ _ _ _ _ R) as (l & Nd & L & I). split.
    + intros H i S. apply I in S. destruct (Nat.eqb_spec (readers s) 0) as [Z|]; [|congruence]. rewrite Z in L. destruct l; [exact S|discriminate L].
    + intro H. destruct l as [|i l]; [cbn in L; rewrite <- L; discriminate|]. exfalso. apply (H i), I. now left.
Qed.

(** Two clients subscribe, the volume is set twice, one after the other. *)
Definition calm : list vact :=
  [Subscribe 1; ReadVolume 1; Subscribe 2; Send 1 true; ReadVolume 2; Send 2 true;
   Type_ 7 (Some 5%N); Build 7; Begin 7; Write 7 2 true; Write 7 1 true; End_ 7; Reply 7;
   Type_ 8 (Some 6%N); Build 8; Begin 8; Write 8 1 true; Write 8 2 true; End_ 8; Reply 8].
Example C128_nonvacuous : exists s es, vrun (started 9%N [1; 2; 3]) calm = Some (s, es)
  /\ volume s = 6%N /\ replies es = [5%N; 6%N] /\ last_sent 1 es = Some 6%N /\ last_sent 2 es = Some 6%N /\ last_sent 3 es = None
  /\ accepted calm /\ (forall c, reached c calm) /\ client s 1 = Done /\ client s 2 = Done.
Proof.
  do 2 eexists. split; [vm_compute; reflexivity|]. repeat (split; [vm_compute; reflexivity|]).
  split; [intros i I; cbn in I; intuition discriminate|].
  split; [intros c i; split; intro I; cbn in I; intuition discriminate|]. split; reflexivity.
Qed.

Example C128_calm_undisturbed : undisturbed (started 9%N [1; 2; 3]) calm.
Proof.
  unfold calm. intros b a x s' es' E R.
  do 20 (destruct b as [|y b]; [cbn in E; injection E as <- <-; vm_compute in R; injection R as <- <-; cbn [no_command no_subscription session client at_command];
    try exact I; try (split; [intros [|[|[|[|[|[|[|[|[|k]]]]]]]]]; reflexivity|intros [|[|[|c]]]; cbn; auto]);
    try (intros [|[|[|[|[|[|[|[|[|k]]]]]]]]]; reflexivity)
  | cbn [app] in E; try discriminate E; injection E as <- E]).
  destruct b; discriminate E.
Qed.

Print Assumptions C128_one_after_another_partial.
Print Assumptions C128_only_typed_partial.
Print Assumptions C128_two_volumes_refuted.
Print Assumptions C128_late_client_refuted.
Print Assumptions C128_typo_silences_refuted.
Print Assumptions C128_nobody_waits.
