(** C89-C97: configuration, start-up, the music port, errors. *)
From Verif Require Import GoBase GoBaseFacts GoFmt PlaylistModel PlayerModel PlayerSpec ScheduleModel ScheduleProofs
  WireModel SenderModel InfoerModel ServerModel LifeModel LifeSpec.
From Coq Require Import Permutation ZifyBool ZifyNat.
Local Open Scope Z_scope.

(* ================= C89 ================= *)
(** Whatever clients send, in whatever order it is handled: the playlist, the volume, the
    newest song and the pauses stay as they are, nobody is disconnected, a client's
    subscriptions become what it asked for itself, and it receives exactly the answers to
    its own messages. *)
Theorem C89_no_control : forall ready s l s', server_handles ready s l = Ok s' ->
  sv_playlist s' = sv_playlist s /\ sv_state s' = sv_state s /\
  connections (sv_mms s') = connections (sv_mms s) /\
  forall c,
    sv_out s' c = sv_out s c ++ flat_map (answer (sv_state s)) (from_client c l) /\
    channel_list (sv_mms s') c = channel_list (sv_mms s) c ++ subscriptions (from_client c l).
Proof.
  intros ready s l; revert s. induction l as [|[[[c0 m] recv] send] l IH]; intros s s' H; cbn [server_handles] in H.
  - injection H as <-. repeat split; cbn; rewrite app_nil_r; reflexivity.
  - destruct (server_handle ready s c0 m recv send) as [s1|] eqn:E; [|discriminate].
    destruct (IH _ _ H) as (H1 & H2 & H3 & H4).
    assert (K : sv_playlist s1 = sv_playlist s /\ sv_state s1 = sv_state s /\ connections (sv_mms s1) = connections (sv_mms s) /\
      forall c, sv_out s1 c = sv_out s c ++ (if Nat.eqb c0 c then answer (sv_state s) (c0, m, recv, send) else []) /\
        channel_list (sv_mms s1) c = channel_list (sv_mms s) c ++ (if Nat.eqb c0 c then subscriptions [(c0, m, recv, send)] else [])).
    { clear - E. unfold server_handle in E.
      assert (W : forall s2 c ms, write_to s c0 ms = s2 -> sv_out s2 c = sv_out s c ++ (if Nat.eqb c0 c then ms else [])).
      { intros s2 c ms <-. cbn. destruct (Nat.eqb c c0) eqn:D; [apply Nat.eqb_eq in D; subst; rewrite Nat.eqb_refl; reflexivity|].
        rewrite Nat.eqb_sym, D, app_nil_r. reflexivity. }
      destruct m; try (injection E as <-; repeat split; cbn; destruct (Nat.eqb c0 c); rewrite ?app_nil_r; reflexivity).
      - injection E as <-. repeat split; [apply W; reflexivity|cbn; destruct (Nat.eqb c0 c); rewrite ?app_nil_r; reflexivity].
      - injection E as <-. repeat split; [apply W; reflexivity|cbn; destruct (Nat.eqb c0 c); rewrite ?app_nil_r; reflexivity].
      - destruct ready; [|discriminate]. injection E as <-. repeat split.
        + cbn. destruct (Nat.eqb c c0) eqn:D; [apply Nat.eqb_eq in D; subst; rewrite Nat.eqb_refl; reflexivity|].
          rewrite Nat.eqb_sym, D, app_nil_r. reflexivity.
        + unfold channel_list. cbn. destruct (Nat.eqb c c0) eqn:D.
          * apply Nat.eqb_eq in D; subst. rewrite Nat.eqb_refl. destruct (channels (sv_mms s) c0); reflexivity.
          * rewrite Nat.eqb_sym, D, app_nil_r. reflexivity. }
    destruct K as (K1 & K2 & K3 & K4). repeat split; try congruence.
    + destruct (H4 c) as [-> _]. destruct (K4 c) as [-> _]. rewrite K2. unfold from_client. cbn [filter].
      change (sender_of (c0, m, recv, send)) with c0. destruct (Nat.eqb c0 c); cbn [flat_map]; rewrite <- ?app_assoc, ?app_nil_r; reflexivity.
    + destruct (H4 c) as [_ ->]. destruct (K4 c) as [_ ->]. unfold from_client. cbn [filter].
      change (sender_of (c0, m, recv, send)) with c0. destruct (Nat.eqb c0 c); cbn [subscriptions flat_map]; rewrite <- ?app_assoc, ?app_nil_r; reflexivity.
Qed.
Print Assumptions C89_no_control.

(** A running server handles every message. *)
Theorem C89_every_message_handled : forall s l, exists s', server_handles true s l = Ok s'.
Proof.
  intros s l; revert s. induction l as [|[[[c m] recv] send] l IH]; intros s; [eexists; reflexivity|].
  cbn [server_handles]. destruct m; cbn [server_handle]; apply IH.
Qed.
Print Assumptions C89_every_message_handled.

Definition x_srv : srv :=
  {| sv_playlist := new_playlist [T "a"]; sv_state := {| s_volume := float_tenth; s_newest := None; s_pauses := [{| t_playing := false; t_index := 7 |}] |};
     sv_mms := {| connections := [1%nat; 2%nat]; channels := fun _ => None |}; sv_out := fun _ => [] |}.
Example C89_nonvacuous : exists s',
  server_handles true x_srv [(1%nat, SubscribeChannelRequest 1, 0, 0); (2%nat, TimeSyncRequest 5, 100, 101); (2%nat, SetVolumeRequest 0, 0, 0);
    (2%nat, PauseInfo true 3, 0, 0); (1%nat, PingMessage, 0, 0)] = Ok s' /\
  sv_out s' 1%nat = [SetVolumeRequest float_tenth; PauseInfo false 7; PongMessage] /\ sv_out s' 2%nat = [TimeSyncResponse 5 100 101] /\
  s_volume (sv_state s') = float_tenth.
Proof. eexists. split; [reflexivity|]. repeat split. Qed.

(* ================= C90 ================= *)
(** Positive sizes that fit into memory: a chunk is sent each time the previous one has been
    played (less than a nanosecond early). *)
Theorem C90_streams_partial : forall f, let size := f_chunk_size f in let sr := f_sample_rate f in
  0 < size -> 0 < sr -> 8 * size <= max_alloc -> 8 * sr <= max_alloc -> size * 1000000000 < 2 ^ 63 -> sr <= size * 1000000000 ->
  exists p, server_fate_of f = StreamsEvery p /\ 0 < p /\ p * sr <= size * 1000000000 < (p + 1) * sr.
Proof.
  intros f size sr Hz Hs Mz Ms Ho Hp. unfold server_fate_of, chunk_time. fold size sr.
  replace (sr =? 0) with false by lia.
  rewrite (wrap64_id (size * 1000000000)) by (unfold in_int64; lia).
  rewrite Z.quot_div_nonneg by lia.
  assert (B : sr * (size * 1000000000 / sr) <= size * 1000000000 < sr * (size * 1000000000 / sr) + sr).
  { pose proof (Z.div_mod (size * 1000000000) sr ltac:(lia)). pose proof (Z.mod_pos_bound (size * 1000000000) sr Hs). lia. }
  set (p := size * 1000000000 / sr) in *. assert (1 <= p) by nia. assert (p <= size * 1000000000) by nia.
  rewrite wrap64_id by (unfold in_int64; lia).
  unfold can_make. replace (0 <=? sr) with true by lia. replace (0 <=? size) with true by lia.
  replace (sr * 8 <=? max_alloc) with true by lia. replace (size * 8 <=? max_alloc) with true by lia. cbn [andb negb].
  replace (p <=? 0) with false by lia. exists p. repeat split; lia.
Qed.
Print Assumptions C90_streams_partial.

(** Within the range in which the chunk duration does not overflow these are the only
    values that work. *)
Theorem C90_only_these : forall f p, let size := f_chunk_size f in let sr := f_sample_rate f in
  in_int64 sr -> - 2 ^ 63 <= size * 1000000000 < 2 ^ 63 ->
  server_fate_of f = StreamsEvery p ->
  0 < size /\ 0 < sr /\ 8 * size <= max_alloc /\ 8 * sr <= max_alloc /\ sr <= size * 1000000000 /\ p = size * 1000000000 / sr.
Proof.
  intros f p size sr Hsr Ho H. unfold server_fate_of, chunk_time in H. fold size sr in H.
  destruct (Z.eqb_spec sr 0) as [|N0]; [discriminate|].
  rewrite (wrap64_id (size * 1000000000)) in H by exact Ho.
  destruct (can_make sr 8) eqn:C1; cbn [negb] in H; [|discriminate].
  unfold can_make in C1. apply andb_prop in C1 as [P1 P2].
  assert (Hs : 0 < sr) by lia.
  assert (Q : in_int64 (Z.quot (size * 1000000000) sr)).
  { unfold in_int64. pose proof (Z.quot_rem' (size * 1000000000) sr) as E.
    assert (Z.abs (size * 1000000000 ÷ sr) <= Z.abs (size * 1000000000)).
    { rewrite <- Z.quot_abs by lia. rewrite (Z.abs_eq sr) by lia. apply Z.quot_le_upper_bound; nia. }
    destruct (Z.eq_dec (size * 1000000000) (- 2 ^ 63)) as [E1|E1]; [|lia]. exfalso.
    assert (M : (size * 1000000000) mod 1000000000 = 0) by (apply Z.mod_mul; lia). rewrite E1 in M. vm_compute in M. discriminate. }
  rewrite (wrap64_id _ Q) in H.
  destruct (Z.leb_spec (size * 1000000000 ÷ sr) 0) as [|L]; [discriminate|].
  destruct (can_make size 8) eqn:C2; cbn [negb] in H; [|discriminate].
  unfold can_make in C2. apply andb_prop in C2 as [P3 P4]. assert (E : p = size * 1000000000 ÷ sr) by congruence.
  assert (0 < size).
  { destruct (Z.eq_dec size 0) as [Z0|]; [|lia]. rewrite Z0 in L. change (0 * 1000000000) with 0 in L. rewrite Z.quot_0_l in L by lia. lia. }
  rewrite Z.quot_div_nonneg in E, L by lia.
  assert (sr <= size * 1000000000).
  { destruct (Z.lt_ge_cases (size * 1000000000) sr) as [B|B]; [|lia]. rewrite Z.div_small in L by lia. lia. }
  repeat split; try lia.
Qed.
Print Assumptions C90_only_these.

(** Refuted: with a chunk size of zero or below, or of less than a nanosecond, the server
    starts and takes clients and commands, but never sends anything. *)
Theorem C90_silent_refuted : forall f, let size := f_chunk_size f in let sr := f_sample_rate f in
  0 < sr -> 8 * sr <= max_alloc -> - 2 ^ 63 < size * 1000000000 < sr ->
  server_fate_of f = NeverStreams.
Proof.
  intros f size sr Hs Ms Ho. unfold server_fate_of, chunk_time. fold size sr. replace (sr =? 0) with false by lia.
  assert (sr < 2 ^ 63) by (unfold max_alloc in Ms; lia).
  rewrite (wrap64_id (size * 1000000000)) by (unfold in_int64; lia).
  assert (Q : - 2 ^ 63 <= size * 1000000000 ÷ sr <= 0).
  { destruct (Z.le_gt_cases 0 (size * 1000000000)) as [L|L].
    - rewrite Z.quot_div_nonneg by lia. rewrite Z.div_small by lia. lia.
    - split; [|apply Z.quot_le_upper_bound; lia].
      rewrite <- (Z.opp_involutive (size * 1000000000)), Z.quot_opp_l by lia.
      assert (- (size * 1000000000) ÷ sr <= - (size * 1000000000)) by (apply Z.quot_le_upper_bound; nia). lia. }
  rewrite wrap64_id by (unfold in_int64; lia).
  unfold can_make. replace (0 <=? sr) with true by lia. replace (sr * 8 <=? max_alloc) with true by lia. cbn [andb negb].
  replace (_ <=? 0) with true by lia. reflexivity.
Qed.
Print Assumptions C90_silent_refuted.

(** A sample rate of zero or below is answered by a panic. *)
Theorem C90_bad_rate_refuted : forall f, f_sample_rate f <= 0 -> server_fate_of f = CrashesAtStart.
Proof.
  intros f H. unfold server_fate_of, chunk_time. destruct (Z.eqb_spec (f_sample_rate f) 0); [reflexivity|].
  unfold can_make. replace (0 <=? f_sample_rate f) with false by lia. reflexivity.
Qed.
Print Assumptions C90_bad_rate_refuted.

Example C90_nonvacuous :
  server_fate_of {| f_chunk_size := 176400; f_sample_rate := 44100; f_nan_break := 44100 |} = StreamsEvery 4000000000 /\
  server_fate_of {| f_chunk_size := 0; f_sample_rate := 44100; f_nan_break := 44100 |} = NeverStreams /\
  server_fate_of {| f_chunk_size := 176400; f_sample_rate := 0; f_nan_break := 44100 |} = CrashesAtStart.
Proof. repeat split. Qed.

(* ================= C91 ================= *)
Lemma boot_run_late l : forall b s, handler_set b = true -> boot_run b s l <> Panic.
Proof.
  induction l as [|[|[[[c m] recv] send]] l IH]; intros b s Hb; cbn [boot_run]; [discriminate| |].
  - apply IH. destruct b; try discriminate; reflexivity.
  - rewrite Hb. destruct m; cbn [server_handle]; apply IH; exact Hb.
Qed.

(** Exactly: the server is killed by a client that subscribes before the second step of
    the start (reading the users file, setting the handler) is done. *)
Theorem C91_startup_crash_exact_partial : forall s l,
  boot_run Listening s l = Panic <->
  exists before c ch recv send after,
    l = before ++ BMessage (c, SubscribeChannelRequest ch, recv, send) :: after /\ (boot_steps before < 2)%nat.
Proof.
  assert (G : forall l b s k, (boot_steps [] <= k)%nat -> (b = Listening /\ k = 2%nat \/ b = UsersRead /\ k = 1%nat) ->
    (boot_run b s l = Panic <-> exists before c ch recv send after,
       l = before ++ BMessage (c, SubscribeChannelRequest ch, recv, send) :: after /\ (boot_steps before < k)%nat)).
  { induction l as [|e l IH]; intros b s k _ Hb.
    - cbn. split; [discriminate|]. intros (bf & c & ch & r & sd & af & E & _). destruct bf; discriminate.
    - destruct e as [|[[[c m] recv] send]].
      + cbn [boot_run]. destruct Hb as [[-> ->]|[-> ->]]; cbn [boot_next].
        * rewrite (IH UsersRead s 1%nat) by (cbn; auto; lia). split.
          -- intros (bf & c & ch & r & sd & af & -> & Hn). exists (BStep :: bf), c, ch, r, sd, af. split; [reflexivity|unfold boot_steps in *; cbn [filter length]; lia].
          -- intros (bf & c & ch & r & sd & af & E & Hn). destruct bf as [|e bf]; [discriminate|]. injection E as <- ->.
             exists bf, c, ch, r, sd, af. split; [reflexivity|]. unfold boot_steps in *. cbn [filter length] in Hn. lia.
        * split; [intros H; exfalso; eapply boot_run_late; [|exact H]; reflexivity|].
          intros (bf & c & ch & r & sd & af & E & Hn). destruct bf as [|e bf]; [discriminate|]. injection E as <- ->. unfold boot_steps in Hn. cbn [filter length] in Hn. lia.
      + assert (HS : handler_set b = false) by (destruct Hb as [[-> _]|[-> _]]; reflexivity).
        assert (Hk : (0 < k)%nat) by (destruct Hb as [[_ ->]|[_ ->]]; lia).
        cbn [boot_run]. rewrite HS.
        assert (NoSub : is_subscribe m = false -> exists s1, server_handle false s c m recv send = Ok s1).
        { destruct m; try discriminate; eexists; reflexivity. }
        destruct (is_subscribe m) eqn:Em.
        * destruct m; try discriminate. cbn [server_handle]. split; [|reflexivity].
          intros _. exists [], c, channel, recv, send, l. split; [reflexivity|cbn; lia].
        * destruct (NoSub eq_refl) as [s1 ->]. rewrite (IH b s1 k) by (cbn; auto; lia). split.
          -- intros (bf & c' & ch & r & sd & af & -> & Hn). exists (BMessage (c, m, recv, send) :: bf), c', ch, r, sd, af.
             split; [reflexivity|exact Hn].
          -- intros (bf & c' & ch & r & sd & af & E & Hn). destruct bf as [|e bf].
             ++ injection E as _ -> _ _ _. discriminate.
             ++ injection E as <- ->. exists bf, c', ch, r, sd, af. split; [reflexivity|exact Hn]. }
  intros s l. apply G; cbn; auto; lia.
Qed.
Print Assumptions C91_startup_crash_exact_partial.

(** The start goes through its steps one after the other, in this order, whatever clients send meanwhile. *)
Theorem C91_start_order : forall s l b s', boot_run Listening s l = Ok (b, s') -> b = started (boot_steps l).
Proof.
  assert (G : forall l n s b s', boot_run (started n) s l = Ok (b, s') -> b = started (n + boot_steps l)).
  { induction l as [|[|[[[c m] recv] send]] l IH]; intros n s b s' H; cbn [boot_run] in H.
    - injection H as <- _. unfold boot_steps. cbn. now rewrite Nat.add_0_r.
    - replace (boot_next (started n)) with (started (S n)) in H by (destruct n as [|[|[|[|n]]]]; reflexivity).
      apply IH in H. rewrite H. unfold boot_steps. cbn [filter length]. f_equal. lia.
    - destruct (server_handle _ s c m recv send) as [s1|]; [|discriminate H]. cbn [obind] in H. apply IH in H. exact H. }
  intros s l b s' H. exact (G l 0%nat s b s' H).
Qed.
Print Assumptions C91_start_order.

(** Refuted: an early player kills the server. *)
Theorem C91_early_subscriber_refuted : forall s c ch recv send, 
  boot_run Listening s [BMessage (c, PingMessage, recv, send); BStep; BMessage (c, SubscribeChannelRequest ch, recv, send); BStep] = Panic.
Proof.
  intros s c ch recv send. apply C91_startup_crash_exact_partial.
  exists [BMessage (c, PingMessage, recv, send); BStep], c, ch, recv, send, [BStep]. split; [reflexivity|cbn; lia].
Qed.
Print Assumptions C91_early_subscriber_refuted.

Example C91_nonvacuous : exists s', boot_run Listening x_srv
  [BMessage (1%nat, TimeSyncRequest 1, 2, 3); BStep; BStep; BMessage (1%nat, SubscribeChannelRequest 0, 2, 3); BStep; BStep] =
  Ok (CommandsRegistered, s') /\ sv_out s' 1%nat = [TimeSyncResponse 1 2 3; SetVolumeRequest float_tenth].
Proof. eexists. split; reflexivity. Qed.

(* ================= C92 ================= *)
(** Every connection is served as long as no Accept fails. *)
Theorem C92_served_partial : forall cs l, accepted (map Some cs ++ l) = cs ++ accepted l.
Proof. induction cs as [|c cs IH]; intros l; cbn [map app accepted]; [reflexivity|]. rewrite IH. reflexivity. Qed.
Print Assumptions C92_served_partial.

(** Refuted: one failed Accept, and no later client is ever served. *)
Theorem C92_one_error_refuted : forall cs l, accepted (map Some cs ++ None :: l) = cs.
Proof. intros cs l. rewrite C92_served_partial. cbn. apply app_nil_r. Qed.
Print Assumptions C92_one_error_refuted.

Example C92_nonvacuous : accepted [Some 1; Some 2; None; Some 3]%nat = [1; 2]%nat.
Proof. reflexivity. Qed.

(* ================= C93 ================= *)
Lemma client_over k l : forall p, match p with CRunning _ _ => False | _ => True end -> fold_left (client_step k) l p = p.
Proof. induction l as [|e l IH]; intros p Hp; [reflexivity|]. cbn [fold_left]. destruct p; [contradiction| |]; apply IH; exact I. Qed.

Lemma client_connected k l : forall sub,
  match fold_left (client_step k) l (CRunning true sub) with
  | CRunning snd sub' => snd = true /\ Forall (fun e => exit_status k e = None) l /\ (sub' = true <-> sub = true \/ In (ESubscribe true) l)
  | CEnded st => exists a e b, l = a ++ e :: b /\ Forall (fun e => exit_status k e = None) a /\ exit_status k e = Some st
  | CPanicked => False
  end.
Proof.
  induction l as [|e l IH]; intros sub; [cbn; repeat split; auto; intros [H|[]]; exact H|]. cbn [fold_left].
  destruct (exit_status k e) as [st|] eqn:E.
  - assert (F : client_step k (CRunning true sub) e = CEnded st).
    { destruct e as [[]|[]|[]| |], k; cbn in *; try discriminate; congruence. }
    rewrite F, client_over by exact I. exists [], e, l. repeat split; auto.
  - assert (F : exists sub', client_step k (CRunning true sub) e = CRunning true sub' /\ (sub' = true <-> sub = true \/ e = ESubscribe true)).
    { destruct e as [[]|[]|[]| |], k; cbn in *; try discriminate; eexists; split; try reflexivity;
        (split; [tauto|intros [H|H]; congruence || (discriminate H)]). }
    destruct F as (sub' & F & S). rewrite F. specialize (IH sub').
    destruct (fold_left (client_step k) l (CRunning true sub')) as [snd s2|st|]; [| |exact IH].
    + destruct IH as (I1 & I2 & I3). repeat split; auto.
      * intros H. apply I3 in H as [H|H]; [apply S in H as [H|H]; [auto|right; left; exact H]|right; right; exact H].
      * intros [H|[H|H]]; apply I3; [left; apply S; auto|left; apply S; auto|right; exact H].
    + destruct IH as (a & e' & b & -> & Ha & He). exists (e :: a), e', b. repeat split; auto.
Qed.

(** A client that reached the server runs, whatever becomes of its time synchronisation,
    until the first event that ends it, and then leaves with that event's status; a player
    that could not reach the server leaves with status 1. *)
Theorem C93_exit_partial : forall k l,
  match client_run k true l with
  | CRunning _ subscribed => Forall (fun e => exit_status k e = None) l /\ (subscribed = true <-> In (ESubscribe true) l)
  | CEnded st => exists a e b, l = a ++ e :: b /\ Forall (fun e => exit_status k e = None) a /\ exit_status k e = Some st
  | CPanicked => False
  end /\
  client_run PlayerClient false l = CEnded 1.
Proof.
  intros k l. split; [|apply client_over; exact I].
  pose proof (client_connected k l false) as H. unfold client_run, client_start.
  destruct (fold_left (client_step k) l (CRunning true false)); auto. destruct H as (_ & H1 & H2). split; [exact H1|].
  rewrite H2. split; [intros [H|H]; [discriminate|exact H]|auto].
Qed.
Print Assumptions C93_exit_partial.

(** Refuted: an info client that could not reach the server never reports it: unless the
    user quits first, the first thing it tries to send kills it. *)
Theorem C93_info_client_refuted : forall l,
  client_run InfoClient false l <> CEnded 1 /\
  ((exists ok, In (ESync ok) l \/ In (ESubscribe ok) l) -> ~ In EQuit l -> client_run InfoClient false l = CPanicked).
Proof.
  intros l. unfold client_run, client_start. induction l as [|e l [IH1 IH2]]; [split; [discriminate|intros (ok & [[]|[]])]|].
  cbn [fold_left]. destruct e as [ok|ok|ok| |].
  - cbn [client_step]. rewrite client_over by exact I. split; [discriminate|reflexivity].
  - cbn [client_step]. rewrite client_over by exact I. split; [discriminate|reflexivity].
  - cbn [client_step]. split; [exact IH1|]. intros (o & [[H|H]|[H|H]]) Hq; try discriminate; (apply IH2; [exists o; auto|firstorder]).
  - cbn [client_step]. split; [exact IH1|]. intros (o & [[H|H]|[H|H]]) Hq; try discriminate; (apply IH2; [exists o; auto|firstorder]).
  - cbn [client_step]. rewrite client_over by exact I. split; [congruence|]. intros _ Hq. exfalso. apply Hq. left. reflexivity.
Qed.
Print Assumptions C93_info_client_refuted.

Example C93_nonvacuous :
  client_run PlayerClient true [ESync true; ESubscribe true; ESync false; EInit true] = CRunning true true /\
  client_run PlayerClient true [ESync true; ESubscribe true; EClosed; EQuit] = CEnded 1 /\
  client_run InfoClient false [ESubscribe true] = CPanicked.
Proof. repeat split. Qed.

(* ================= C94 ================= *)
(** A synchronisation round sends the configured number of requests, one each delay. *)
Theorem C94_round_partial : forall v, 0 <= v_sync_cycles v ->
  zlen (sync_requests v) = v_sync_cycles v /\
  forall i t, nth_error (sync_requests v) i = Some t -> t = Z.of_nat i * v_sync_delay v.
Proof.
  intros v Hc. unfold sync_requests.
  assert (G : forall n d a, length (sync_round n d a) = n /\ forall i t, nth_error (sync_round n d a) i = Some t -> t = a + Z.of_nat i * d).
  { induction n as [|n IH]; intros d a; cbn [sync_round length]; [split; [reflexivity|intros [|i]; discriminate]|].
    destruct (IH d (a + d)) as [L N]. split; [rewrite L; reflexivity|]. intros [|i] t H; cbn [nth_error] in H.
    - injection H as <-. lia.
    - rewrite (N i t H). lia. }
  destruct (G (Z.to_nat (v_sync_cycles v)) (v_sync_delay v) 0) as [L N]. split; [unfold zlen; rewrite L; lia|].
  intros i t H. rewrite (N i t H). lia.
Qed.
Print Assumptions C94_round_partial.

(** Refuted: whatever is given to the server, and whatever a client accepts on its own
    command line, clients synchronise with 500 requests, 10 ms apart, every 10 minutes; the
    client programs reject the flags. *)
Theorem C94_no_effect_refuted : forall server_flags client_flags v sv,
  server_vars server_flags = Some sv -> client_vars client_flags = Some v ->
  v_sync_cycles v = 500 /\ v_sync_delay v = 10000000 /\ sync_rounds_apart v = 600000000000.
Proof.
  intros sf cf v sv _ H. unfold client_vars in H.
  destruct (g_sync_interval cf), (g_sync_cycles cf), (g_sync_delay cf); try discriminate. injection H as <-. repeat split.
Qed.
Print Assumptions C94_no_effect_refuted.

Example C94_nonvacuous : exists sv v,
  server_vars {| g_sync_interval := Some 1000; g_sync_cycles := Some 3; g_sync_delay := Some 5; g_sample_rate := Some 48000 |} = Some sv /\
  client_vars {| g_sync_interval := None; g_sync_cycles := None; g_sync_delay := None; g_sample_rate := Some 48000 |} = Some v /\
  sync_requests sv = [0; 5; 10] /\ zlen (sync_requests v) = 500.
Proof. eexists. eexists. repeat split. Qed.

(* ================= C95 ================= *)
Lemma fold_volume l : forall p, Forall (fun e => e <> InitVolume) l ->
  pv_volume (fold_left player_step l p) = last (volumes_got l) (pv_volume p).
Proof.
  induction l as [|e l IH]; intros p H; [reflexivity|]. inversion H as [|? ? He Hl]; subst. cbn [fold_left].
  rewrite (IH _ Hl). destruct e as [| |v|]; cbn [player_step volumes_got flat_map app]; try contradiction; try reflexivity.
  - assert (G : forall (r : list N) d d', last (d' :: r) d = last r d').
    { induction r as [|a r IHr]; intros d d'; [reflexivity|]. change (last (d' :: a :: r) d) with (last (a :: r) d).
      rewrite (IHr d a). symmetry. change (last (a :: r) d') with (match r with [] => a | _ => last r d' end).
      destruct r as [|b r]; [reflexivity|]. rewrite <- (IHr d' a). reflexivity. }
    symmetry. apply G.
  - destruct (pv_ready p); reflexivity.
Qed.

(** If the initialisation of the player runs before the first volume message is handled,
    the volume is the one set last (0.1 before any is set). *)
Theorem C95_volume_partial : forall a l, volumes_got a = [] -> Forall (fun e => e <> InitVolume) l ->
  pv_volume (run_player (a ++ InitVolume :: l)) = last (volumes_got l) float_tenth.
Proof.
  intros a l _ Hl. unfold run_player. rewrite fold_left_app. cbn [fold_left]. rewrite fold_volume by exact Hl. reflexivity.
Qed.
Print Assumptions C95_volume_partial.

(** Refuted: volume messages handled before Init sets its default are lost. *)
Theorem C95_overwritten_refuted : forall a l, Forall (fun e => e <> InitVolume) l -> volumes_got l = [] ->
  pv_volume (run_player (a ++ InitVolume :: l)) = float_tenth.
Proof.
  intros a l Hl Hv. unfold run_player. rewrite fold_left_app. cbn [fold_left]. rewrite fold_volume, Hv by exact Hl. reflexivity.
Qed.
Print Assumptions C95_overwritten_refuted.

(** Exactly the chunks received before the streamer exists are dropped. *)
Theorem C95_chunks : forall a l, Forall (fun e => e <> InitStreamer) a ->
  let p := run_player (a ++ InitStreamer :: l) in
  pv_dropped p = chunks_got a /\ pv_chunks p = chunks_got l.
Proof.
  intros a l Ha. unfold run_player. rewrite fold_left_app. cbn [fold_left].
  assert (A : forall a p, Forall (fun e => e <> InitStreamer) a -> pv_ready p = false ->
     pv_ready (fold_left player_step a p) = false /\ pv_dropped (fold_left player_step a p) = (pv_dropped p + chunks_got a)%nat /\
     pv_chunks (fold_left player_step a p) = pv_chunks p).
  { clear. induction a as [|e a IH]; intros p H Hp; [cbn; auto|]. inversion H as [|? ? He Hl]; subst. cbn [fold_left].
    destruct (IH (player_step p e) Hl) as (I1 & I2 & I3); [destruct e; cbn; try contradiction; try exact Hp; rewrite Hp; reflexivity|].
    rewrite I1, I2, I3. destruct e; cbn [player_step chunks_got filter length]; try rewrite Hp; cbn [pv_dropped pv_chunks]; auto; try contradiction.
    unfold chunks_got. cbn [filter length]. split; [reflexivity|]. split; [lia|reflexivity]. }
  destruct (A a player_start Ha eq_refl) as (A1 & A2 & A3).
  assert (B : forall l p, pv_ready p = true ->
     pv_dropped (fold_left player_step l p) = pv_dropped p /\ pv_chunks (fold_left player_step l p) = (pv_chunks p + chunks_got l)%nat).
  { clear. induction l as [|e l IH]; intros p Hp; [cbn; auto|]. cbn [fold_left].
    destruct (IH (player_step p e)) as (I1 & I2); [destruct e; cbn; auto; rewrite Hp; reflexivity|].
    rewrite I1, I2. unfold chunks_got. destruct e; cbn [player_step filter length]; try rewrite Hp; cbn [pv_dropped pv_chunks]; auto. split; [reflexivity|lia]. }
  match goal with |- context [fold_left player_step l ?p] => destruct (B l p eq_refl) as (B1 & B2) end.
  rewrite B1, B2. cbn [player_step pv_dropped pv_chunks]. rewrite A2, A3. auto.
Qed.
Print Assumptions C95_chunks.

Example C95_nonvacuous :
  pv_volume (run_player [GotChunk; InitVolume; GotVolume 7; InitStreamer; GotVolume 9; GotChunk]) = 9%N /\
  pv_volume (run_player [GotVolume 7; InitVolume; InitStreamer; GotChunk]) = float_tenth.
Proof. split; reflexivity. Qed.

(* ================= C96 ================= *)
(** What is streamed of a file does not depend on its sample rate... *)
Lemma rate_ignored : forall r r' l, get_streamer (Some (r, l)) = get_streamer (Some (r', l)).
Proof. reflexivity. Qed.


(** ... so sample k of a song that begins with a chunk is due k stream periods after the
    first one, as recorded if the file has the sample rate of the stream. *)
Theorem C96_same_rate_partial : forall start size sr r c k, 0 < sr -> 0 < size -> 0 <= c -> 0 <= k < size -> r = sr ->
  scheduled start size sr (c * size + k) - scheduled start size sr (c * size) = k * 1000000000 / r.
Proof.
  intros start size sr r c k Hs Hz Hc Hk ->. unfold scheduled.
  rewrite (Z.add_comm (c * size)), Z.div_add, Z.mod_add by lia. rewrite Z.div_small, Z.mod_small by lia.
  rewrite Z.div_mul, Z.mod_mul by lia. rewrite Z.mul_0_l, Z.div_0_l by lia. lia.
Qed.
Print Assumptions C96_same_rate_partial.

(** Over a whole song the deviation from the recorded time is that of the schedule: less
    than a nanosecond per chunk, one sample period at most in between (C24). *)
Theorem C96_same_rate_whole_partial : forall start size sr i m, 0 < sr -> 0 < size -> 0 <= i -> 0 <= m ->
  m * 1000000000 / sr - ((i + m) / size - i / size) - 1 <= scheduled start size sr (i + m) - scheduled start size sr i <= m * 1000000000 / sr + 1.
Proof.
  intros start size sr i m Hs Hz Hi Hm. pose proof (sched_err start size sr i m Hs Hz Hi Hm). lia.
Qed.
Print Assumptions C96_same_rate_whole_partial.

(** Refuted for every other rate: as soon as the recorded times differ by a nanosecond, so
    do the times at which the samples are played. *)
Theorem C96_other_rate_refuted : forall start size sr r c k, 0 < sr -> 0 < r -> 0 < size -> 0 <= c -> 0 <= k < size ->
  sr * r <= k * 1000000000 * Z.abs (r - sr) ->
  scheduled start size sr (c * size + k) - scheduled start size sr (c * size) <> k * 1000000000 / r.
Proof.
  intros start size sr r c k Hs Hr Hz Hc Hk Hd. rewrite (C96_same_rate_partial start size sr sr c k) by lia.
  intros E. set (x := k * 1000000000) in *.
  pose proof (Z.div_mod x sr ltac:(lia)) as E1. pose proof (Z.mod_pos_bound x sr Hs) as B1.
  pose proof (Z.div_mod x r ltac:(lia)) as E2. pose proof (Z.mod_pos_bound x r Hr) as B2.
  rewrite E in E1. set (q := x / r) in *.
  (* sr q <= x < sr q + sr, r q <= x < r q + r *)
  assert (x * r < (sr * q + sr) * r) by nia. assert (sr * q * r <= x * r) by nia.
  assert (x * sr < (r * q + r) * sr) by nia. assert (r * q * sr <= x * sr) by nia.
  destruct (Z.abs_spec (r - sr)) as [[_ Ha]|[_ Ha]]; rewrite Ha in Hd; nia.
Qed.
Print Assumptions C96_other_rate_refuted.

(** A song recorded with 48000 samples per second in a stream of 44100: after the 176399
    further samples of a chunk the player is 0.325 s late. *)
Example C96_nonvacuous :
  scheduled 0 176400 44100 176399 - scheduled 0 176400 44100 0 = 3999977324 /\ 176399 * 1000000000 / 48000 = 3674979166 /\
  44100 * 48000 <= 176399 * 1000000000 * Z.abs (48000 - 44100).
Proof. repeat split; vm_compute; congruence. Qed.

(* ================= C97 ================= *)
Lemma col_perm {E} tr (c : collector E) : col_run tr c -> Permutation (added tr) (pending c ++ collected c).
Proof.
  induction 1 as [|tr c e c' Hr IH Hs]; [constructor|]. unfold added in *. rewrite flat_map_app, IH.
  destruct Hs; cbn [flat_map pending collected]; rewrite ?app_nil_r.
  - cbn [app]. rewrite Permutation_app_comm. reflexivity.
  - rewrite <- !app_assoc. apply Permutation_app_head. cbn [app]. rewrite app_assoc. apply Permutation_cons_append.
Qed.

(** Err returns nil if and only if nothing was added; otherwise exactly the added errors,
    in the order in which the insertions happened to run. *)
Theorem C97_all_errors : forall E tr (c : collector E) r, col_run tr c -> col_err c = Some r ->
  match r with
  | None => added tr = []
  | Some l => Permutation l (added tr) /\ l <> []
  end.
Proof.
  intros E tr c r H Hr. pose proof (col_perm _ _ H) as P. unfold col_err in Hr.
  destruct (pending c); [|discriminate]. cbn [app] in P. injection Hr as <-.
  destruct (collected c) as [|x l]; [apply Permutation_nil; symmetry; exact P|].
  split; [symmetry; exact P|discriminate].
Qed.
Print Assumptions C97_all_errors.

(** Err does not wait for ever: as many insertions as are pending, in any order, and it
    returns. *)
Theorem C97_err_returns : forall E tr (c : collector E), col_run tr c ->
  exists more c', col_run (tr ++ map CInsert more) c' /\ length more = length (pending c) /\ col_err c' <> None.
Proof.
  intros E tr c H. remember (length (pending c)) as n eqn:Hn. revert tr c H Hn. induction n as [|n IH]; intros tr c H Hn.
  - exists [], c. cbn [map]. rewrite app_nil_r. repeat split; auto. unfold col_err. destruct (pending c); discriminate.
  - destruct c as [[|x p] l]; cbn [pending length] in Hn; [discriminate|].
    assert (S : col_step {| pending := x :: p; collected := l |} (CInsert x) {| pending := p; collected := l ++ [x] |}) by (apply (ColInsert [] x p l)).
    destruct (IH _ _ (ColStep _ _ _ _ H S)) as (more & c' & R & L & Q); [cbn; lia|].
    exists (x :: more), c'. cbn [map length]. rewrite <- app_assoc in R. cbn [app] in R. auto.
Qed.
Print Assumptions C97_err_returns.

(** The text of the error holds every collected error with its number, in order. *)
Theorem C97_text : forall base a e b, exists before after,
  multi_error base (a ++ e :: b) = base ++ T ": " ++ before ++ itoa (zlen a) ++ T ": " ++ e ++ after /\
  (a <> [] -> exists x, before = x ++ T "; ") /\ (b <> [] -> exists x, after = T "; " ++ itoa (zlen a + 1) ++ x) /\
  (a = [] -> before = []) /\ (b = [] -> after = []).
Proof.
  intros base a e b. unfold multi_error.
  assert (G : forall a i, exists before after,
     join (T "; ") (numbered i (a ++ e :: b)) = before ++ itoa (i + zlen a) ++ T ": " ++ e ++ after /\
     (a <> [] -> exists x, before = x ++ T "; ") /\ (b <> [] -> exists x, after = T "; " ++ itoa (i + zlen a + 1) ++ x) /\
     (a = [] -> before = []) /\ (b = [] -> after = [])).
  { induction a0 as [|x a0 IH]; intros i.
    - change (zlen (@nil text)) with 0. rewrite Z.add_0_r. cbn [app numbered]. destruct b as [|y b].
      + exists [], []. cbn [numbered join app]. rewrite app_nil_r. repeat split; try congruence; intros; contradiction.
      + exists [], (T "; " ++ join (T "; ") (numbered (i + 1) (y :: b))). repeat split; try congruence.
        * cbn [numbered]. set (t := numbered _ _). change (join (T "; ") ((itoa i ++ T ": " ++ e) :: (itoa (i + 1) ++ T ": " ++ y) :: t))
            with ((itoa i ++ T ": " ++ e) ++ T "; " ++ join (T "; ") ((itoa (i + 1) ++ T ": " ++ y) :: t)). rewrite <- !app_assoc. reflexivity.
        * intros _. cbn [numbered]. destruct (numbered (i + 1 + 1) b) as [|z t].
          -- exists (T ": " ++ y). reflexivity.
          -- exists (T ": " ++ y ++ T "; " ++ join (T "; ") (z :: t)).
             change (join (T "; ") ((itoa (i + 1) ++ T ": " ++ y) :: z :: t)) with ((itoa (i + 1) ++ T ": " ++ y) ++ T "; " ++ join (T "; ") (z :: t)).
             rewrite <- !app_assoc. reflexivity.
    - destruct (IH (i + 1)) as (bf & af & E & Ha & Hb & Ha0 & Hb0). cbn [app numbered].
      assert (NE : exists h t, numbered (i + 1) (a0 ++ e :: b) = h :: t) by (destruct a0; cbn; eauto).
      destruct NE as (h & t & NE). rewrite NE in *.
      change (join (T "; ") ((itoa i ++ T ": " ++ x) :: h :: t)) with ((itoa i ++ T ": " ++ x) ++ T "; " ++ join (T "; ") (h :: t)).
      rewrite E. exists ((itoa i ++ T ": " ++ x) ++ T "; " ++ bf), af.
      rewrite zlen_cons. replace (i + (zlen a0 + 1)) with (i + 1 + zlen a0) by lia.
      repeat split; try congruence; auto.
      + rewrite <- !app_assoc. reflexivity.
      + intros _. destruct a0 as [|a1 a0]; [rewrite Ha0 by reflexivity; rewrite app_nil_r; eexists; reflexivity|].
        destruct (Ha ltac:(discriminate)) as [z ->]. exists ((itoa i ++ T ": " ++ x) ++ T "; " ++ z). rewrite <- !app_assoc. reflexivity. }
  destruct (G a 0) as (bf & af & E & R). exists bf, af. rewrite E. split; [reflexivity|exact R].
Qed.
Print Assumptions C97_text.

(** Refuted: the text of a failed broadcast was meant to say how many clients were not
    reached; it always says "%d". *)
Theorem C97_broadcast_count_refuted : forall errs, exists rest,
  multi_error broadcast_base errs = T "failed to send to %d clients: : " ++ rest.
Proof. intros errs. eexists. unfold multi_error, broadcast_base. rewrite app_assoc. reflexivity. Qed.
Print Assumptions C97_broadcast_count_refuted.

Example C97_nonvacuous : exists c, col_run [CAdd (T "x"); CAdd (T "y"); CInsert (T "y"); CInsert (T "x")] c /\
  col_err c = Some (Some [T "y"; T "x"]) /\ multi_error (T "b") [T "y"; T "x"] = T "b: 0: y; 1: x".
Proof.
  eexists. split; [|split].
  - apply (ColStep [CAdd (T "x"); CAdd (T "y"); CInsert (T "y")] {| pending := [T "x"]; collected := [T "y"] |}).
    + apply (ColStep [CAdd (T "x"); CAdd (T "y")] {| pending := [T "y"; T "x"]; collected := [] |}).
      * apply (ColStep [CAdd (T "x")] {| pending := [T "x"]; collected := [] |}).
        -- apply (ColStep [] {| pending := []; collected := [] |}); constructor.
        -- constructor.
      * exact (ColInsert [] (T "y") [T "x"] []).
    + exact (ColInsert [] (T "x") [] [T "y"]).
  - reflexivity.
  - reflexivity.
Qed.
