(** C124: StreamLoop runs until its context is cancelled, and then ends. *)
From Verif Require Import GoBase PlaylistModel CancelModel CancelSpec CancelProofs.
Local Open Scope nat_scope.

(** Until it is cancelled it does not return: it is the loop of C04-C12 with no other
    behaviour (first part: every run is one of that loop; second: every run of that loop is one
    of it without cancelling). *)
Theorem C124_runs_until_cancelled : forall decode nan_break l,
  (forall acts s es, crun decode nan_break (called l) acts = Some (s, es) ->
     prun decode nan_break (new_playlist l) (without_context acts) = Some (inner s, es)
     /\ (returned s = true -> In CCancel acts))
  /\ (forall acts p es, prun decode nan_break (new_playlist l) acts = Some (p, es) ->
     exists cacts s, crun decode nan_break (called l) cacts = Some (s, es) /\ inner s = p
       /\ without_context cacts = acts /\ ~ In CCancel cacts).
Proof.
  intros decode nan_break l. split.
  - intros acts s es H. split; [exact (crun_prun _ _ _ _ _ _ H)|]. intro R.
    destruct (in_dec (fun a b : caction => ltac:(repeat decide equality) : {a = b} + {a <> b}) CCancel acts) as [I|N]; [exact I|].
    destruct (crun_not_cancelled _ _ _ _ _ _ H N eq_refl eq_refl) as [_ X]. congruence.
  - intros acts p es H. destruct (prun_crun decode nan_break acts (called l) p es) as (cacts & s & A & B & C & D & _).
    + split; reflexivity.
    + exact H.
    + exists cacts, s. auto.
Qed.

(** After it is cancelled at most one more song is started, and none if a song is being streamed
    at that moment. *)
Theorem C124_at_most_one_more_song : forall decode nan_break l acts1 s1 es1 acts2 s2 es2,
  crun decode nan_break (called l) acts1 = Some (s1, es1) -> cancelled s1 = true ->
  crun decode nan_break s1 acts2 = Some (s2, es2) ->
  announced es2 <= 1 /\ (mid_song s1 = true -> announced es2 = 0).
Proof.
  intros decode nan_break l acts1 s1 es1 acts2 s2 es2 H1 C H2.
  assert (W : wf s1). { apply (crun_wf _ _ _ _ _ _) with (2 := H1). intro X. discriminate X. }
  pose proof (crun_songs _ _ _ _ _ _ W C H2) as L. unfold songs_left in L at 2. unfold mid_song.
  destruct (returned s1); [split; lia|]. destruct (at_pc (inner s1)); try destruct (tested s1); split; try lia; discriminate.
Qed.

(** While nobody pauses it returns within as many steps as the song being streamed (or the one
    started last) takes; there is always a next step until it has returned (or the process has
    crashed: C02, C05).  Missing: it does not return while playback is paused (below), and a step
    that pushes samples waits until somebody calls Fill. *)
Theorem C124_returns_soon_partial : forall decode nan_break longest l acts1 s1 es1 acts2 s2 es2,
  (forall f x, decode f = Some x -> length x <= longest) ->
  crun decode nan_break (called l) acts1 = Some (s1, es1) -> cancelled s1 = true -> playing (inner s1) = true ->
  crun decode nan_break s1 acts2 = Some (s2, es2) -> not_paused acts2 ->
  own_steps acts2 <= 5 * (longest / 512) + 8
  /\ (returned s2 = false -> at_pc (inner s2) <> Crashed -> exists a, own_step a = true /\ cstep decode nan_break s2 a <> None).
Proof.
  intros decode nan_break longest l acts1 s1 es1 acts2 s2 es2 Hl H1 C Pl H2 Np.
  assert (W : wf s1). { apply (crun_wf _ _ _ _ _ _) with (2 := H1). intro X. discriminate X. }
  assert (Ro : rest_ok longest (at_pc (inner s1))) by (apply (crun_rest decode nan_break longest Hl acts1 (called l) s1 es1 I H1)).
  split; [|apply own_step_possible].
  pose proof (crun_to_go decode nan_break longest Hl acts2 s1 s2 es2 W C Pl Ro Np H2) as L.
  pose proof (to_go_bound decode longest Hl s1 Ro) as B. unfold blocks_max in B. change streamer_buffer_size with 512 in B.
  revert B. generalize (longest / 512). intros n B. lia.
Qed.

(** Refuted: cancelled while a song is paused it never returns, as long as nobody resumes or
    jumps; it goes on pushing silence for ever. *)
Theorem C124_paused_refuted : forall decode nan_break s acts s' es,
  mid_song s = true -> returned s = false -> playing (inner s) = false ->
  tokens (inner s) = 0 -> pending_jumps (inner s) = 0 ->
  Forall (fun a => left_paused a = true) acts ->
  crun decode nan_break s acts = Some (s', es) -> returned s' = false.
Proof.
  intros decode nan_break s acts s' es M R Pl Tk Pj F H. apply (crun_stuck decode nan_break acts s s' es) with (3 := H); [|exact F].
  unfold stuck_paused. repeat split; try assumption. unfold mid_song in M. destruct (at_pc (inner s)); try discriminate M; exact I.
Qed.

(** *** Non-vacuity *)
Definition ex_decode (f : song) : option (list sample) := Some [(1%N, 2%N); (3%N, 4%N)].
Definition ex_start : list caction := map CAct [ASetPlaying true] ++ [CTest] ++ map CAct [PNext; POpen; PCmp].
(** Cancelled in the middle of a song, it streams the rest and returns. *)
Example C124_nonvacuous : exists s es,
  crun ex_decode 1 (called [T "a"]) (ex_start ++ [CCancel] ++ map CAct [PBlock; PCheck] ++ [CTest]) = Some (s, es)
  /\ returned s = true /\ announced es = 1.
Proof. eexists. eexists. split; [vm_compute; reflexivity|]. split; reflexivity. Qed.
(** Paused, it does not. *)
Example C124_nonvacuous_paused : exists s es,
  crun ex_decode 1 (called [T "a"]) (ex_start ++ map CAct [ASetPlaying false; PBlock; PCheck; PCmp; PTogStore; PTogCall] ++ [CCancel]) = Some (s, es)
  /\ mid_song s = true /\ returned s = false /\ playing (inner s) = false /\ tokens (inner s) = 0 /\ pending_jumps (inner s) = 0
  /\ cancelled s = true.
Proof. eexists. eexists. split; [vm_compute; reflexivity|]. repeat split. Qed.

Print Assumptions C124_runs_until_cancelled.
Print Assumptions C124_at_most_one_more_song.
Print Assumptions C124_returns_soon_partial.
Print Assumptions C124_paused_refuted.
