(** C130: the stream is the songs of the playlist, one after the other. *)
From Coq Require Import Lia.
From Verif Require Import GoBase GoBaseFacts PlaylistModel PlaylistSpec PlaylistProofs PlaylistLoopProofs PlaylistProps ChanModel ChanSpec QueueModel PlayerModel PlayerSpec
  ScheduleModel WireModel WireSpec WireProps E2EModel E2ESpec E2EProps ProgrammeSpec ProgrammeProofs.
Local Open Scope Z_scope.

(** Whatever is done to the playlist: apart from NaN samples, which no player makes sound, the stream
    consists of the songs announced, in the order of their announcements, each from its first sample on
    without a gap, and nothing else. *)
Theorem C130_songs_only : forall decode nan_break l acts s es,
  prun decode nan_break (new_playlist l) acts = Some (s, es) ->
  exists parts, Forall2 (beginning decode) (announced es) parts /\ audible (stream_of es) = audible (concat parts).
Proof.
  intros decode nb l acts s es R. destruct (prog_run decode nb false l acts s es) as (_ & _ & fs & ps & cur & part & Nm & Au & F & At); [|exact R|].
  - apply Forall_forall. intros a _ Q. discriminate Q.
  - assert (C : (cur = [] /\ part = []) \/ exists f, cur = [f] /\ beginning decode f part).
    { destruct (at_pc s); cbn [now_at] in At; try (left; exact At); try exact At; try (right; exact (now_beginning decode _ _ _ At)).
      right; exact (now_beginning decode _ _ _ (proj1 At)). }
    rewrite Nm, Au. destruct C as [[-> ->]|(f & -> & B)].
    + exists ps. rewrite !app_nil_r. split; [exact F|reflexivity].
    + exists (ps ++ [part]). rewrite concat_app. cbn. rewrite app_nil_r. split; [|reflexivity].
      apply Forall2_app; [exact F|]. constructor; [exact B|constructor].
Qed.
Print Assumptions C130_songs_only.

(** As long as nobody jumps, pausing and editing as they like, every song announced except the last one
    was streamed whole, and the last one is whole too once the loop is back at its head. *)
Theorem C130_whole_songs : forall decode nan_break l acts s es,
  Forall (fun a => is_jump a = false) acts ->
  prun decode nan_break (new_playlist l) acts = Some (s, es) ->
  exists fs ps cur p, announced es = fs ++ cur /\ Forall2 (whole decode) fs ps /\
    ((cur = [] /\ p = []) \/ exists f, cur = [f] /\ beginning decode f p) /\
    audible (stream_of es) = audible (concat ps ++ p) /\
    (at_pc s = AtTop -> cur = []).
Proof.
  intros decode nb l acts s es A R. destruct (prog_run decode nb true l acts s es) as (_ & _ & fs & ps & cur & part & Nm & Au & F & At); [|exact R|].
  - eapply Forall_impl; [|exact A]. intros a Q _. exact Q.
  - exists fs, ps, cur, part. split; [exact Nm|]. split; [exact F|]. split; [|split; [exact Au|intro E; rewrite E in At; apply At]].
    destruct (at_pc s); cbn [now_at] in At; try (left; exact At); try exact At; try (right; exact (now_beginning decode _ _ _ At)).
    right; exact (now_beginning decode _ _ _ (proj1 At)).
Qed.
Print Assumptions C130_whole_songs.

(** If moreover nobody edits a non-empty playlist of named songs: at every moment, and however it was
    paused, the stream so far is the beginning of the programme: the songs of the playlist from the first
    one on, each once and whole, then the first again. *)
Theorem C130_programme : forall decode nan_break l acts s es, l <> [] -> ~ In [] l ->
  Forall (fun a => is_jump a = false /\ is_edit a = false) acts ->
  prun decode nan_break (new_playlist l) acts = Some (s, es) ->
  exists k, is_prefix (audible (stream_of es)) (audible (programme decode l k)).
Proof.
  intros decode nb l acts s es Ne Ni A R.
  destruct (C130_whole_songs decode nb l acts s es) as (fs & ps & cur & p & Nm & F & Cur & Au & _); [eapply Forall_impl; [|exact A]; intros a Q; apply Q|exact R|].
  destruct (C04_cyclic_order decode nb l 0 (new_playlist l) acts s es Ne Ni eq_refl eq_refl ltac:(lia) eq_refl eq_refl eq_refl A R) as ((k & K) & _ & _).
  change (map (fun x => snd (fst x)) (new_songs_of es)) with (announced es) in K. rewrite Nm in K. exists k. rewrite Au.
  destruct Cur as [[-> ->]|(f & -> & B)].
  - rewrite !app_nil_r in *. rewrite (names_programme decode l k fs ps F K). exists []. now rewrite app_nil_r.
  - destruct (programme_prefix decode l fs f ps p k F K B) as (rest & ->). exists (audible rest).
    now rewrite app_assoc, (audible_app _ rest).
Qed.
Print Assumptions C130_programme.

(** And the loop gets through all of it: for every k it can, left alone while playing, have streamed
    exactly k places of the programme. *)
Theorem C130_goes_on : forall decode nan_break l k, l <> [] -> ~ In [] l ->
  exists acts s es, Forall (fun a => is_loop_action a = true) acts /\
    prun decode nan_break (new_playlist l) (ASetPlaying true :: acts) = Some (s, es) /\
    audible (stream_of es) = audible (programme decode l k).
Proof.
  intros decode nb l k Ne Ni. destruct (programme_run decode nb l k Ne Ni) as (acts & s & es & L & R & _ & _ & _ & _ & _ & _ & St).
  exists acts, s, es. auto.
Qed.
Print Assumptions C130_goes_on.

(** To the sound card: what a player that gets the chunks in order plays is, silence apart, the
    programme with some samples left out: never another song, another order or a repetition. *)
Theorem C130_heard_in_order : forall decode nan_break songs acts ps es c cacts cs start size sr
    w msgs frames pieces pacts p b calls out q' b' j,
  0 < sr -> 0 < size -> zlib_inverse w -> foreign w [] = None -> songs <> [] -> ~ In [] songs ->
  Forall (fun a => is_jump a = false /\ is_edit a = false) acts ->
  prun decode nan_break (new_playlist songs) acts = Some (ps, es) ->
  crun (init_chan c) cacts = Some cs -> is_prefix (hist cs) (stream_of es) -> Forall (fills_chunks size) cacts ->
  Forall (sendable w) msgs -> Forall2 (frame_of w) msgs frames -> is_prefix (concat pieces) (concat frames) ->
  is_prefix (chunk_messages msgs)
    (skipn j (map (fun t => queue_message (fst t)) (stream_music start size sr 0 (returned cs)))) ->
  is_prefix (handled pacts) (chunks_received (fst (handle_connection w pieces))) ->
  pl_run sr init_pl pacts = Some p -> play sr b calls (fed p) = Some (out, q', b') ->
  exists k, subsequence (sounding out) (audible (programme decode songs k)).
Proof.
  intros decode nb songs acts ps es c cacts cs start size sr w msgs frames pieces pacts p b calls out q' b' j
    Hs Hz Hw Hfo Ne Ni Q Hrun Hcr Hh Hfc Hsm Hfr Hpc Hms Hq Hpl Hplay.
  destruct (C88_in_order_gapless decode nb songs acts ps es c cacts cs start size sr w msgs frames pieces pacts p b calls out q' b' j
    Hs Hz Hw Hfo Hrun Hcr Hh Hfc Hsm Hfr Hpc Hms Hq Hpl Hplay) as (pos & Pl & Inc & _).
  destruct (C130_programme decode nb songs acts ps es Ne Ni Q Hrun) as (k & rest & K). exists k. rewrite K. apply sub_prefix.
  destruct (heard_sub _ _ _ _ _ _ _ Pl Inc) as [S1 S2]. apply sub_leaves in S1.
  rewrite <- (audible_id _ S2). apply sub_filter. exact S1.
Qed.
Print Assumptions C130_heard_in_order.

(** Whatever is done: only songs are announced that were in the playlist at the start or have been put in. *)
Theorem C130_only_queued : forall decode nan_break l acts s es f,
  prun decode nan_break (new_playlist l) acts = Some (s, es) -> In f (announced es) -> In f l \/ Exists (puts_in f) acts.
Proof.
  intros decode nb l acts s es f R I. destruct (announced_from decode nb acts (new_playlist l) s es f) as [A|[A|A]]; auto; discriminate.
Qed.
Print Assumptions C130_only_queued.

(** A song that is not in the playlist any more and that the loop is not just opening is not announced
    again, whatever else is done, until somebody puts it in again. *)
Theorem C130_removed_not_played : forall decode nan_break l acts1 s1 es1 acts2 s2 es2 f,
  prun decode nan_break (new_playlist l) acts1 = Some (s1, es1) -> ~ In f (songs s1) -> at_pc s1 <> Opening f ->
  Forall (fun a => ~ puts_in f a) acts2 -> prun decode nan_break s1 acts2 = Some (s2, es2) -> ~ In f (announced es2).
Proof.
  intros decode nb l acts1 s1 es1 acts2 s2 es2 f R1 Nf Np A R2 I.
  destruct (prog_run decode nb false l acts1 s1 es1) as (Op & _); [apply Forall_forall; intros a _ Q; discriminate Q|exact R1|].
  destruct (announced_from decode nb acts2 s1 s2 es2 f Op R2 I) as [B|[B|B]]; [congruence|contradiction|].
  apply Exists_exists in B as (a & Ia & B). rewrite Forall_forall in A. exact (A a Ia B).
Qed.
Print Assumptions C130_removed_not_played.

(** The cases are met: three songs of which one cannot be played, a pause in the first one. *)
Example C130_nonvacuous : exists s' es,
  prun ex_decode 3 (new_playlist [sa; sx; sb])
    ([ASetPlaying false; PNext; POpen; PCmp; PTogStore; PTogCall; PBlock; PCheck; ASetPlaying true; PCmp; PTogStore; PTogCall; PBlock; PCheck;
      PNext; POpen; PNext; POpen; PCmp; PBlock; PCheck; PNext]) = Some (s', es) /\
  announced es = [sa; sb] /\ audible (stream_of es) = audible (programme ex_decode [sa; sx; sb] 3) /\
  audible (stream_of es) <> [].
Proof. eexists. eexists. split; [vm_compute; reflexivity|]. split; [vm_compute; reflexivity|]. split; [vm_compute; reflexivity|vm_compute; discriminate]. Qed.
Example C130_nonvacuous_jump : exists s' es,
  prun ex_decode 3 (new_playlist [sa; sb])
    ([ASetPlaying true; PNext; POpen; PCmp; ASetPosWrite 1; ASetPosSend; PBlock; PCheck; PNext; POpen; PCmp; PBlock]) = Some (s', es) /\
  announced es = [sa; sb].
Proof. eexists. eexists. split; vm_compute; reflexivity. Qed.

(** The complete run of E2EProps.C88_nonvacuous meets the hypotheses of C130_heard_in_order; what it plays
    is part of two rounds of the programme. *)
Example C130_nonvacuous_heard : exists ps es cs p out q' b',
  [sb] <> [] /\ ~ In [] [sb] /\ Forall (fun a => is_jump a = false /\ is_edit a = false) x_loop /\
  prun x_decode 1 (new_playlist [sb]) x_loop = Some (ps, es) /\
  crun (init_chan 2) x_chunks = Some cs /\ is_prefix (hist cs) (stream_of es) /\ Forall (fills_chunks 2) x_chunks /\
  Forall (sendable toy_env) x_msgs /\ Forall2 (frame_of toy_env) x_msgs x_frames /\ concat x_pieces = concat x_frames /\
  chunk_messages x_msgs = x_sent /\
  x_sent = map (fun t => queue_message (fst t)) (stream_music 5000000 2 1000 0 (returned cs)) /\
  handled x_player = chunks_received (fst (handle_connection toy_env x_pieces)) /\
  pl_run 1000 init_pl x_player = Some p /\
  play 1000 true [(0, 1%nat); (8000000, 1%nat); (9000000, 1%nat); (10000000, 1%nat); (11000000, 1%nat); (12000000, 1%nat)] (fed p) = Some (out, q', b') /\
  sounding out = [(7%N, 8%N); (3%N, 4%N); (5%N, 6%N)] /\
  programme x_decode [sb] 2 = [(1%N, 2%N); (3%N, 4%N); (5%N, 6%N); (7%N, 8%N); (1%N, 2%N); (3%N, 4%N); (5%N, 6%N); (7%N, 8%N)].
Proof.
  destruct C88_nonvacuous as (ps & es & cs & p & out & q' & b' & H1 & H2 & H3 & H4 & H5 & H6 & H7 & H8 & H9 & H10 & H11 & H12 & H13 & _).
  exists ps, es, cs, p, out, q', b'.
  split; [discriminate|]. split; [intros [Q|[]]; discriminate Q|]. split; [repeat constructor|].
  split; [exact H1|]. split; [exact H2|]. split; [exact H3|]. split; [exact H4|]. split; [exact H5|]. split; [exact H6|]. split; [exact H7|].
  split; [exact H8|]. split; [exact H9|]. split; [exact H10|]. split; [exact H11|]. split; [exact H12|].
  split; [rewrite H13; reflexivity|reflexivity].
Qed.

(** Song b is removed while a plays; it is not announced in the rounds that follow, c is. *)
Example C130_nonvacuous_removed : exists s1 es1 s2 es2,
  prun ex_decode 3 (new_playlist [sa; sb; sc]) [ASetPlaying true; PNext; POpen; PCmp; AEdit (ERemove 1)] = Some (s1, es1) /\
  ~ In sb (songs s1) /\ at_pc s1 <> Opening sb /\
  Forall (fun a => ~ puts_in sb a) [PBlock; PCheck; PNext; POpen; PCmp; PBlock; PCheck; PNext; POpen] /\
  prun ex_decode 3 s1 [PBlock; PCheck; PNext; POpen; PCmp; PBlock; PCheck; PNext; POpen] = Some (s2, es2) /\ announced es2 = [sc; sa].
Proof.
  do 4 eexists. split; [vm_compute; reflexivity|]. split; [vm_compute; intuition discriminate|]. split; [discriminate|].
  split; [repeat constructor; intros [Q|[i Q]]; discriminate Q|]. split; [vm_compute; reflexivity|reflexivity].
Qed.
