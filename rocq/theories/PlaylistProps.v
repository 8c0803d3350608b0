(** Properties C01-C12 and C63: the playlist. *)
From Verif Require Import GoBase GoBaseFacts PlaylistModel PlaylistSpec PlaylistProofs PlaylistLoopProofs.
Local Open Scope Z_scope.

(** A small music library used by the examples and counterexamples: every file whose
    name starts with 'x' cannot be decoded, every other file holds [n] samples where [n]
    is the number of characters of its name. *)
Definition ex_decode (f : song) : option (list sample) :=
  match f with
  | 120%N :: _ => None
  | _ => Some (repeat (1%N, 2%N) (length f))
  end.
Definition sa := T "a". Definition sb := T "bb". Definition sc := T "ccc". Definition sx := T "x".

(* ================= C01 ================= *)
Theorem C01_insert_song : forall l s i,
  exists l', insert_song l s i = Ok l' /\ inserted_at (clip i (zlen l)) s l l'.
Proof. exact insert_song_spec. Qed.
Print Assumptions C01_insert_song.

Theorem C01_add_song : forall l s, inserted_at (zlen l) s l (add_song l s).
Proof. exact add_song_spec. Qed.
Print Assumptions C01_add_song.

Example C01_nonvacuous :
  insert_song [sa; sb] sc (-4) = Ok [sc; sa; sb] /\ insert_song [sa; sb] sc 1 = Ok [sa; sc; sb] /\
  insert_song [sa; sb] sc 7 = Ok [sa; sb; sc].
Proof. repeat split. Qed.

(* ================= C02 ================= *)
(** Missing from the full property: the index i = len of a non-empty playlist. *)
Theorem C02_remove_song_partial : forall l i,
  (l = [] -> remove_song l i = Ok ([], [])) /\
  (l <> [] -> i <> zlen l ->
   exists l' x, remove_song l i = Ok (l', x) /\ removed_at (clip i (zlen l - 1)) x l l').
Proof. intros l i; split; [intros ->; exact (remove_song_empty i)|exact (remove_song_spec l i)]. Qed.
Print Assumptions C02_remove_song_partial.

(** At i = len the server panics, whatever the (non-empty) playlist. *)
Theorem C02_remove_song_refuted : forall l, l <> [] -> remove_song l (zlen l) = Panic.
Proof. exact remove_song_at_len. Qed.
Print Assumptions C02_remove_song_refuted.

Example C02_nonvacuous :
  remove_song [sa; sb; sc] 1 = Ok ([sa; sc], sb) /\ remove_song [sa; sb; sc] 9 = Ok ([sa; sb], sc) /\
  remove_song [sa; sb; sc] (-1) = Ok ([sb; sc], sa) /\ remove_song [sa; sb; sc] 3 = Panic.
Proof. repeat split. Qed.

(* ================= C03 ================= *)
Theorem C03_histories_refine_list : forall es l,
  no_boundary_removal (zlen l) es ->
  exists l' rs, apply_edits l es = Ok (l', rs) /\ list_edits l es l' rs.
Proof. exact apply_edits_spec. Qed.
Print Assumptions C03_histories_refine_list.

(** The specification leaves no freedom: the edits determine list and results. *)
Theorem C03_spec_deterministic : forall l e l1 r1 l2 r2,
  list_edit l e l1 r1 -> list_edit l e l2 r2 -> l1 = l2 /\ r1 = r2.
Proof. exact list_edit_det. Qed.
Print Assumptions C03_spec_deterministic.

Example C03_nonvacuous :
  no_boundary_removal 0 [EAdd sa; EInsert sb 0; EInsert sc 5; ERemove 1; ERemove 0; ERemove 7; ERemove 2] /\
  apply_edits [] [EAdd sa; EInsert sb 0; EInsert sc 5; ERemove 1; ERemove 0; ERemove 7; ERemove 2] =
  Ok ([], [None; None; None; Some sa; Some sb; Some sc; Some []]).
Proof. cbn. repeat split; try lia. all: right; lia. Qed.

(* ================= C04 ================= *)
(** Whatever the pause schedule and however long the loop runs, the songs announced are
    the playable songs of the cyclic order, the loop never panics and Pos() is valid. *)
Theorem C04_cyclic_order : forall decode nan_break l p s acts s' es,
  l <> [] -> ~ In [] l -> songs s = l -> position s = p -> 0 <= p -> at_pc s = AtTop ->
  tokens s = 0%nat -> pending_jumps s = 0%nat ->
  Forall (fun a => is_jump a = false /\ is_edit a = false) acts ->
  prun decode nan_break s acts = Some (s', es) ->
  (exists k, map (fun x => snd (fst x)) (new_songs_of es) = played_in_order decode l p k) /\
  at_pc s' <> Crashed /\ 0 <= pos_of (songs s') (position s') < zlen l.
Proof.
  intros decode nb l p s acts s' es Hne Hin Hs Hp Hp0 Hpc Ht Hpj Hq Hr.
  destruct (run_cyc decode nb l p s acts s' es Hne Hin Hs Hp Hp0 Hpc Ht Hpj Hq Hr)
    as (Hs' & _ & _ & Hpos & _ & k & Hk & Hst).
  split; [exists k; exact Hk|]. split; [intros E; rewrite E in Hst; exact Hst|].
  rewrite Hs'. apply pos_of_range; assumption.
Qed.
Print Assumptions C04_cyclic_order.

(** "For ever": the loop always has exactly one next step until the process crashes. *)
Theorem C04_loop_goes_on : forall decode nan_break s, at_pc s <> Crashed ->
  exists a, is_loop_action a = true /\ pstep decode nan_break s a <> None /\
    forall b, is_loop_action b = true -> pstep decode nan_break s b <> None -> b = a.
Proof.
  intros decode nb s H. destruct (loop_progress decode nb s H) as (a & Ha & Hp).
  exists a. split; [exact Ha|]. split; [exact Hp|].
  intros b Hb Hq. exact (loop_action_unique decode nb s b a Hb Ha Hq Hp).
Qed.
Print Assumptions C04_loop_goes_on.

Definition play_one : list action := [PNext; POpen; PCmp; PTogStore; PTogCall; PBlock; PCheck].
Example C04_nonvacuous : exists s' es,
  prun ex_decode 3 (set_position (new_playlist [sa; sx; sb; sc]) 7)
    ([ASetPlaying false; PNext; POpen; ASetPlaying true; PCmp; PBlock; PCheck;
      PNext; POpen; PCmp; PBlock; PCheck; PNext; POpen; PNext; POpen]) = Some (s', es) /\
  map (fun x => snd (fst x)) (new_songs_of es) = [sc; sa; sb] /\
  played_in_order ex_decode [sa; sx; sb; sc] 7 4 = [sc; sa; sb].
Proof. eexists. eexists. split; [vm_compute; reflexivity|]. split; reflexivity. Qed.

(* ================= C05 ================= *)
(** A jump to p >= 0 lands on a song of the playlist. *)
Theorem C05_jump_target_partial : forall l p, l <> [] -> 0 <= p ->
  exists i f, next_song l p = Ok (i, f) /\ 0 <= i < zlen l /\ nth_error l (Z.to_nat i) = Some f /\
              i = p mod zlen l.
Proof.
  intros l p Hne Hp. pose proof (zlen_pos l Hne) as Hpos.
  pose proof (Z.mod_pos_bound p (zlen l) Hpos) as Hb.
  exists (p mod zlen l), (cyclic_song l p 0). rewrite next_song_nonneg by assumption.
  split; [reflexivity|]. split; [exact Hb|]. split; [|reflexivity].
  unfold cyclic_song. rewrite Z.add_0_r. apply nth_error_nth'. unfold zlen in *. lia.
Qed.
Print Assumptions C05_jump_target_partial.

(** Exactly the negative targets that are not multiples of the playlist length crash. *)
Theorem C05_jump_crash_exact : forall l p,
  next_song l p = Panic <-> (l <> [] /\ p < 0 /\ ~ (zlen l | p)).
Proof. exact next_song_panics. Qed.
Print Assumptions C05_jump_crash_exact.

(** `jump -1` while the first of two songs plays: the server process crashes. *)
Theorem C05_jump_refuted : exists acts s es,
  prun ex_decode 3 (new_playlist [sa; sb]) acts = Some (s, es) /\
  In (ASetPosWrite (-1)) acts /\ at_pc s = Crashed.
Proof.
  exists [ASetPlaying true; PNext; POpen; ASetPosWrite (-1); ASetPosSend; PCmp; PBlock; PCheck; PNext].
  eexists. eexists. split; [vm_compute; reflexivity|]. split; [cbn; tauto|reflexivity].
Qed.
Print Assumptions C05_jump_refuted.

(* ================= C06 ================= *)
(** One jump, made while a song streams and no other jump is under way: at most one more
    block of the interrupted song is streamed, the songs announced afterwards are those of
    the cyclic order from p, and no jump token is left to interrupt them. *)
Theorem C06_single_jump_partial : forall decode nan_break l p s acts s' es,
  l <> [] -> ~ In [] l -> 0 <= p -> songs s = l ->
  streaming (at_pc s) = true -> tokens s = 0%nat -> pending_jumps s = 0%nat ->
  Forall (fun a => is_jump a = false /\ is_edit a = false) acts ->
  prun decode nan_break s (ASetPosWrite p :: ASetPosSend :: acts) = Some (s', es) ->
  (exists k, map (fun x => snd (fst x)) (new_songs_of es) = played_in_order decode l p k) /\
  (block_count (before_first_song es) <= 1)%nat /\
  (new_songs_of es <> [] -> tokens s' = 0%nat /\ pending_jumps s' = 0%nat).
Proof.
  intros decode nb l p s acts s' es Hne Hin Hp Hs Hst Ht Hpj Hq Hr.
  destruct (run_jump decode nb l p s acts s' es Hne Hin Hp Hs Hst Ht Hpj Hq Hr) as [H|H].
  - destruct H as (_ & _ & _ & _ & _ & Hn & Hpc).
    split; [exists 0%nat; exact Hn|]. apply names_nil in Hn.
    split; [|rewrite Hn; congruence].
    rewrite before_first_song_none by exact Hn. destruct (at_pc s'); try contradiction; lia.
  - destruct H as ((_ & Ht' & Hp' & _ & _ & k & Hk & _) & Hb & _).
    split; [exists k; exact Hk|]. split; [exact Hb|auto].
Qed.
Print Assumptions C06_single_jump_partial.

Definition long := repeat 98%N 600.
Example C06_nonvacuous : exists s s' es,
  prun ex_decode 3 s
    [ASetPosWrite 5; ASetPosSend; PBlock; PCheck; PNext; POpen; PCmp; PBlock; PCheck; PNext; POpen]
    = Some (s', es) /\ streaming (at_pc s) = true /\ songs s = [long; sa; sc] /\
  map (fun x => snd (fst x)) (new_songs_of es) = [sc; long].
Proof.
  exists (set_pc (set_playing (new_playlist [long; sa; sc]) true) (BlockRead (repeat (1%N,2%N) 600))).
  eexists. eexists. split; [vm_compute; reflexivity|]. repeat split.
Qed.

(** Two jumps in quick succession: the song jumped to is broken off after one block of 512
    samples and started again. *)
Theorem C06_double_jump_refuted : exists acts s es,
  prun ex_decode 3 (new_playlist [sa; long; sc]) acts = Some (s, es) /\
  map (fun x => snd (fst x)) (new_songs_of es) = [sa; long; long] /\
  zlen (stream_of es) = 1 + 3 + 512 + 3.
Proof.
  exists [ASetPlaying true; PNext; POpen; ASetPosWrite 2; ASetPosSend; ASetPosWrite 1; ASetPosSend;
          PCmp; PBlock; PCheck;                    (* first token: sa is interrupted *)
          PNext; POpen; PCmp; PBlock; PCheck;      (* second token: long is interrupted after 512 of 600 *)
          PNext; POpen].
  eexists. eexists. split; [vm_compute; reflexivity|]. split; vm_compute; reflexivity.
Qed.
Print Assumptions C06_double_jump_refuted.

(** A jump racing with the end of the song: the song after the target is played. *)
Theorem C06_race_refuted : exists acts s es,
  prun ex_decode 3 (new_playlist [sa; sb; sc]) acts = Some (s, es) /\
  In (ASetPosWrite 1) acts /\ (forall p, In (ASetPosWrite p) acts -> p = 1) /\
  map (fun x => snd (fst x)) (new_songs_of es) = [sa; sc].
Proof.
  exists [ASetPlaying true; PNext; POpen; PCmp; PBlock; ASetPosWrite 1; PCheck; ASetPosSend; PNext; POpen].
  eexists. eexists. split; [vm_compute; reflexivity|]. split; [cbn; tauto|].
  split; [|reflexivity]. cbn. intros p H. intuition congruence.
Qed.
Print Assumptions C06_race_refuted.

(** A jump issued while nothing is queued breaks off the next song after one block. *)
Theorem C06_stale_jump_refuted : exists acts s es,
  prun ex_decode 3 (new_playlist []) acts = Some (s, es) /\
  new_songs_of es = [(0, long, 600); (512 + 3, long, 600)].
Proof.
  exists [ASetPlaying true; ASetPosWrite 0; ASetPosSend; AEdit (EAdd long);
          PNext; POpen; PCmp; PBlock; PCheck; PNext; POpen].
  eexists. eexists. split; [vm_compute; reflexivity|]. vm_compute; reflexivity.
Qed.
Print Assumptions C06_stale_jump_refuted.

(* ================= C07 ================= *)
(** A waiting jump gets through within a bounded number of loop steps provided the
    playlist holds something playable. *)
Theorem C07_jump_returns_partial : forall decode nan_break s,
  at_pc s <> Crashed -> 0 <= position s -> ~ In [] (songs s) ->
  (exists x, In x (songs s) /\ decode x <> None) -> (tokens s <= 2)%nat -> (0 < pending_jumps s)%nat ->
  exists acts s' es,
    Forall (fun a => is_loop_action a = true) acts /\ (length acts <= 2 * length (songs s) + 6)%nat /\
    prun decode nan_break s acts = Some (s', es) /\ pstep decode nan_break s' ASetPosSend <> None.
Proof. exact jump_let_through. Qed.
Print Assumptions C07_jump_returns_partial.

(** The third jump on an empty playlist blocks, and stays blocked whatever happens as
    long as no song is queued; the SSH session hangs. *)
Theorem C07_jump_hangs_refuted : exists acts0 s0 es0,
  prun ex_decode 3 (new_playlist []) acts0 = Some (s0, es0) /\ pending_jumps s0 = 1%nat /\
  forall acts s es, Forall (fun a => is_edit a = false) acts ->
    prun ex_decode 3 s0 acts = Some (s, es) -> pstep ex_decode 3 s ASetPosSend = None.
Proof.
  exists [ASetPosWrite 0; ASetPosSend; ASetPosWrite 0; ASetPosSend; ASetPosWrite 0].
  eexists. eexists. split; [vm_compute; reflexivity|]. split; [reflexivity|].
  intros acts s es Hok Hr. eapply (empty_no_drain ex_decode 3); [| | | |exact Hok|exact Hr];
    try reflexivity; discriminate.
Qed.
Print Assumptions C07_jump_hangs_refuted.

Example C07_nonvacuous :
  let s := {| songs := [sx; sa]; position := 5; tokens := 2; pending_jumps := 1; playing := true;
              playing_last := true; current_song := sa; idx_write := 9; at_pc := AtTop |} in
  at_pc s <> Crashed /\ 0 <= position s /\ (exists x, In x (songs s) /\ ex_decode x <> None) /\
  pstep ex_decode 3 s ASetPosSend = None.
Proof.
  cbn. split; [discriminate|]. split; [lia|].
  split; [exists sa; split; [tauto|vm_compute; congruence]|reflexivity].
Qed.

(* ================= C08 ================= *)
(** While song number p plays and p+1 is not past the end, edits beyond index p+1 do not
    change which song is announced next. *)
Theorem C08_edits_elsewhere_partial : forall decode nan_break p x s acts s' es,
  0 <= p -> x <> [] -> decode x <> None ->
  streaming (at_pc s) = true -> position s = p -> tokens s = 0%nat -> pending_jumps s = 0%nat ->
  nth_error (songs s) (Z.to_nat (p + 1)) = Some x ->
  Forall (fun a => is_jump a = false) acts ->
  (forall a1 e a2 s1 es1, acts = a1 ++ AEdit e :: a2 -> prun decode nan_break s a1 = Some (s1, es1) ->
     edits_beyond (p + 1) (zlen (songs s1)) e) ->
  prun decode nan_break s acts = Some (s', es) ->
  match new_songs_of es with [] => True | (_, f, _) :: _ => f = x end.
Proof.
  intros decode nb p x s acts s' es Hp Hx Hd Hst Hpos Ht Hpj Hnth Hj He Hr.
  assert (HI : InvNext p x s' ([] ++ es)).
  { eapply (run_next decode nb p x acts); try eassumption.
    split; [exact Ht|]. split; [exact Hpj|]. split; [intros f Hf; rewrite Hf in Hst; discriminate|].
    split; [exact Hnth|]. cbn. destruct (at_pc s); try discriminate; exact Hpos. }
  destruct HI as (_ & _ & _ & _ & H). cbn [app] in H. unfold names_of in H.
  destruct (new_songs_of es) as [|[[i f] n] r]; [exact I|exact H].
Qed.
Print Assumptions C08_edits_elsewhere_partial.

(** Removing a song before the one playing: the song that should follow is skipped
    (b plays, a is removed, then a jump-free run goes on with b again instead of c). *)
Theorem C08_edit_before_refuted : exists acts s es,
  prun ex_decode 3 (new_playlist [sa; sb; sc]) acts = Some (s, es) /\
  Forall (fun a => is_jump a = false) acts /\
  map (fun x => snd (fst x)) (new_songs_of es) = [sa; sb; sb].
Proof.
  exists ([ASetPlaying true; PNext; POpen; PCmp; PBlock; PCheck; PNext; POpen; AEdit (ERemove 0);
          PCmp; PBlock; PCheck; PNext; POpen]).
  eexists. eexists. split; [vm_compute; reflexivity|]. split; [repeat constructor|reflexivity].
Qed.
Print Assumptions C08_edit_before_refuted.

Example C08_nonvacuous : exists s s' es,
  streaming (at_pc s) = true /\ nth_error (songs s) (Z.to_nat (0 + 1)) = Some sb /\
  prun ex_decode 3 s [AEdit (EInsert sc 2); AEdit (ERemove 3); PCmp; PBlock; PCheck; PNext; POpen] = Some (s', es) /\
  edits_beyond 1 3 (EInsert sc 2) /\ edits_beyond 1 4 (ERemove 3) /\ new_songs_of es = [(4, sb, 2)].
Proof.
  exists (set_pc (set_playing (new_playlist [sa; sb; sx]) true) (InSong [(1%N, 2%N)])).
  eexists. eexists. split; [reflexivity|]. split; [reflexivity|]. split; [vm_compute; reflexivity|].
  unfold edits_beyond, clip. repeat split; lia.
Qed.

(* ================= C09 ================= *)
Theorem C09_song_streamed_completely : forall decode nan_break l s acts s' es,
  at_pc s = InSong l -> tokens s = 0%nat -> pending_jumps s = 0%nat ->
  Forall (fun a => is_jump a = false /\ is_pnext a = false) acts ->
  prun decode nan_break s acts = Some (s', es) -> at_pc s' = AtTop ->
  position s' = position s + 1 /\
  exists body, stream_of es = body ++ repeat nan_sample (Z.to_nat nan_break) /\ with_filler l body.
Proof.
  intros decode nb l s acts s' es Hpc Ht Hp Hok Hr Htop.
  destruct (run_song decode nb l s acts s' es Hpc Ht Hp Hok Hr) as (_ & _ & _ & H).
  rewrite Htop in H. exact H.
Qed.
Print Assumptions C09_song_streamed_completely.

(** At every moment before, what has been pushed is a beginning of the song (with filler). *)
Theorem C09_song_prefix : forall decode nan_break l s acts s' es,
  at_pc s = InSong l -> tokens s = 0%nat -> pending_jumps s = 0%nat ->
  Forall (fun a => is_jump a = false /\ is_pnext a = false) acts ->
  prun decode nan_break s acts = Some (s', es) -> streaming (at_pc s') = true ->
  exists done todo, l = done ++ todo /\ with_filler done (stream_of es).
Proof.
  intros decode nb l s acts s' es Hpc Ht Hp Hok Hr Hst.
  destruct (run_song decode nb l s acts s' es Hpc Ht Hp Hok Hr) as (_ & _ & _ & H).
  destruct (at_pc s') as [ |f|r|r|r|r|r n ok| ]; try discriminate;
    destruct H as (_ & dn & Hl & Hw); exists dn, r; split; try exact Hl; try exact Hw; apply Hw.
Qed.
Print Assumptions C09_song_prefix.

Example C09_nonvacuous : exists s' es,
  prun ex_decode 2 (set_pc (new_playlist [sa]) (InSong [(7%N, 8%N); (9%N, 9%N)]))
    [PCmp; PTogStore; PTogCall; PBlock; PCheck; ASetPlaying true; PCmp; PTogStore; PTogCall; PBlock; PCheck]
  = Some (s', es) /\ at_pc s' = AtTop /\
  stream_of es = repeat nan_sample 512 ++ [(7%N, 8%N); (9%N, 9%N)] ++ repeat nan_sample 2.
Proof. eexists. eexists. split; [vm_compute; reflexivity|]. split; [reflexivity|vm_compute; reflexivity]. Qed.

(* ================= C10 ================= *)
Theorem C10_announcement_index : forall decode nan_break l acts s es es1 i f n es2,
  prun decode nan_break (new_playlist l) acts = Some (s, es) ->
  es = es1 ++ ENewSong i f n :: es2 ->
  i = zlen (stream_of es1) /\ exists content, decode f = Some content /\ n = zlen content.
Proof.
  intros decode nb l acts s es es1 i f n es2 Hr ->.
  destruct (run_idx decode nb acts (new_playlist l) s (es1 ++ ENewSong i f n :: es2)) as (_ & _ & H);
    [intros g Hg; discriminate|exact Hr|].
  apply announced_split in H. exact H.
Qed.
Print Assumptions C10_announcement_index.

(** Song and pause announcements carry non-decreasing indices. *)
Theorem C10_announcements_ordered : forall decode nan_break l acts s es,
  prun decode nan_break (new_playlist l) acts = Some (s, es) ->
  nondecreasing (announcement_indices es).
Proof.
  intros decode nb l acts s es Hr.
  destruct (run_idx decode nb acts (new_playlist l) s es) as (_ & _ & H);
    [intros g Hg; discriminate|exact Hr|].
  eapply announced_nondecreasing; exact H.
Qed.
Print Assumptions C10_announcements_ordered.

(** An announcement is made exactly when a song starts to be streamed, and names it. *)
Theorem C10_announced_once : forall decode nan_break s a s' e,
  pstep decode nan_break s a = Some (s', e) ->
  (new_songs_of e <> [] <-> exists f l, at_pc s = Opening f /\ decode f = Some l /\ at_pc s' = InSong l /\ a = POpen) /\
  (length (new_songs_of e) <= 1)%nat.
Proof.
  intros decode nb s a s' e H. apply pstep_stepped in H.
  destruct H as [ | | | |f l Hop Hd| | | | | | | | | | | | | | ]; cbn [new_songs_of flat_map app length];
    (split; [|lia]); split; try congruence;
    try (intros (f0 & m0 & Hg & Hm & Hi & Ha); congruence).
  intros _. exists f, l. auto.
Qed.
Print Assumptions C10_announced_once.

Example C10_nonvacuous : exists s es,
  prun ex_decode 3 (new_playlist [sa; sb])
    [ASetPlaying true; PNext; POpen; PCmp; PBlock; PCheck; PNext; POpen; PCmp; PBlock; PCheck] = Some (s, es) /\
  new_songs_of es = [(0, sa, 1); (4, sb, 2)].
Proof. eexists. eexists. split; [vm_compute; reflexivity|reflexivity]. Qed.

(* ================= C11 ================= *)
(** For every schedule in which SetPlaying does not hit the few instructions between the
    comparison of the flags and the use of the flag. *)
Theorem C11_pause_announcements_partial : forall decode nan_break l acts s es,
  no_flag_race false acts ->
  prun decode nan_break (new_playlist l) acts = Some (s, es) ->
  alternating false (map fst (toggles_of es)) /\
  forall rest, at_pc s = BlockRead rest ->
    exists s', pstep decode nan_break s PBlock =
      Some (s', [EBlock (if announced_paused es then repeat nan_sample 512 else firstn 512 rest)]).
Proof.
  intros decode nb l acts s es Hn Hr.
  destruct (run_pause decode nb acts false (new_playlist l) [] s es (inv_pause_init l) Hn Hr) as (ins & Ha & Hpc).
  cbn [app] in *. split; [exact Ha|].
  intros rest E. rewrite E in Hpc. destruct Hpc as (_ & He & Hp).
  unfold pstep. rewrite E, Hp, <- He. destruct (playing s); cbn [negb]; eexists; reflexivity.
Qed.
Print Assumptions C11_pause_announcements_partial.

(** With the race, the announcements can be wrong for as long as the user likes: the last
    announcement says "playing", the flag is off and nothing more is announced while
    filler is streamed (here two blocks; the last four steps repeat for ever, see the next
    theorem). *)
Definition race_acts : list action :=
  [PNext; POpen; PCmp; PTogStore; ASetPlaying true; PTogCall; ASetPlaying false; PBlock; PCheck].
Theorem C11_flag_race_refuted : forall n : nat, exists s es,
  prun ex_decode 3 (new_playlist [sa]) (race_acts ++ concat (repeat [PCmp; PBlock; PCheck] n)) = Some (s, es) /\
  map fst (toggles_of es) = [true] /\ playing s = false /\ announced_paused es = false /\
  block_count es = S n /\ Forall (fun e => forall b, e = EBlock b -> b = repeat nan_sample 512) es.
Proof.
  assert (Hloop : forall n s, at_pc s = InSong (repeat (1%N, 2%N) 1) -> playing s = false -> playing_last s = false ->
    tokens s = 0%nat ->
    exists s' es, prun ex_decode 3 s (concat (repeat [PCmp; PBlock; PCheck] n)) = Some (s', es) /\
      toggles_of es = [] /\ playing s' = false /\ block_count es = n /\
      Forall (fun e => forall b, e = EBlock b -> b = repeat nan_sample 512) es).
  { induction n as [|n IH]; intros s H1 H2 H3 H4.
    - exists s, []. cbn. repeat split; auto.
    - cbn [repeat concat app]. cbn [prun]. unfold pstep at 1. rewrite H1, H2, H3. cbn [Bool.eqb].
      unfold pstep at 1. cbn [at_pc set_pc playing]. rewrite H2.
      unfold pstep at 1. cbn [at_pc set_pc pushed tokens]. rewrite H4. change (0 <? 0)%nat with false. change (negb true || (streamer_buffer_size <? streamer_buffer_size)%nat)%bool with false.
      cbn iota beta.
      match goal with |- context [prun ex_decode 3 ?st _] => destruct (IH st) as (s' & es & Hr & Ht & Hp & Hb & Hf) end;
        try reflexivity; try assumption.
      rewrite Hr. eexists. eexists. split; [reflexivity|]. cbn [app].
      repeat split; auto; [cbn; unfold block_count in *; cbn; rewrite Hb; reflexivity|].
      constructor; [|exact Hf]. intros b Hbb. injection Hbb as <-. reflexivity. }
  intros n.
  assert (H0 : exists s es, prun ex_decode 3 (new_playlist [sa]) race_acts = Some (s, es) /\
    at_pc s = InSong (repeat (1%N, 2%N) 1) /\ playing s = false /\ playing_last s = false /\ tokens s = 0%nat /\
    toggles_of es = [(true, 0)] /\ block_count es = 1%nat /\
    Forall (fun e => forall b, e = EBlock b -> b = repeat nan_sample 512) es).
  { eexists. eexists. split; [vm_compute; reflexivity|].
    repeat split. repeat constructor; intros b Hb; try discriminate. injection Hb as <-. reflexivity. }
  destruct H0 as (s & es & Hr & H1 & H2 & H3 & H4 & H5 & H6 & H7).
  destruct (Hloop n s H1 H2 H3 H4) as (s' & es' & Hr' & G1 & G2 & G3 & G4).
  exists s', (es ++ es'). rewrite prun_app, Hr, Hr'. split; [reflexivity|].
  rewrite toggles_of_app, H5, G1. split; [reflexivity|]. split; [exact G2|].
  unfold announced_paused. rewrite toggles_of_app, H5, G1. split; [reflexivity|].
  rewrite block_count_app, H6, G3. split; [reflexivity|]. apply Forall_app; auto.
Qed.
Print Assumptions C11_flag_race_refuted.

Example C11_nonvacuous : exists s es,
  no_flag_race false [PNext; POpen; PCmp; PTogStore; PTogCall; PBlock; ASetPlaying true; PCheck; PCmp; PTogStore; PTogCall] /\
  prun ex_decode 3 (new_playlist [sa])
    [PNext; POpen; PCmp; PTogStore; PTogCall; PBlock; ASetPlaying true; PCheck; PCmp; PTogStore; PTogCall] = Some (s, es) /\
  toggles_of es = [(false, 0); (true, 512)] /\ at_pc s = BlockRead [(1%N, 2%N)].
Proof. eexists. eexists. split; [cbn; tauto|]. split; [vm_compute; reflexivity|]. split; reflexivity. Qed.

(* ================= C12 ================= *)
(** (Skipping itself is part of C04: the songs announced are exactly the playable ones.)
    With breaks between the songs (the default, cmd/flags.go:31) samples appear within
    2 n + 6 steps of the loop; PlaylistAliveProps.C12_stream_goes_on is the general theorem. *)
Theorem C12_with_breaks : forall decode nan_break s,
  0 < nan_break -> at_pc s <> Crashed -> 0 <= position s -> ~ In [] (songs s) ->
  (songs s = [] \/ exists x, In x (songs s) /\ decode x <> None) ->
  exists acts s' es,
    Forall (fun a => is_loop_action a = true) acts /\ (length acts <= 2 * length (songs s) + 6)%nat /\
    prun decode nan_break s acts = Some (s', es) /\ stream_of es <> [].
Proof. exact keeps_producing. Qed.
Print Assumptions C12_with_breaks.

(** If nothing in the playlist can be played, the loop spins for ever without
    producing a single sample (so the server stops sending chunks altogether). *)
Theorem C12_all_unplayable_starves : forall decode nan_break s acts s' es,
  at_pc s = AtTop -> songs s <> [] -> ~ In [] (songs s) -> 0 <= position s ->
  (forall x, In x (songs s) -> decode x = None) ->
  Forall (fun a => is_loop_action a = true) acts ->
  prun decode nan_break s acts = Some (s', es) -> stream_of es = [].
Proof. exact starvation. Qed.
Print Assumptions C12_all_unplayable_starves.

Example C12_nonvacuous : exists s' es,
  prun ex_decode 3 (new_playlist [sx; sx]) (concat (repeat [PNext; POpen] 10)) = Some (s', es) /\ position s' = 2.
Proof. eexists. eexists. split; [vm_compute; reflexivity|reflexivity]. Qed.

(* ================= C63 ================= *)
Theorem C63_current_song_partial : forall decode nan_break l acts s es,
  prun decode nan_break (new_playlist l) acts = Some (s, es) ->
  streaming (at_pc s) = true -> last_announced es = Some (current_song_of s).
Proof. intros decode nb l acts s es Hr Hst. destruct (run_cur decode nb l acts s es Hr) as [_ H]. exact (H Hst). Qed.
Print Assumptions C63_current_song_partial.

(** After the only song was removed and has ended, CurrentSong still names it although
    nothing is being streamed. *)
Theorem C63_current_song_refuted : exists acts s es,
  prun ex_decode 3 (new_playlist [sa]) acts = Some (s, es) /\
  songs s = [] /\ streaming (at_pc s) = false /\ current_song_of s = sa.
Proof.
  exists [ASetPlaying true; PNext; POpen; AEdit (ERemove 0); PCmp; PBlock; PCheck].
  eexists. eexists. split; [vm_compute; reflexivity|]. repeat split.
Qed.
Print Assumptions C63_current_song_refuted.
