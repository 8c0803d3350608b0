(** C133: how long a pause takes by the clock.  C134: whether chunks are made before they are due. *)
From Coq Require Import Lia ZifyBool ZifyNat.
From Verif Require Import GoBase GoBaseFacts PlaylistModel PlaylistSpec ChanModel ChanSpec ChanProofs PlayerModel PlayerSpec ScheduleModel ScheduleProofs
  LatencyModel LatencySpec LatencyProofs LatencyProps ClockModel ClockSpec ClockProofs.
Local Open Scope Z_scope.

Lemma lead_arith sr b d s u i : 0 < sr -> 0 < s -> 0 <= d -> 0 <= b -> 0 <= u -> 0 <= i < s -> u * s + i < b * s + d ->
  u * (s * 1000000000 / sr) + i * 1000000000 / sr <= b * (s * 1000000000 / sr) + d * 1000000000 / sr + 1.
Proof.
  intros Sr S D B U I H. set (G := 1000000000) in *. assert (Gp : 0 < G) by reflexivity. clearbody G.
  set (T := s * G / sr). assert (Tn : 0 <= T) by (apply Z.div_pos; nia).
  assert (It : i * G / sr <= T) by (apply Z.div_le_mono; nia).
  destruct (Z_lt_le_dec u b) as [L|L].
  - assert (0 <= d * G / sr) by (apply Z.div_pos; nia). nia.
  - replace u with (b + (u - b)) by lia. set (k := u - b) in *. assert (Hk : 0 <= k) by lia.
    assert (Hd : k * s + i < d) by nia.
    assert (k * T + i * G / sr <= d * G / sr); [|nia].
    apply Z.div_le_lower_bound; [lia|].
    pose proof (Z.mul_div_le (s * G) sr Sr). pose proof (Z.mul_div_le (i * G) sr Sr). fold T in H0. nia.
Qed.

(** Where in the stream a sample is that is due late enough. *)
Lemma late_position decode nb l c size sr begin delay acts w es more w' es' j m i x extra :
  (0 < size)%nat -> 0 < sr ->
  trun decode nb size sr begin (new_clocked l c begin) acts = Some (w, es) ->
  trun decode nb size sr begin w more = Some (w', es') ->
  nth_error (messages size sr begin delay w') j = Some m -> nth_error (c_samples (request_chunk (fst m))) i = Some x ->
  ck_now w + delay + lasting sr (c + 512 + extra) + 1 < due sr m i ->
  (settled (ck_source w) c + extra <= j * size + i)%nat /\ nth_error (heard_so_far (ck_source w')) (j * size + i) = Some x.
Proof.
  intros Sz Sr R R2 J Nx Du.
  destruct (ticks_run decode nb size sr begin _ _ _ _ (ticks_new size sr begin l c) R) as (K & _ & _ & _).
  pose proof (trun_srun _ _ _ _ _ _ _ _ _ R) as S. change (ck_source (new_clocked l c begin)) with (new_source l c) in S.
  pose proof (trun_fills _ _ _ _ _ _ _ _ _ R) as Fs. pose proof (trun_srun _ _ _ _ _ _ _ _ _ R2) as S2. pose proof (trun_fills _ _ _ _ _ _ _ _ _ R2) as Fs2.
  destruct (reach_ok _ _ _ _ _ _ _ S) as (_ & I & C & B & _). destruct (new_ok l c) as [I0 B0].
  destruct (srun_returned decode nb size _ _ _ _ S I0 B0 Fs) as [Fi Fo]; [now left|constructor|].
  destruct (srun_returned decode nb size _ _ _ _ S2 I B Fs2 Fi Fo) as [_ Fo2].
  unfold messages in J. destruct (music_nth _ _ _ _ _ _ _ J) as (St & f & N & Lo & Hi).
  destruct (nth_slice size _ Fo2 _ _ N) as [rest E].
  unfold request_chunk in Nx. cbn [c_samples] in Nx. rewrite combine_samples_combine, Lo, Hi in Nx.
  assert (Li : (i < size)%nat).
  { rewrite Forall_forall in Fo2. destruct (Fo2 f (nth_error_In _ _ N)) as [F1 F2].
    assert (Q : (i < length (combine (snd (fst f)) (snd f)))%nat) by (apply nth_error_Some; rewrite Nx; discriminate). rewrite combine_length in Q. lia. }
  split.
  - destruct (le_lt_dec (settled (ck_source w) c + extra) (j * size + i)) as [Q|Q]; [exact Q|exfalso].
    assert (Sb : Z.of_nat (settled (ck_source w) c + extra) <= begun (ck_source w) * Z.of_nat size + Z.of_nat (c + 512 + extra)).
    { unfold settled, heard_so_far, begun, running, asked_for. rewrite (handed_len size _ Fo). unfold zlen.
      destruct Fi as [->|(g1 & g2 & ->)]; nia. }
    destruct K as (K1 & K2 & K3 & _ & K5). pose proof (begun_nonneg (ck_source w)) as Bn.
    pose proof (lead_arith sr (begun (ck_source w)) (Z.of_nat (c + 512 + extra)) (Z.of_nat size) (Z.of_nat j) (Z.of_nat i) Sr ltac:(lia) ltac:(lia) Bn ltac:(lia) ltac:(lia) ltac:(nia)) as L.
    unfold due, lasting in Du. rewrite St in Du. unfold start_time in Du. rewrite (chunk_time_div _ _ Sr) in Du, K3 by lia. change G with 1000000000 in *.
    set (T := Z.of_nat size * 1000000000 / sr) in *. assert (Tn : 0 <= T) by (apply Z.div_pos; lia).
    assert (begun (ck_source w) * T <= ck_now w - begin); [|lia].
    destruct K3 as [K3|[_ K3]]; [assert (begun (ck_source w) = 0) by (destruct (ck_waiting w); lia); nia|].
    assert (begun (ck_source w) <= ck_fired w) by (destruct (ck_waiting w); lia). nia.
  - unfold heard_so_far. rewrite <- (firstn_skipn (j * size) (handed_out _)), E.
    assert (Ll : length (firstn (j * size) (handed_out (returned (so_chan (ck_source w'))))) = (j * size)%nat).
    { rewrite firstn_length, (handed_len size _ Fo2). assert (j < length (returned (so_chan (ck_source w'))))%nat by (apply nth_error_Some; rewrite N; discriminate). nia. }
    rewrite nth_error_app2 by lia. rewrite Ll. replace (j * size + i - j * size)%nat with i by lia.
    rewrite nth_error_app1; [exact Nx|]. apply nth_error_Some. rewrite Nx. discriminate.
Qed.

(** By the clock: whenever playback is found paused, and until it is resumed, every sample due later than the
    stream delay, the time one full channel of [c] samples lasts and that of one block of 512 from now on is
    silence - however ticks are delayed or lost and whatever else is done.  With the settings of the server
    ([c] is the sample rate, the delay 15 s) that is 16.01 s. *)
Theorem C133_pause_by_the_clock : forall decode nan_break l c size sr begin delay acts w es more w' es' m i x,
  (0 < size)%nat -> 0 < sr ->
  trun decode nan_break size sr begin (new_clocked l c begin) acts = Some (w, es) -> paused w ->
  Forall (fun a => a <> ASetPlaying true) (calls more) ->
  trun decode nan_break size sr begin w more = Some (w', es') ->
  In m (messages size sr begin delay w') -> nth_error (c_samples (request_chunk (fst m))) i = Some x ->
  ck_now w + delay + lasting sr (c + 512) + 1 < due sr m i ->
  no_sound x.
Proof.
  intros decode nb l c size sr begin delay acts w es more w' es' m i x Sz Sr R Pa A R2 Im Nx Du.
  pose proof (trun_srun _ _ _ _ _ _ _ _ _ R) as S. change (ck_source (new_clocked l c begin)) with (new_source l c) in S.
  pose proof (trun_srun _ _ _ _ _ _ _ _ _ R2) as S2. rewrite <- (calls_are size) in A.
  pose proof (C132_pause_within decode nb l c _ _ _ _ _ _ S Pa A S2) as F.
  destruct (In_nth_error _ _ Im) as [j J]. rewrite <- (Nat.add_0_r (c + 512)) in Du.
  destruct (late_position _ _ _ _ _ _ _ _ _ _ _ _ _ _ j m i x 0%nat Sz Sr R R2 J Nx Du) as [Se Nh]. rewrite Nat.add_0_r in Se.
  rewrite Forall_forall in F. apply F.
  rewrite <- (firstn_skipn (settled (ck_source w) c) (heard_so_far _)) in Nh.
  rewrite nth_error_app2 in Nh; [now apply nth_error_In in Nh|]. rewrite firstn_length. lia.
Qed.
Print Assumptions C133_pause_by_the_clock.

(** And when playback is found going on with [rest] of the song left, and as long as nobody pauses or jumps: the
    samples due later than the stream delay, the time of one full channel and that of two blocks (one of them of
    silence) from now on are those of [rest] and of the break behind it, without a gap: all of them moved by
    the same [moved] samples. *)
Theorem C133_resume_by_the_clock : forall decode nan_break l c size sr begin delay acts w es more w' es' rest,
  (0 < size)%nat -> 0 < sr ->
  trun decode nan_break size sr begin (new_clocked l c begin) acts = Some (w, es) -> ~ paused w ->
  left_of_song (at_pc (so_loop (ck_source w))) = Some rest ->
  tokens (so_loop (ck_source w)) = 0%nat -> pending_jumps (so_loop (ck_source w)) = 0%nat ->
  Forall (fun a => is_jump a = false /\ is_pnext a = false /\ a <> ASetPlaying false) (calls more) ->
  trun decode nan_break size sr begin w more = Some (w', es') -> at_pc (so_loop (ck_source w')) <> Crashed ->
  exists moved, forall j m i x,
    nth_error (messages size sr begin delay w') j = Some m -> nth_error (c_samples (request_chunk (fst m))) i = Some x ->
    ck_now w + delay + lasting sr (c + 1024) + 1 < due sr m i ->
    (moved <= j * size + i)%nat /\
    nth_error (rest ++ repeat nan_sample (Z.to_nat nan_break)) (j * size + i - moved) = Some x.
Proof.
  intros decode nb l c size sr begin delay acts w es more w' es' rest Sz Sr R Pl Pc T0 J0 A R2 Nc.
  pose proof (trun_srun _ _ _ _ _ _ _ _ _ R) as S. change (ck_source (new_clocked l c begin)) with (new_source l c) in S.
  pose proof (trun_srun _ _ _ _ _ _ _ _ _ R2) as S2. rewrite <- (calls_are size) in A.
  assert (Pl2 : playing (so_loop (ck_source w)) = true) by (unfold paused in Pl; destruct (playing _); congruence).
  destruct (C132_resume_within decode nb l c _ _ _ _ _ _ _ S Pl2 Pc T0 J0 A S2 Nc) as (a & b & La & _ & Lb & [r H]).
  exists (length a + length b)%nat. intros j m i x J Nx Du.
  replace (c + 1024)%nat with (c + 512 + 512)%nat in Du by lia.
  destruct (late_position _ _ _ _ _ _ _ _ _ _ _ _ _ _ j m i x 512%nat Sz Sr R R2 J Nx Du) as [Se Nh].
  split; [lia|]. 
  assert (Q : nth_error (a ++ b ++ rest ++ repeat nan_sample (Z.to_nat nb)) (j * size + i) = Some x).
  { rewrite H, nth_error_app1; [exact Nh|]. apply nth_error_Some. rewrite Nh. discriminate. }
  rewrite app_assoc, nth_error_app2, app_length in Q by (rewrite app_length; lia). exact Q.
Qed.
Print Assumptions C133_resume_by_the_clock.

(** When Fill returns a chunk's samples, the chunk's message is made with the start time that is ahead of the
    clock by at most the stream delay less one chunk, and less one more for every tick lost before; and by
    more than the stream delay less three chunks, less one for every tick lost, if the ticker is up to date. *)
Theorem C134_lead : forall decode nan_break l c size sr begin delay acts w es w1 es1 m, 0 < sr -> 
  let period := Z.of_nat size * 1000000000 / sr in
  trun decode nan_break size sr begin (new_clocked l c begin) acts = Some (w, es) ->
  tstep decode nan_break size sr begin w (TStep (SoChan CReturn)) = Some (w1, es1) ->
  nth_error (messages size sr begin delay w1) (length (messages size sr begin delay w)) = Some m ->
  due sr m 0 - ck_now w <= delay - (1 + ck_lost w) * period /\
  (ticker_up_to_date period begin w -> delay - (3 + ck_lost w) * period < due sr m 0 - ck_now w).
Proof.
  intros decode nb l c size sr begin delay acts w es w1 es1 m Sr period R E Nm.
  assert (Te : stream_chunk_time (Z.of_nat size) sr = period) by (apply chunk_time_div; lia).
  destruct (ticks_run decode nb size sr begin _ _ _ _ (ticks_new size sr begin l c) R) as (K & _ & _ & _).
  destruct (ticks_step decode nb size sr begin _ _ _ _ K E) as (_ & _ & _ & new & M & G).
  assert (Lm : forall rs i, length (stream_music (start_time begin delay) (Z.of_nat size) sr i rs) = length rs).
  { induction rs as [|r rs IH]; intros i; [reflexivity|]. cbn [stream_music length]. now rewrite IH. }
  apply music_nth in Nm as (St & _). unfold messages in St. rewrite Lm, Te in St.
  unfold due. rewrite St. unfold start_time. change (Z.of_nat 0 * 1000000000 / sr) with (0 / sr). rewrite Z.div_0_l by lia.
  destruct K as (K1 & K2 & K3 & K4 & K5). rewrite Te in K3. unfold zlen in K4 at 2.
  apply tstep_cases in E as [(d & Q & _)|[(Q & _)|[(Q & _)|(b & s & Q & _ & S & ->)]]]; try discriminate Q. injection Q as <-. cbn [ck_made] in M.
  destruct G as [->|(-> & P & G)].
  { rewrite app_nil_r in M. apply (f_equal (@length Z)) in M. rewrite app_length in M. cbn [length] in M. lia. }
  rewrite Te in P, G. split; [nia|].
  intros U. unfold ticker_up_to_date in U. destruct (sstep_begun _ _ _ _ _ _ S) as (_ & _ & S3). specialize (S3 eq_refl).
  unfold begun, zlen in K1. rewrite S3 in K1. destruct (ck_waiting w); nia.
Qed.
Print Assumptions C134_lead.

(** So with a stream delay of three chunks or more every chunk is made before it is due, as long as no tick has
    been lost and the ticker is up to date. *)
Theorem C134_in_time_partial : forall decode nan_break l c size sr begin delay acts w es w1 es1 m, 0 < sr -> 
  let period := Z.of_nat size * 1000000000 / sr in
  trun decode nan_break size sr begin (new_clocked l c begin) acts = Some (w, es) ->
  tstep decode nan_break size sr begin w (TStep (SoChan CReturn)) = Some (w1, es1) ->
  nth_error (messages size sr begin delay w1) (length (messages size sr begin delay w)) = Some m ->
  3 * period <= delay -> ck_lost w = 0 -> ticker_up_to_date period begin w ->
  ck_now w < due sr m 0.
Proof.
  intros decode nb l c size sr begin delay acts w es w1 es1 m Sr period R E Nm D L U.
  destruct (C134_lead _ _ _ _ _ _ _ _ _ _ _ _ _ _ Sr R E Nm) as [_ H]. specialize (H U). fold period in H. rewrite L in H. lia.
Qed.
Print Assumptions C134_in_time_partial.

(** Lost ticks are never made up for: once so many are lost that one more chunk makes up the stream delay,
    every chunk from then on is made when it is due already, or later, for as long as the server runs. *)
Theorem C134_lost_ticks_refuted : forall decode nan_break l c size sr begin delay acts w es more w' es' n m t, 0 < sr -> 
  let period := Z.of_nat size * 1000000000 / sr in
  trun decode nan_break size sr begin (new_clocked l c begin) acts = Some (w, es) -> delay <= (1 + ck_lost w) * period ->
  trun decode nan_break size sr begin w more = Some (w', es') ->
  (length (ck_made w) <= n)%nat -> nth_error (messages size sr begin delay w') n = Some m -> nth_error (ck_made w') n = Some t ->
  due sr m 0 <= t.
Proof.
  intros decode nb l c size sr begin delay acts w es more w' es' n m t Sr period R D R2 Ln Nm Nt.
  assert (Te : stream_chunk_time (Z.of_nat size) sr = period) by (apply chunk_time_div; lia).
  destruct (ticks_run decode nb size sr begin _ _ _ _ (ticks_new size sr begin l c) R) as (K & _ & _ & _).
  destruct (ticks_run decode nb size sr begin _ _ _ _ K R2) as (_ & _ & _ & new & M & G).
  rewrite M, nth_error_app2 in Nt by exact Ln. apply G in Nt as [_ Nt]. rewrite Te in Nt. unfold zlen in Nt.
  apply music_nth in Nm as (St & _). rewrite Te in St. unfold due. rewrite St. unfold start_time.
  change (Z.of_nat 0 * 1000000000 / sr) with (0 / sr). rewrite Z.div_0_l by lia. nia.
Qed.
Print Assumptions C134_lost_ticks_refuted.

(** With a stream delay of one chunk or less, which the command line accepts, this is so from the first chunk on. *)
Theorem C134_short_delay_refuted : forall decode nan_break l c size sr begin delay acts w es n m t, 0 < sr -> 
  delay <= Z.of_nat size * 1000000000 / sr ->
  trun decode nan_break size sr begin (new_clocked l c begin) acts = Some (w, es) ->
  nth_error (messages size sr begin delay w) n = Some m -> nth_error (ck_made w) n = Some t ->
  due sr m 0 <= t.
Proof.
  intros decode nb l c size sr begin delay acts w es n m t Sr D R Nm Nt.
  eapply (C134_lost_ticks_refuted decode nb l c size sr begin delay [] (new_clocked l c begin) [] acts w es n m t Sr); cbn [ck_lost ck_made length new_clocked]; [reflexivity|lia|exact R|lia|exact Nm|exact Nt].
Qed.
Print Assumptions C134_short_delay_refuted.

(** The cases are met, with chunks of 2 samples of 1 ms: a song of 1100 samples is paused at the first block; 300
    chunks later the pause has been heard, and the samples from chunk 256 on are silent. *)
Definition tstart (acts : list action) : list taction := map (fun a => TStep (SoLoop a)) acts.
Definition a_sample : list taction :=
  map (fun a => TStep a) [SoPush; SoChan CSendLow; SoChan CSendHigh; SoChan CIncr; SoChan CRecvLow; SoChan CRecvHigh].
Definition a_chunk : list taction := [TWait 2000000; TFire; TTake] ++ a_sample ++ a_sample ++ [TStep (SoChan CReturn)].
Definition chunks (n : nat) : list taction := concat (repeat a_chunk n).
Definition before_pause : list taction := tstart [ASetPlaying true; PNext; POpen; PCmp; PBlock] ++ chunks 1 ++ tstart [ASetPlaying false].
Definition after_pause : list taction := chunks 255 ++ tstart [PCheck; PCmp; PTogStore; PTogCall; PBlock] ++ chunks 44.
Definition clock_decode (f : song) : option (list sample) := Some (repeat (5%N, 6%N) 1100).
Definition clock_run := trun clock_decode 3 2 1000 7 (new_clocked [T "a"] 2 7).
Definition chunk_at (w : clocked) (n : nat) : option (Z * list sample) :=
  option_map (fun m => (due 1000 m 1, c_samples (request_chunk (fst m)))) (nth_error (messages 2 1000 7 15000000 w) n).
Example C133_nonvacuous :
  Forall (fun a => a <> ASetPlaying true) (calls after_pause) /\
  match clock_run before_pause with
  | Some (w, _) =>
      match trun clock_decode 3 2 1000 7 w after_pause with
      | Some (w', _) =>
          Some (playing (so_loop (ck_source w)), ck_now w + 15000000 + lasting 1000 (2 + 512) + 1, chunk_at w' 258, chunk_at w' 255)
      | None => None
      end
  | None => None
  end = Some (false, 531000008, Some (532000007, [nan_sample; nan_sample]), Some (526000007, [(5%N, 6%N); (5%N, 6%N)])).
Proof.
  split; [apply Forall_forall; intros a I Q; subst a; vm_compute in I; intuition discriminate|vm_compute; reflexivity].
Qed.

(** Resumed 44 chunks into a block of silence, with 1488 samples of the song left: the samples of chunk 820 are due
    late enough, and are those of the song moved by 1024 samples. *)
Definition long_decode (f : song) : option (list sample) := Some (map (fun n => (N.of_nat n, 6%N)) (seq 0 2000)).
Definition until_resume : list taction := before_pause ++ after_pause ++ tstart [ASetPlaying true].
Definition after_resume : list taction :=
  chunks 212 ++ tstart [PCheck; PCmp; PTogStore; PTogCall; PBlock] ++ chunks 256 ++ tstart [PCheck; PCmp; PBlock] ++ chunks 54.
Example C133_resume_nonvacuous :
  Forall (fun a => is_jump a = false /\ is_pnext a = false /\ a <> ASetPlaying false) (calls after_resume) /\
  match trun long_decode 3 2 1000 7 (new_clocked [T "a"] 2 7) until_resume with
  | Some (w, _) =>
      match trun long_decode 3 2 1000 7 w after_resume with
      | Some (w', _) =>
          Some (playing (so_loop (ck_source w)), tokens (so_loop (ck_source w)), pending_jumps (so_loop (ck_source w)),
                option_map (fun r => (length r, nth_error r 616)) (left_of_song (at_pc (so_loop (ck_source w)))),
                ck_now w + 15000000 + lasting 1000 (2 + 1024) + 1, chunk_at w' 820)
      | None => None
      end
  | None => None
  end = Some (true, 0%nat, 0%nat, Some (1488%nat, Some (1128%N, 6%N)), 1641000008, Some (1656000007, [(1128%N, 6%N); (1129%N, 6%N)])).
Proof.
  split; [remember (calls after_resume) as q eqn:E; vm_compute in E; subst q; repeat (apply Forall_cons; [repeat split; discriminate|]); apply Forall_nil|].
  vm_compute. reflexivity.
Qed.

(** A prompt server is exactly one chunk less than the stream delay ahead; a tick lost while the loop hangs takes one
    chunk more, for good. *)
Definition leads (delay : Z) (r : option (clocked * list event)) : option (Z * list Z) :=
  match r with
  | Some (w, _) => Some (ck_lost w, map (fun p => due 1000 (fst p) 0 - snd p) (combine (messages 2 1000 7 delay w) (ck_made w)))
  | None => None
  end.
Definition a_hang : list taction := [TWait 2000000; TFire; TWait 2000000; TFire; TTake] ++ a_sample ++ a_sample ++ [TStep (SoChan CReturn)].
Definition loop_begins : list taction := tstart [ASetPlaying true; PNext; POpen; PCmp; PBlock].
Example C134_nonvacuous :
  leads 6000000 (clock_run (loop_begins ++ chunks 3)) = Some (0, [4000000; 4000000; 4000000]) /\
  leads 6000000 (clock_run (loop_begins ++ chunks 1 ++ a_hang ++ chunks 1 ++ a_hang ++ chunks 2)) = Some (2, [4000000; 2000000; 2000000; 0; 0; 0]) /\
  leads 2000000 (clock_run (loop_begins ++ chunks 2)) = Some (0, [0; 0]).
Proof. split; [vm_compute; reflexivity|]. split; vm_compute; reflexivity. Qed.
