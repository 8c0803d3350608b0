(** Properties C18-C24: from the server's chunk schedule to the output of the players. *)
From Verif Require Import GoBase GoBaseFacts PlaylistModel QueueModel ChanModel ChanSpec ChanProofs
  PlayerModel PlayerSpec PlayerProofs ScheduleModel ScheduleProofs.
Local Open Scope Z_scope.

(* ================= C18 ================= *)
(** What ReadChunks has put into the sample queue is the beginning of the timestamped
    samples of the chunks queued since Init, in the order of the QueueChunk calls; all of
    them once no chunk is left. *)
Theorem C18_chunks_in_order : forall sr acts s, 0 < sr ->
  pl_run sr init_pl acts = Some s ->
  exists rest, stamped_chunks sr (queued_from false acts) (fed s ++ rest) /\
    (chunks s = [] -> rest = []).
Proof. exact chunks_stamped. Qed.
Print Assumptions C18_chunks_in_order.

Theorem C18_combine_samples : forall low high,
  length (combine_samples low high) = Nat.min (length low) (length high) /\
  forall i l h, nth_error low i = Some l -> nth_error high i = Some h ->
    nth_error (combine_samples low high) i = Some (l, h).
Proof.
  induction low as [|x low IH]; intros [|y high]; cbn [combine_samples length Nat.min].
  - split; [reflexivity|]. intros [|i]; discriminate.
  - split; [reflexivity|]. intros [|i]; discriminate.
  - split; [reflexivity|]. intros [|i]; discriminate.
  - destruct (IH high) as [H1 H2]. split; [rewrite H1; reflexivity|].
    intros [|i] l h Hl Hh; cbn [nth_error] in *; [congruence|auto].
Qed.
Print Assumptions C18_combine_samples.

Definition w (k : N) : N * N := (k, k).
Example C18_nonvacuous : exists s,
  pl_run 44100 init_pl
    ([LQueue {| c_start := 0; c_samples := [w 9] |}; LInit; LRead; LQueue {| c_start := 1000; c_samples := [w 1; w 2; w 3] |}]
     ++ [LRead; LRead; LRead; LRead; LRead; LQueue {| c_start := 90000; c_samples := [w 4] |}; LRead; LRead; LRead; LRead; LRead])
    = Some s /\ fed s = [(w 1, 1000); (w 2, 23675); (w 3, 46351); (w 4, 90000)] /\ chunks s = [].
Proof. eexists. split; [vm_compute; reflexivity|]. split; reflexivity. Qed.

(* ================= C19 ================= *)
(** If the timestamps in the feed never decrease, neither do those of the output. *)
Theorem C19_output_ordered_partial : forall sr b calls q out q' b', 0 < sr ->
  nondecreasing (map snd q) ->
  play sr b calls q = Some (out, q', b') ->
  nondecreasing (map snd (played out)).
Proof.
  intros sr b calls q out q' b' Hs Hq H. apply nondec_sorted. apply nondec_sorted in Hq.
  destruct (play_auto sr _ Hs _ _ _ _ _ H) as [HA _]. exact (proj2 (auto_sorted _ _ _ _ _ HA) Hq).
Qed.
Print Assumptions C19_output_ordered_partial.

(** In particular when the chunk messages of the stream arrive in the order in which they
    were created. *)
Theorem C19_in_order_arrival_partial : forall start size sr fills acts s b calls out q' b', 0 < sr -> 0 < size ->
  Forall (fun f => zlen (snd (fst f)) = size /\ zlen (snd f) = size) fills ->
  pl_run sr init_pl acts = Some s ->
  queued_from false acts = map (fun m => request_chunk (fst m)) (stream_music start size sr 0 fills) ->
  play sr b calls (fed s) = Some (out, q', b') ->
  nondecreasing (map snd (played out)).
Proof.
  intros start size sr fills acts s b calls out q' b' Hs Hz Hf Hr HQ H.
  eapply C19_output_ordered_partial; [exact Hs| |exact H].
  destruct (chunks_stamped sr acts s Hs Hr) as (rest & Hst & _). rewrite HQ in Hst.
  assert (HT : forall i x, nth_error (fed s ++ rest) i = Some x -> snd x = scheduled start size sr (0 * size + Z.of_nat i)).
  { eapply stamped_scheduled; [exact Hs|exact Hz|exact Hst|lia|].
    intros i c Hc. rewrite nth_error_map in Hc. destruct (nth_error (stream_music start size sr 0 fills) i) as [m|] eqn:Em; [|discriminate].
    cbn in Hc. injection Hc as <-. destruct (stream_music_nth _ _ _ _ _ _ _ Em) as ([[j low] high] & Hfi & ->).
    unfold tick, request_chunk. cbn [fst q_start c_start c_samples q_low q_high].
    rewrite chunk_time_div by lia. split; [reflexivity|].
    rewrite Forall_forall in Hf. pose proof (Hf _ (nth_error_In _ _ Hfi)) as [H1 H2]. cbn [fst snd] in *.
    unfold zlen in *. rewrite combine_samples_length; lia. }
  clear - HT Hs Hz. apply nondec_sorted.
  assert (Hgen : forall l base, (forall i x, nth_error l i = Some x -> snd x = scheduled start size sr (base + Z.of_nat i)) -> 0 <= base ->
            Sorted.StronglySorted Z.le (map snd (l : list tsample))).
  { induction l as [|x l IH]; intros base Hl Hb; cbn [map]; constructor.
    - apply (IH (base + 1)); [|lia]. intros i y Hy. rewrite (Hl (S i) y Hy). f_equal. lia.
    - rewrite Forall_map, Forall_forall. intros y Hy. apply In_nth_error in Hy. destruct Hy as [i Hi].
      rewrite (Hl 0%nat x eq_refl), (Hl (S i) y Hi). apply sched_mono; [exact Hs|exact Hz|lia]. }
  apply (Hgen (fed s) 0); [|lia]. intros i x Hx. apply (HT i x).
  rewrite nth_error_app1; [exact Hx|]. apply nth_error_Some. congruence.
Qed.
Print Assumptions C19_in_order_arrival_partial.

(** Chunks that arrive in the other order are played in the other order. *)
Theorem C19_reordered_refuted : exists acts s out q' b',
  (* two chunks of the stream, two samples each, arriving swapped *)
  queued_from false acts =
    [ {| c_start := 2000000; c_samples := [w 3; w 4] |}; {| c_start := 0; c_samples := [w 1; w 2] |} ] /\
  pl_run 1000 init_pl acts = Some s /\
  play 1000 false [(2000000, 3%nat)] (fed s) = Some (out, q', b') /\
  map snd (played out) = [2000000; 3000000; 0] /\ ~ nondecreasing (map snd (played out)).
Proof.
  exists ([LInit; LQueue {| c_start := 2000000; c_samples := [w 3; w 4] |}; LQueue {| c_start := 0; c_samples := [w 1; w 2] |}]
          ++ [LRead; LRead; LRead; LRead; LRead; LRead; LRead; LRead; LRead; LRead]).
  eexists. eexists. eexists. eexists. split; [reflexivity|]. split; [vm_compute; reflexivity|].
  split; [vm_compute; reflexivity|]. split; [reflexivity|]. cbn. lia.
Qed.
Print Assumptions C19_reordered_refuted.

Example C19_nonvacuous : exists out q',
  play 1000 true [(2000000, 2%nat); (4000000, 1%nat)] [(w 1, 0); (w 2, 1000000); (w 3, 2000000); (w 4, 3000000); (w 5, 4000000); (w 6, 5000000)]
  = Some (out, q', false) /\ map snd (played out) = [2000000; 3000000; 4000000].
Proof. eexists. eexists. split; [vm_compute; reflexivity|reflexivity]. Qed.

(* ================= C20 ================= *)
(** Over any number of Stream calls: every buffer is filled completely, every slot is
    silence or a queued sample that is not NaN, each queued sample is output at most once
    and in feed order, and the slot after a sample holds its successor in the feed unless
    that successor is a NaN. *)
Theorem C20_consecutive : forall sr b calls feed out q' b', 0 < sr ->
  play sr b calls feed = Some (out, q', b') ->
  length out = list_sum (map snd calls) /\
  exists pos, outputs feed pos out /\ increasing 0 pos /\ consecutive feed pos.
Proof.
  intros sr b calls feed out q' b' Hs H. destruct (play_auto sr _ Hs _ _ _ _ _ H) as [HA HL].
  split; [exact HL|]. destruct (auto_positions _ _ _ _ _ HA feed 0%nat eq_refl) as (pos & H1 & H2 & H3 & _).
  exists pos. auto.
Qed.
Print Assumptions C20_consecutive.

(** Once synchronised ([b = false]) the output begins with the very next queued sample. *)
Theorem C20_next_sample : forall sr now k x q out q' b' now', 0 < sr -> (0 < k)%nat -> ts_nan x = false ->
  stream sr false now k (x :: q) = Done out q' b' now' -> exists out', out = Some x :: out'.
Proof.
  intros sr now k x q out q' b' now' Hs Hk Hx H. unfold stream in H.
  destruct k as [|k]; [lia|]. 
  replace (2 * length (x :: q) + 2 + S k)%nat with (S (2 * length (x :: q) + 2 + k)) in H by lia.
  cbn [stream_loop stream_direct] in H. rewrite Hx in H.
  destruct (stream_direct k q) as [p|]; [|discriminate]. cbn [p_out p_q p_drained] in H.
  destruct (p_drained p).
  - destruct (p_q p); [discriminate|]. destruct (stream_loop _ _ _ _ _ _); cbn [prepend app] in H; try discriminate.
    injection H as <-. eexists; reflexivity.
  - destruct (stream_loop _ _ _ _ _ _); cbn [prepend app] in H; try discriminate.
    injection H as <-. eexists; reflexivity.
Qed.
Print Assumptions C20_next_sample.

(** A call either fills its buffer or waits for further samples; samples arriving later do
    not change what it outputs. *)
Theorem C20_total : forall sr b now k q, 0 < sr -> stream sr b now k q <> NoFuel.
Proof. exact stream_total. Qed.
Print Assumptions C20_total.

Theorem C20_later_input : forall sr b now k q r out q' b' now',
  stream sr b now k q = Done out q' b' now' -> stream sr b now k (q ++ r) = Done out (q' ++ r) b' now'.
Proof. exact stream_more. Qed.
Print Assumptions C20_later_input.

Definition nan_ts (t : Z) : tsample := (nan_sample, t).
Example C20_nonvacuous : exists out,
  play 1000 false [(0, 3%nat); (3000000, 2%nat); (9000000, 2%nat)]
    [(w 1, 0); (w 2, 1000000); nan_ts 2000000; nan_ts 3000000; (w 3, 4000000); (w 4, 5000000); (w 5, 9000000); (w 6, 10000000); nan_ts 11000000]
  = Some (out, [nan_ts 11000000], false) /\
  out = [Some (w 1, 0); Some (w 2, 1000000); None; None; None; Some (w 5, 9000000); Some (w 6, 10000000)].
Proof. eexists. split; [vm_compute; reflexivity|reflexivity]. Qed.

(* ================= C21 ================= *)
(** If a Stream call made in synchronising mode at time [now] starts to play, its first
    slot holds the first queued sample that is neither a NaN nor overdue; if it starts with
    silence, the first such sample... is less than a buffer overdue. *)
Theorem C21_synchronises : forall sr now k q out q' b' now', 0 < sr -> (0 < k)%nat ->
  stream sr true now k q = Done out q' b' now' ->
  exists pre x rest, q = pre ++ x :: rest /\
    Forall (fun z => ts_nan z = true \/ snd z < now) pre /\ ts_nan x = false /\
    ((exists out', out = Some x :: out' /\ now <= snd x) \/
     (exists out', out = None :: out' /\ now < snd x + samples_duration sr (Z.of_nat k))).
Proof.
  intros sr now k q out q' b' now' Hs Hk H.
  destruct (stream_auto _ _ _ _ _ _ _ _ _ Hs H) as [_ HL]. destruct out as [|s out]; [cbn in HL; lia|].
  unfold stream in H. destruct (first_slot _ sr Hs true now k q _ _ _ _ _ ltac:(discriminate) H) as (pre & x & rest & Hq & Hp & Hx & Hs').
  exists pre, x, rest. repeat split; auto.
  destruct s as [y|]; [left|right]; exists out; [destruct Hs' as [-> Hn]; auto|auto].
Qed.
Print Assumptions C21_synchronises.

Example C21_nonvacuous : exists out,
  stream 1000 true 6000000 2 [nan_ts 0; (w 1, 2000000); nan_ts 3000000; (w 2, 4000000); (w 3, 6500000); (w 4, 7500000); (w 5, 8500000)]
   = Done out [(w 5, 8500000)] false 8000000 /\ out = [Some (w 3, 6500000); Some (w 4, 7500000)].
Proof. eexists. split; [vm_compute; reflexivity|reflexivity]. Qed.

(* ================= C22 ================= *)
(** Refuted for every song: whatever the calls, nothing of the first buffer length of a
    song is ever played; all played samples are at least one buffer after its first
    sample. *)
Theorem C22_first_buffer_lost_refuted : forall sr k calls pre x rest out q' b', 0 < sr -> (0 < k)%nat ->
  Forall (fun c => snd c = k) calls ->
  Forall (fun z => ts_nan z = true) pre -> ts_nan x = false ->
  nondecreasing (map snd (x :: rest)) ->
  play sr true calls (pre ++ x :: rest) = Some (out, q', b') ->
  Forall (fun z => snd x + Z.of_nat k * 1000000000 / sr <= snd z) (played out).
Proof.
  intros sr k calls pre x rest out q' b' Hs Hk Hc Hpre Hx Hsort H.
  rewrite <- dur_div by lia. apply nondec_sorted in Hsort.
  eapply first_buffer_lost; eassumption.
Qed.
Print Assumptions C22_first_buffer_lost_refuted.

(** What is lost is at most two buffers and one sample period: a player whose previous call
    (one buffer earlier) was still silent because the first sample x was less than a buffer
    overdue starts, if it starts now, with a sample due before x + 2 buffers + P, where P
    bounds the distance of successive timestamps. *)
Theorem C22_loss_bounded_partial : forall sr now k x rest y out q' b' now' P, 0 < sr -> 0 <= P -> (0 < k)%nat ->
  Forall (fun z => ts_nan z = false) (x :: rest) -> gaps_at_most P (x :: rest) ->
  now - Z.of_nat k * 1000000000 / sr < snd x + Z.of_nat k * 1000000000 / sr ->
  stream sr true now k (x :: rest) = Done (Some y :: out) q' b' now' ->
  snd y = snd x \/ snd y < snd x + 2 * (Z.of_nat k * 1000000000 / sr) + P.
Proof.
  intros sr now k x rest y out q' b' now' P Hs HP Hk Hn Hg Hnow H2.
  destruct (loss_bounded _ _ _ _ _ _ _ _ _ _ _ Hs HP Hn Hg H2) as [E|E]; [left; exact E|right; lia].
Qed.
Print Assumptions C22_loss_bounded_partial.

(** An early player: ten samples queued long before they are due at 10..19 ms, buffers of
    2 samples (2 ms), calls at 8, 10, 12, ... ms.  The samples due at 10 and 11 ms are lost. *)
Definition song10 : list tsample := map (fun i => (w (Z.to_N i), (i + 10) * 1000000)) [0;1;2;3;4;5;6;7;8;9].
Example C22_nonvacuous : exists q' b',
  play 1000 true [(8000000, 2%nat); (10000000, 2%nat); (12000000, 2%nat); (14000000, 2%nat)] song10 =
  Some ([None; None; None; None; Some (w 2, 12000000); Some (w 3, 13000000); Some (w 4, 14000000); Some (w 5, 15000000)], q', b')
  /\ gaps_at_most 1000000 song10 /\ nondecreasing (map snd song10).
Proof. eexists. eexists. split; [vm_compute; reflexivity|]. split; cbn; lia. Qed.

(* ================= C23 ================= *)
(** The timestamp of the m-th sample a player outputs after it synchronised at time [now]
    differs from the time of its slot, now + m sample periods, by at most a sample period
    plus 1 ns, and 1 ns per chunk boundary passed since. *)
Theorem C23_playback_error : forall start size sr c q now k calls ys q' b',
  0 < sr -> 0 < size -> 0 <= c -> (0 < k)%nat ->
  Forall (fun x => ts_nan x = false) q ->
  (forall i x, nth_error q i = Some x -> snd x = scheduled start size sr (c + Z.of_nat i)) ->
  play sr true ((now, k) :: calls) q = Some (map Some ys, q', b') ->
  exists a, forall m y, nth_error ys m = Some y ->
    nth_error q (a + m) = Some y /\
    - ((c + Z.of_nat (a + m)) / size - (c + Z.of_nat a) / size)
      <= snd y - (now + Z.of_nat m * 1000000000 / sr) <= 1000000000 / sr + 1.
Proof. exact sync_error. Qed.
Print Assumptions C23_playback_error.

(** Two players of one stream, each holding its own part of the feed (starting at sample
    index cA, cB), synchronising at nowA, nowB.  For any two slots whose times are at most
    [d] apart, the samples in them carry timestamps at most d + one sample period + 2 ns +
    1 ns per chunk played since synchronisation apart. *)
Theorem C23_players_agree : forall start size sr cA qA nowA kA callsA ysA qA' bA' cB qB nowB kB callsB ysB qB' bB' mA mB yA yB d,
  0 < sr -> 0 < size -> 0 <= cA -> 0 <= cB -> (0 < kA)%nat -> (0 < kB)%nat ->
  Forall (fun x => ts_nan x = false) qA -> Forall (fun x => ts_nan x = false) qB ->
  (forall i x, nth_error qA i = Some x -> snd x = scheduled start size sr (cA + Z.of_nat i)) ->
  (forall i x, nth_error qB i = Some x -> snd x = scheduled start size sr (cB + Z.of_nat i)) ->
  play sr true ((nowA, kA) :: callsA) qA = Some (map Some ysA, qA', bA') ->
  play sr true ((nowB, kB) :: callsB) qB = Some (map Some ysB, qB', bB') ->
  nth_error ysA mA = Some yA -> nth_error ysB mB = Some yB ->
  Z.abs ((nowA + Z.of_nat mA * 1000000000 / sr) - (nowB + Z.of_nat mB * 1000000000 / sr)) <= d ->
  Z.abs (snd yA - snd yB) <= d + 1000000000 / sr + 2 + Z.max (Z.of_nat mA) (Z.of_nat mB) / size.
Proof.
  intros start size sr cA qA nowA kA callsA ysA qA' bA' cB qB nowB kB callsB ysB qB' bB' mA mB yA yB d
    Hs Hz HcA HcB HkA HkB HnA HnB HTA HTB HA HB HyA HyB Hd.
  destruct (sync_error start size sr cA qA nowA kA callsA ysA qA' bA' Hs Hz HcA HkA HnA HTA HA) as [aA EA].
  destruct (sync_error start size sr cB qB nowB kB callsB ysB qB' bB' Hs Hz HcB HkB HnB HTB HB) as [aB EB].
  destruct (EA mA yA HyA) as [_ [LA UA]]. destruct (EB mB yB HyB) as [_ [LB UB]].
  pose proof (div_add_le (cA + Z.of_nat aA) (Z.of_nat mA) size Hz ltac:(lia) ltac:(lia)) as DA.
  pose proof (div_add_le (cB + Z.of_nat aB) (Z.of_nat mB) size Hz ltac:(lia) ltac:(lia)) as DB.
  replace (cA + Z.of_nat (aA + mA)) with (cA + Z.of_nat aA + Z.of_nat mA) in LA by lia.
  replace (cB + Z.of_nat (aB + mB)) with (cB + Z.of_nat aB + Z.of_nat mB) in LB by lia.
  assert (Z.of_nat mA / size <= Z.max (Z.of_nat mA) (Z.of_nat mB) / size) by (apply Z.div_le_mono; lia).
  assert (Z.of_nat mB / size <= Z.max (Z.of_nat mA) (Z.of_nat mB) / size) by (apply Z.div_le_mono; lia).
  lia.
Qed.
Print Assumptions C23_players_agree.

Definition feed_part (start size sr : Z) (c : Z) (n : nat) : list tsample :=
  map (fun i => (w (Z.to_N (c + Z.of_nat i)), scheduled start size sr (c + Z.of_nat i))) (seq 0 n).
Lemma feed_part_sched start size sr c n i x : nth_error (feed_part start size sr c n) i = Some x ->
  snd x = scheduled start size sr (c + Z.of_nat i).
Proof.
  unfold feed_part. rewrite nth_error_map. destruct (nth_error (seq 0 n) i) as [j|] eqn:E; [|discriminate].
  cbn. intros H; injection H as <-. cbn [snd]. f_equal. f_equal. f_equal.
  assert (Hlt : (i < length (seq 0 n))%nat) by (apply nth_error_Some; congruence).
  apply nth_error_nth with (d := 0%nat) in E. rewrite seq_length in Hlt. rewrite seq_nth in E by exact Hlt. lia.
Qed.
(** Two players at 44100 Hz, chunks of 5 samples, synchronising at different moments. *)
Example C23_nonvacuous : exists ysA ysB qA' qB',
  play 44100 true [(100000, 2%nat); (145351, 3%nat)] (feed_part 0 5 44100 0 30) = Some (map Some ysA, qA', false) /\
  play 44100 true [(200007, 3%nat)] (feed_part 0 5 44100 3 30) = Some (map Some ysB, qB', false) /\
  map snd ysA = [113378; 136053; 158729; 181405; 204080] /\ map snd ysB = [204080; 226756; 249431].
Proof.
  exists [(w 5, 113378); (w 6, 136053); (w 7, 158729); (w 8, 181405); (w 9, 204080)],
         [(w 9, 204080); (w 10, 226756); (w 11, 249431)].
  eexists. eexists. split; [vm_compute; reflexivity|]. split; [vm_compute; reflexivity|]. split; reflexivity.
Qed.

(* ================= C24 ================= *)
(** The i-th chunk message: start time, id, size and contiguous first-sample index, for
    whatever Fill returned in any interleaving with the streaming loop; the ChunkInfo
    message agrees with it. *)
Theorem C24_chunk_messages : forall c acts s start size sr, 0 < sr -> 0 <= size < 2 ^ 64 ->
  crun (init_chan c) acts = Some s ->
  Forall (fun f => zlen (snd (fst f)) = size) (returned s) ->
  length (stream_music start size sr 0 (returned s)) = length (returned s) /\
  forall i m, nth_error (stream_music start size sr 0 (returned s)) i = Some m ->
    q_start (fst m) = start + Z.of_nat i * (size * 1000000000 / sr) /\
    q_id (fst m) = Z.of_nat i /\
    q_first (fst m) = Z.of_nat i * size /\
    zlen (q_low (fst m)) = size /\ zlen (q_high (fst m)) = size /\
    i_start (snd m) = q_start (fst m) /\ i_first (snd m) = q_first (fst m) /\ i_size (snd m) = size.
Proof.
  intros c acts s start size sr Hs Hz H Hsz. pose proof (inv_run acts _ s (inv_init c) H) as HI.
  pose proof (i_exact s HI) as Hx. split; [apply stream_music_length|].
  intros i m Hm. destruct (stream_music_nth _ _ _ _ _ _ _ Hm) as (f & Hf & ->).
  destruct (indices_nth size _ 0 Hx Hsz i f Hf) as [H1 H2].
  rewrite Forall_forall in Hsz. pose proof (Hsz _ (nth_error_In _ _ Hf)) as H3.
  destruct f as [[j low] high]. cbn [fst snd] in *. unfold tick. cbn [fst snd q_start q_id q_first q_low q_high i_start i_first i_size].
  rewrite chunk_time_div by lia. unfold to_uint64. rewrite Z.mod_small by lia.
  repeat split; auto; lia.
Qed.
Print Assumptions C24_chunk_messages.

(** Sample timestamps never go backwards, across chunk boundaries included, and the
    timestamps the players attach are exactly the scheduled ones. *)
Theorem C24_monotone : forall start size sr i j, 0 < sr -> 0 < size -> 0 <= i <= j ->
  scheduled start size sr i <= scheduled start size sr j.
Proof. exact sched_mono. Qed.
Print Assumptions C24_monotone.

Theorem C24_players_use_schedule : forall start size sr fills f, 0 < sr -> 0 < size ->
  Forall (fun r => zlen (snd (fst r)) = size /\ zlen (snd r) = size) fills ->
  stamped_chunks sr (map (fun m => request_chunk (fst m)) (stream_music start size sr 0 fills)) f ->
  forall i x, nth_error f i = Some x -> snd x = scheduled start size sr (Z.of_nat i).
Proof.
  intros start size sr fills f Hs Hz Hf Hst i x Hx.
  pose proof (stamped_scheduled sr start size _ f Hs Hz Hst 0 ltac:(lia)) as HT. rewrite Z.mul_0_l in HT.
  change (Z.of_nat i) with (0 + Z.of_nat i). apply HT; [|exact Hx].
  intros j c Hc. rewrite nth_error_map in Hc. destruct (nth_error (stream_music start size sr 0 fills) j) as [m|] eqn:Em; [|discriminate].
  cbn in Hc. injection Hc as <-. destruct (stream_music_nth _ _ _ _ _ _ _ Em) as ([[k low] high] & Hfi & ->).
  unfold tick, request_chunk. cbn [fst q_start c_start c_samples q_low q_high].
  rewrite chunk_time_div by lia. split; [reflexivity|].
  rewrite Forall_forall in Hf. pose proof (Hf _ (nth_error_In _ _ Hfi)) as [H1 H2]. cbn [fst snd] in *.
  unfold zlen in *. rewrite combine_samples_length; lia.
Qed.
Print Assumptions C24_players_use_schedule.

(** Chunk c starts before the ideal time of its first sample, by less than c nanoseconds
    (by nothing if a chunk lasts a whole number of nanoseconds):
    ideal = start + c * size * 10^9 / sr as a fraction. *)
Theorem C24_drift : forall start size sr c, 0 < sr -> 0 <= size -> 0 <= c ->
  let chunk_start := start + c * stream_chunk_time size sr in
  0 <= sr * (start - chunk_start) + c * size * 1000000000 <= c * (sr - 1) /\
  ((size * 1000000000) mod sr = 0 -> sr * (chunk_start - start) = c * size * 1000000000).
Proof.
  intros start size sr c Hs Hz Hc. cbn zeta. rewrite chunk_time_div by lia.
  pose proof (Z.div_mod (size * 1000000000) sr ltac:(lia)) as E.
  pose proof (Z.mod_pos_bound (size * 1000000000) sr Hs) as B.
  set (ct := size * 1000000000 / sr) in *. set (D := (size * 1000000000) mod sr) in *.
  assert (Heq : sr * (start - (start + c * ct)) + c * size * 1000000000 = c * D).
  { replace (c * size * 1000000000) with (c * (size * 1000000000)) by ring. rewrite E. ring. }
  split; [rewrite Heq; nia|]. intros H0.
  replace (c * size * 1000000000) with (c * (size * 1000000000)) by ring. rewrite E, H0. ring.
Qed.
Print Assumptions C24_drift.

Example C24_nonvacuous :
  map (fun m => (q_start (fst m), q_first (fst m))) (stream_music 500 3 44100 0 [(0, [1%N;2%N;3%N], [4%N;5%N;6%N]); (3, [1%N;2%N;3%N], [4%N;5%N;6%N])])
  = [(500, 0); (68527, 3)] /\
  (exists s, crun (init_chan 2) [CPush (1%N, 2%N); CSendLow; CSendHigh; CIncr; CFill 1; CRecvLow; CRecvHigh; CReturn] = Some s /\
    returned s = [(0, [1%N], [2%N])]).
Proof. split; [vm_compute; reflexivity|]. eexists. split; [vm_compute; reflexivity|reflexivity]. Qed.
