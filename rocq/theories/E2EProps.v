(** C88: from the playlist of the server to the sound card of a player. *)
From Verif Require Import GoBase GoBaseFacts PlaylistModel PlaylistSpec PlaylistProps ChanModel ChanSpec ChanProofs ChanProps QueueModel PlayerModel PlayerSpec
  PlayerProofs PlayerProps PcmModel PcmProofs PcmProps GoFloat GoFloatFacts PcmVolumeProps ScheduleModel ScheduleProofs WireModel WireSpec WireProofs WireProps
  E2EModel E2ESpec E2EProofs.
Local Open Scope Z_scope.

(** A player: it is fed by a connection over which the server sent [msgs], cut anywhere and
    received in any pieces; [pacts] is any history of its chunk queue and [calls] any
    sequence of Stream calls. *)

(** Whatever the playlist went through, however the messages were reordered or lost, and
    whenever the player reads its clock: every slot it outputs is silence or a sample of
    the stream the playlist produced, with the time at which that sample is due. *)
Theorem C88_only_the_stream : forall decode nan_break songs acts ps es c cacts cs start size sr
    w msgs frames pieces pacts p b calls out q' b',
  0 < sr -> 0 < size -> zlib_inverse w -> foreign w [] = None ->
  (* the server: playlist, Fill and streaming loop *)
  prun decode nan_break (new_playlist songs) acts = Some (ps, es) ->
  crun (init_chan c) cacts = Some cs -> is_prefix (hist cs) (stream_of es) -> Forall (fills_chunks size) cacts ->
  (* the connection: the chunk messages on it are messages of the streaming loop *)
  Forall (sendable w) msgs -> Forall2 (frame_of w) msgs frames -> is_prefix (concat pieces) (concat frames) ->
  (forall m, In m (chunk_messages msgs) ->
     In m (map (fun t => queue_message (fst t)) (stream_music start size sr 0 (returned cs)))) ->
  (* the player: it only queues what it received *)
  (forall ch, In ch (handled pacts) -> In ch (chunks_received (fst (handle_connection w pieces)))) ->
  pl_run sr init_pl pacts = Some p -> play sr b calls (fed p) = Some (out, q', b') ->
  length out = list_sum (map snd calls) /\
  Forall (fun o => match o with
                   | None => True
                   | Some x => exists n, stream_sample (stream_of es) start size sr n x
                   end) out.
Proof.
  intros decode nb songs acts ps es c cacts cs start size sr w msgs frames pieces pacts p b calls out q' b'
    Hs Hz Hw Hfo _ Hcr Hh Hfc Hsm Hfr Hpc Hms Hq Hpl Hplay.
  destruct (C13_fill_faithful c cacts cs Hcr) as [Hpre _].
  assert (Hr : Forall (sized size) (returned cs)).
  { eapply sized_run; [exact Hfc| | |exact Hcr]; cbn; [discriminate|constructor]. }
  assert (HP : is_prefix (handed_out (returned cs)) (stream_of es)).
  { destruct Hpre as [r1 E1], Hh as [r2 E2]. rewrite E2, E1, <- app_assoc. eexists. reflexivity. }
  destruct (received_prefix w msgs frames pieces Hw Hfo Hsm Hfr Hpc) as [k Hk].
  destruct (chunks_stamped sr pacts p Hs Hpl) as (rest & Hst & _).
  destruct (C20_consecutive sr b calls (fed p) out q' b' Hs Hplay) as [HL (pos & Ho & _ & _)].
  split; [exact HL|]. clear - Hs Hz Ho Hst Hq Hk Hms HP Hr.
  induction Ho as [|i o pos out Hio Ho IH]; constructor; [|exact IH]. destruct i as [i|], o as [x|]; try exact I; try contradiction.
  destruct Hio as [Hi Hn].
  assert (Hi' : nth_error (fed p ++ rest) i = Some x) by (rewrite nth_error_app1; [exact Hi|apply nth_error_Some; congruence]).
  destruct (stamped_in _ _ _ Hst _ _ Hi') as (ch & kk & Hch & Hstamp).
  apply queued_in, Hq in Hch. rewrite Hk in Hch. cbn [fst] in Hch. rewrite received_filter in Hch.
  assert (Hin : In ch (map (fun m => request_chunk (fst m)) (stream_music start size sr 0 (returned cs)))).
  { rewrite <- received_sent. unfold chunks_received in *. apply in_flat_map in Hch as (m & Hm & Hce).
    apply in_flat_map. exists m. split; [|exact Hce]. apply Hms. unfold chunk_messages in *.
    apply filter_In in Hm as [Hm Hm2]. apply filter_In. split; [|exact Hm2].
    rewrite <- (firstn_skipn k msgs). apply in_or_app. left; exact Hm. }
  destruct (chunk_samples start size sr _ _ _ _ _ Hs Hz Hr HP Hin Hstamp) as (n & H1 & H2).
  exists n. repeat split; auto.
Qed.
Print Assumptions C88_only_the_stream.

(** If moreover the chunk messages from number j on went over the connection in the order
    in which they were made and the player handled them in the order of their arrival, then
    the numbers of the samples it outputs increase, and after sample n comes sample n+1
    unless sample n+1 of the stream is a NaN: within a song nothing is lost, doubled or
    reordered between the playlist and the sound card. *)
Theorem C88_in_order_gapless : forall decode nan_break songs acts ps es c cacts cs start size sr
    w msgs frames pieces pacts p b calls out q' b' j,
  0 < sr -> 0 < size -> zlib_inverse w -> foreign w [] = None ->
  prun decode nan_break (new_playlist songs) acts = Some (ps, es) ->
  crun (init_chan c) cacts = Some cs -> is_prefix (hist cs) (stream_of es) -> Forall (fills_chunks size) cacts ->
  Forall (sendable w) msgs -> Forall2 (frame_of w) msgs frames -> is_prefix (concat pieces) (concat frames) ->
  is_prefix (chunk_messages msgs)
    (skipn j (map (fun t => queue_message (fst t)) (stream_music start size sr 0 (returned cs)))) ->
  is_prefix (handled pacts) (chunks_received (fst (handle_connection w pieces))) ->
  pl_run sr init_pl pacts = Some p -> play sr b calls (fed p) = Some (out, q', b') ->
  exists pos, plays (stream_of es) start size sr pos out /\ increasing (j * Z.to_nat size) pos /\ gapless (stream_of es) pos.
Proof.
  intros decode nb songs acts ps es c cacts cs start size sr w msgs frames pieces pacts p b calls out q' b' j
    Hs Hz Hw Hfo _ Hcr Hh Hfc Hsm Hfr Hpc Hms Hq Hpl Hplay.
  destruct (C13_fill_faithful c cacts cs Hcr) as [Hpre _].
  assert (Hr : Forall (sized size) (returned cs)).
  { eapply sized_run; [exact Hfc| | |exact Hcr]; cbn; [discriminate|constructor]. }
  assert (HP : is_prefix (handed_out (returned cs)) (stream_of es)).
  { destruct Hpre as [r1 E1], Hh as [r2 E2]. rewrite E2, E1, <- app_assoc. eexists. reflexivity. }
  destruct (received_prefix w msgs frames pieces Hw Hfo Hsm Hfr Hpc) as [k Hk].
  destruct (chunks_stamped sr pacts p Hs Hpl) as (rest & Hst & _).
  destruct (queued_handled pacts false) as [d Hd].
  set (all := map (fun m => request_chunk (fst m)) (stream_music start size sr 0 (returned cs))).
  assert (Hcs : is_prefix (queued_from false pacts) (skipn (d + j) all)).
  { rewrite Hd. rewrite Hk in Hq. cbn [fst] in Hq.
    assert (Q : is_prefix (chunks_received (firstn k msgs)) (skipn j all)).
    { destruct Hms as [r Hms].
      assert (Ea : skipn j all = chunks_received (skipn j (map (fun t => queue_message (fst t)) (stream_music start size sr 0 (returned cs))))).
      { unfold all. rewrite !skipn_map. symmetry. apply received_sent. }
      rewrite Ea, Hms, received_app, <- received_filter. rewrite <- (firstn_skipn k msgs) at 2. rewrite received_app, <- app_assoc. eexists. reflexivity. }
    destruct Hq as [r1 E1], Q as [r2 E2]. rewrite E1, <- app_assoc in E2.
    assert (S : skipn (d + j) all = skipn d (skipn j all)) by (rewrite skipn_skipn; reflexivity).
    rewrite S, E2, skipn_app. eexists. reflexivity. }
  pose proof (feed_consecutive start size sr _ _ (d + j) _ _ Hs Hz Hr HP Hcs Hst) as HF.
  assert (HF' : forall i x, nth_error (fed p) i = Some x ->
    nth_error (stream_of es) ((d + j) * Z.to_nat size + i) = Some (fst x) /\
    snd x = scheduled start size sr (Z.of_nat ((d + j) * Z.to_nat size + i))).
  { intros i x Hx. apply HF. rewrite nth_error_app1; [exact Hx|apply nth_error_Some; congruence]. }
  clear HF. set (base := ((d + j) * Z.to_nat size)%nat) in *.
  destruct (C20_consecutive sr b calls (fed p) out q' b' Hs Hplay) as [HL (pos & Ho & Hinc & Hcons)].
  exists (map (shift base) pos). repeat split.
  - clear - Ho HF'. unfold plays. induction Ho as [|i o pos out Hio Ho IH]; cbn [map]; constructor; [|exact IH].
    destruct i as [i|], o as [x|]; cbn [shift]; auto. destruct Hio as [Hi Hn]. destruct (HF' _ _ Hi) as [F1 F2]. repeat split; auto.
  - apply (increasing_weaken _ (base + 0)%nat); [unfold base; nia|]. apply increasing_shift; exact Hinc.
  - clear - Hcons HF'. induction pos as [|[i|] pos IH]; cbn [map shift gapless]; auto.
    destruct pos as [|q pos]; cbn [map] in *; [exact I|]. cbn [consecutive] in Hcons. destruct Hcons as [Hc Hrest].
    split; [|apply IH; exact Hrest]. destruct Hc as [->|(x & Hx & Hn)].
    + left. cbn [shift]. f_equal. lia.
    + right. destruct (HF' _ _ Hx) as [F1 _]. exists (fst x). replace (S (base + i)) with (base + S i)%nat by lia. auto.
Qed.
Print Assumptions C88_in_order_gapless.

(** A silent slot stays silent whatever the volume. *)
Lemma silent vol : finite vol -> convert_sample (fmul 0 vol) = (0, 0).
Proof.
  intros Hv. destruct (fmul_spec 0%N vol) as [Np Sp]; [split; reflexivity|exact Hv|].
  assert (M0 : f_mag 0%N = 0) by reflexivity. rewrite M0, Z.mul_0_l in Sp.
  assert (E : f_scaled (fmul 0 vol) = 0).
  { rewrite Sp. change 0 with (0 * f_one) at 1. rewrite rnd_exact; [|apply f_one_pos|apply representable_small; lia].
    rewrite Z.min_l by (pose proof one_lt_max; pose proof f_one_pos; lia). unfold f_val. destruct (xorb _ _); reflexivity. }
  unfold convert_sample. rewrite Np, E. pose proof f_one_pos. cbn zeta.
  replace (0 <? - f_one) with false by lia. replace (f_one <? 0) with false by lia. reflexivity.
Qed.

(** The bytes written to the sound card for one buffer: four per slot, zero for silence,
    and otherwise the two channels of the sample scaled by the volume. *)
Theorem C88_bytes : forall sr b now k q out q' b' now' vol buf, 0 < sr ->
  PlayerModel.stream sr b now k q = Done out q' b' now' -> finite vol -> zlen buf = 4 * Z.of_nat k ->
  exists bytes, samples_to_buf fmul vol 0 (map slot_value out) buf = Ok bytes /\ zlen bytes = 4 * Z.of_nat k /\
  forall i o, nth_error out i = Some o ->
    firstn 4 (skipn (4 * i) bytes) =
    match o with
    | None => [0; 0; 0; 0]
    | Some ((l, r), _) => [fst (convert_sample (fmul l vol)); snd (convert_sample (fmul l vol));
                           fst (convert_sample (fmul r vol)); snd (convert_sample (fmul r vol))]
    end.
Proof.
  intros sr b now k q out q' b' now' vol buf Hs H Hv Hb.
  destruct (stream_auto _ _ _ _ _ _ _ _ _ Hs H) as [_ HL].
  destruct (C25_buffer fmul vol (map slot_value out) buf) as (bytes & E1 & E2 & E3).
  { unfold zlen in *. rewrite map_length, HL. exact Hb. }
  exists bytes. split; [exact E1|]. split; [congruence|]. intros i o Ho.
  destruct (E3 i (slot_value o)) as (B0 & B1 & B2 & B3); [rewrite nth_error_map, Ho; reflexivity|].
  assert (F : firstn 4 (skipn (4 * i) bytes) =
    [fst (convert_sample (fmul (fst (slot_value o)) vol)); snd (convert_sample (fmul (fst (slot_value o)) vol));
     fst (convert_sample (fmul (snd (slot_value o)) vol)); snd (convert_sample (fmul (snd (slot_value o)) vol))]).
  { assert (S : forall n (l : list Z) j, nth_error (skipn n l) j = nth_error l (n + j)).
    { clear. induction n as [|n IH]; intros l j; [reflexivity|]. destruct l; [destruct j; reflexivity|apply IH]. }
    rewrite <- (Nat.add_0_r (4 * i)) in B0. rewrite <- S in B0, B1, B2, B3.
    destruct (skipn (4 * i) bytes) as [|y0 [|y1 [|y2 [|y3 t]]]]; cbn [nth_error] in B0, B1, B2, B3; try discriminate. cbn [firstn]. congruence. }
  rewrite F. destruct o as [[[l r] t]|]; cbn [slot_value fst snd]; [reflexivity|].
  rewrite (silent vol Hv). cbn [fst snd]. reflexivity.
Qed.
Print Assumptions C88_bytes.

(** A complete run: a song of four samples with a break of one NaN, played twice, in chunks
    of two samples at 1000 samples per second; a ping and a volume message in between, one
    byte per read, the player ready only after the first chunk.  It plays samples 3, 6 and 7
    of the stream. *)
Definition x_decode (f : song) : option (list sample) := Some [(1%N, 2%N); (3%N, 4%N); (5%N, 6%N); (7%N, 8%N)].
Definition x_loop : list action := [ASetPlaying true; PNext; POpen; PCmp; PBlock; PCheck; PNext; POpen; PCmp; PBlock; PCheck].
Definition x_push (x : sample) : list caction := [CPush x; CSendLow; CSendHigh; CIncr].
Definition x_fill : list caction := [CFill 2; CRecvLow; CRecvHigh; CRecvLow; CRecvHigh; CReturn].
Fixpoint x_pairs (l : list sample) : list caction :=
  match l with a :: b :: r => x_push a ++ x_push b ++ x_fill ++ x_pairs r | _ => [] end.
Definition x_stream : list sample :=
  match prun x_decode 1 (new_playlist [sb]) x_loop with Some (_, es) => stream_of es | None => [] end.
Definition x_chunks : list caction := Eval vm_compute in x_pairs x_stream.
Definition x_returned : list (Z * list f64 * list f64) := Eval vm_compute in
  match crun (init_chan 2) x_chunks with Some cs => returned cs | None => [] end.
Definition x_sent : list message := Eval vm_compute in
  map (fun t => queue_message (fst t)) (stream_music 5000000 2 1000 0 x_returned).
Definition x_msgs : list message := Eval vm_compute in
  PingMessage :: firstn 2 x_sent ++ SetVolumeRequest 0 :: skipn 2 x_sent.
Definition x_frames : list (list N) := Eval vm_compute in
  map (fun m => match to_wire toy_env m with Some f => f | None => [] end) x_msgs.
Definition x_pieces : list (list N) := map (fun b => [b]) (concat x_frames).
Definition x_received : list chunk := Eval vm_compute in chunks_received (fst (handle_connection toy_env x_pieces)).
Definition x_player : list pl_act := Eval vm_compute in
  match x_received with
  | a :: b :: r => [LQueue a; LInit; LQueue b; LRead; LRead; LRead; LRead] ++ map LQueue r
  | _ => []
  end ++ repeat LRead 40.

Example C88_nonvacuous : exists ps es cs p out q' b',
  prun x_decode 1 (new_playlist [sb]) x_loop = Some (ps, es) /\
  crun (init_chan 2) x_chunks = Some cs /\ is_prefix (hist cs) (stream_of es) /\ Forall (fills_chunks 2) x_chunks /\
  Forall (sendable toy_env) x_msgs /\ Forall2 (frame_of toy_env) x_msgs x_frames /\ concat x_pieces = concat x_frames /\
  chunk_messages x_msgs = x_sent /\
  x_sent = map (fun t => queue_message (fst t)) (stream_music 5000000 2 1000 0 (returned cs)) /\
  handled x_player = chunks_received (fst (handle_connection toy_env x_pieces)) /\
  pl_run 1000 init_pl x_player = Some p /\
  play 1000 true [(0, 1%nat); (8000000, 1%nat); (9000000, 1%nat); (10000000, 1%nat); (11000000, 1%nat); (12000000, 1%nat)] (fed p) = Some (out, q', b') /\
  out = [None; Some ((7%N, 8%N), 8000000); None; None; Some ((3%N, 4%N), 11000000); Some ((5%N, 6%N), 12000000)] /\
  plays (stream_of es) 5000000 2 1000 [None; Some 3; None; None; Some 6; Some 7]%nat out.
Proof.
  do 7 eexists.
  split; [vm_compute; reflexivity|].
  split; [vm_compute; reflexivity|].
  split; [exists []; vm_compute; reflexivity|].
  split; [unfold x_chunks; repeat constructor|].
  split.
  { unfold x_msgs.
    repeat (apply Forall_cons; [split; [cbn; unfold in_int64, in_uint64, float_bits; repeat split; try lia; repeat constructor|split; [exact I|small_fits]]|]).
    constructor. }
  split; [unfold frame_of, x_msgs, x_frames; repeat (apply Forall2_cons; [vm_compute; reflexivity|]); constructor|].
  split; [vm_compute; reflexivity|].
  split; [vm_compute; reflexivity|].
  split; [vm_compute; reflexivity|].
  split; [vm_compute; reflexivity|].
  split; [vm_compute; reflexivity|].
  split; [vm_compute; reflexivity|].
  split; [reflexivity|].
  unfold plays, stream_sample. repeat constructor.
Qed.
