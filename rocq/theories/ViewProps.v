(** C100: the info display tells the truth about the stream. *)
From Verif Require Import GoBase GoBaseFacts GoUtf8 PlaylistModel PlaylistSpec PlaylistProofs PlaylistProps ViewTold PlayerSpec.
From Verif Require PlaylistLoopProofs.
From Verif Require Import WireModel InfoerModel InfoerSpec InfoerProofs InfoerRunProofs InfoerMoreProofs InfoerExec InfoerProps ViewSpec ViewProofs.
From Coq Require Import ZifyBool ZifyNat Permutation Sorted.
Local Open Scope Z_scope.

(** The stream of a playlist and its announcements: among the first [y] samples streamed
    since a song was announced, those not announced as paused are the first samples of the
    song, in order, and all others are silence. *)
Theorem C100_announcements_partial : forall decode nan_break l acts s es a i f n mid rest,
  0 < nan_break -> no_flag_race false acts ->
  prun decode nan_break (new_playlist l) acts = Some (s, es) ->
  es = a ++ ENewSong i f n :: mid ++ rest -> in_song mid ->
  exists content, decode f = Some content /\ n = zlen content /\
  forall y, 0 <= y <= zlen (stream_of mid) ->
    let k := y - paused_samples (announced_toggles es) i (i + y) in
    0 <= k <= zlen content /\
    with_silence (firstn (Z.to_nat k) content) (firstn (Z.to_nat y) (stream_of mid)) /\
    (0 < y -> if plays_at (announced_toggles es) (i + y - 1)
              then nth_error (stream_of mid) (Z.to_nat (y - 1)) = nth_error content (Z.to_nat (k - 1)) /\ 1 <= k
              else nth_error (stream_of mid) (Z.to_nat (y - 1)) = Some nan_sample).
Proof.
  intros decode nb l acts s es a i f n mid rest Hb Hn Hr -> Hin.
  destruct (playlist_told decode nb Hb l acts s _ Hn Hr) as [r Ht].
  pose proof (told_in_place decode _ _ Ht) as P. apply place_app in P. cbn [announced_in_place] in P.
  destruct P as [(Pi & content & Pd & Pn) _]. exists content. split; [exact Pd|]. split; [exact Pn|].
  destruct (told_prefix decode _ _ Ht (a ++ ENewSong i f n :: mid) rest) as [r0 Hm]; [rewrite <- app_assoc; reflexivity|].
  destruct (position_in_song decode a i f n content Pd mid rest r r0 Ht Hm Hin) as (left & _ & Hy & _). exact Hy.
Qed.
Print Assumptions C100_announcements_partial.

(** The sample shown, by any chunks of the server's schedule (C24) that include the chunk
    being played: at most one sample off the one due (scheduled, C24) at that time. *)
Theorem C100_sample : forall start size sr ms now n x,
  0 < sr <= 1000000000 -> 0 < size -> 0 <= n ->
  heard_chunks start size sr ms -> In (server_chunk start size sr (n / size)) (received_chunks ms) ->
  scheduled start size sr n <= now ->
  now < start + n / size * (size * 1000000000 / sr) + (n mod size + 1) * 1000000000 / sr ->
  right_sample sr now (received_chunks ms) x -> Z.abs (x - n) <= 1.
Proof. intros. eapply shown_sample; eassumption. Qed.
Print Assumptions C100_sample.

Lemma schedule_chunks start size sr m : 0 < sr -> 0 < size -> forall j0,
  let l := map (fun j => server_chunk start size sr (Z.of_nat j)) (seq j0 m) in
  continuous sr l /\ Forall (fun c => 0 < c_size c) l.
Proof.
  intros Hsr Hsz. induction m as [|m IH]; intros j0; cbn zeta; [split; [exact I|constructor]|].
  cbn [seq map]. destruct (IH (S j0)) as [C F]. cbn zeta in C, F. split; [|constructor; [exact Hsz|exact F]].
  destruct m as [|m]; [exact I|]. cbn [seq map] in *. cbn [continuous]. split; [|split; [|exact C]].
  - unfold chunk_end, server_chunk. cbn [c_startTime c_size]. unfold second. lia.
  - unfold server_chunk. cbn [c_startIndex c_size]. lia.
Qed.

(** The whole chain: a server streaming a playlist under any schedule (but the flag race of
    C11), its announcements handled by the info client in any order (chunk information in
    schedule order and not within a display's first two steps: C52), and a display at a time
    when the players play sample [n]: the sample shown is at most one off, and if it is in a
    song, the display tells the truth about it. *)
Theorem C100_display_partial : forall decode nan_break l acts st es
    sr start size j0 m tr now h0 h1 h2 h3 s d out n,
  0 < nan_break -> no_flag_race false acts ->
  prun decode nan_break (new_playlist l) acts = Some (st, es) ->
  0 < sr <= 1000000000 -> 0 < size -> 0 <= n ->
  let all := tr ++ PruneChunks now :: map Handled h0 ++ ReadSample :: map Handled h1 ++ ReadSong :: map Handled h2
                ++ PrunePauses :: map Handled h3 ++ [CountPauses] in
  client_run sr all s d out ->
  Forall msg_ok (messages all) -> StronglySorted Z.le (clocks all) -> quiet all ->
  (forall c, In c (clocks all) -> Forall (near sr c) (received_chunks (messages all))) ->
  received_chunks (messages tr) = map (fun j => server_chunk start size sr (Z.of_nat j)) (seq j0 m) ->
  Z.of_nat j0 <= n / size < Z.of_nat (j0 + m) ->
  scheduled start size sr n <= now ->
  now < start + n / size * (size * 1000000000 / sr) + (n mod size + 1) * 1000000000 / sr ->
  exists out0 i, out = out0 ++ [i] /\
  (0 <= i_sample i < 2 ^ 63 ->
   Z.abs (i_sample i - n) <= 1 /\
   forall idx f len content mid,
     while_playing es idx f len mid (i_sample i) -> decode f = Some content -> zlen content * 1000000000 < 2 ^ 63 ->
     heard_songs es (messages tr ++ h0 ++ h1) (i_sample i) ->
     heard_pauses es (messages tr ++ h0 ++ h1 ++ h2 ++ h3) (i_sample i) ->
     shows_the_truth sr i idx f content mid).
Proof.
  intros decode nb l acts st es sr start size j0 m tr now h0 h1 h2 h3 s d out n Hb Hnr Hr Hsr Hsz Hn all Hrun Hok Hck Hq Hnear Hch Hj Hs1 Hs2.
  destruct (schedule_chunks start size sr m ltac:(lia) Hsz j0) as [Hcont Hpos]. cbn zeta in Hcont, Hpos. rewrite <- Hch in Hcont, Hpos.
  destruct (C52_in_order_partial sr tr now h0 h1 h2 h3 s d out ltac:(lia) Hrun Hok Hck Hq Hnear Hcont Hpos) as (out0 & i & Eo & Hd).
  exists out0, i. split; [exact Eo|]. intros Hi. specialize (Hd Hi).
  destruct (playlist_told decode nb Hb l acts st _ Hnr Hr) as [r Ht].
  assert (E0 : received_chunks h0 = []).
  { apply (Hq tr now h0 (map Handled h1 ++ ReadSong :: map Handled h2 ++ PrunePauses :: map Handled h3 ++ [CountPauses])). reflexivity. }
  split.
  - pose proof Hd as (order & _ & _ & Rs & _).
    eapply (C100_sample start size sr (messages tr ++ h0) now n); try eassumption.
    + intros c Hc. rewrite rc_app, E0, app_nil_r, Hch in Hc. apply in_map_iff in Hc as (j & <- & _). exists (Z.of_nat j). split; [lia|reflexivity].
    + rewrite rc_app, E0, app_nil_r, Hch. apply in_map_iff. exists (Z.to_nat (n / size)). split; [f_equal; lia|]. apply in_seq. lia.
  - intros idx f len content mid Hw Hdec Hlen Hh1 Hh2. eapply display_truth; eauto; lia.
Qed.
Print Assumptions C100_display_partial.

(** Between songs the song shown is the last one announced before that sample. *)
Theorem C100_last_song : forall es sr now mc ms mp i,
  heard_songs es ms (i_sample i) -> right_display sr now mc ms mp i ->
  (filename (i_song i) = T "None" /\ length_ (i_song i) = 0 /\ forall j f n, In (ENewSong j f n) es -> i_sample i <= j) \/
  (exists j f n, In (ENewSong j f n) es /\ announces (ENewSong j f n) (i_song i) /\ j < i_sample i /\
     forall j' f' n', In (ENewSong j' f' n') es -> j' < i_sample i -> j' <= j).
Proof.
  intros es sr now mc ms mp i [H1 H2] (order & _ & _ & _ & [(S1 & S2 & S3)|[-> S]] & _).
  - right. destruct (H1 _ S1) as (e & He & Ae). destruct e as [j f n| | |]; cbn [announces] in Ae; try contradiction.
    exists j, f, n. split; [exact He|]. split; [exact Ae|]. destruct Ae as [Aj _]. split; [lia|].
    intros j' f' n' Hj Hl. destruct (H2 _ _ _ Hj Hl) as (s' & R & A & _). specialize (S3 _ R ltac:(lia)). lia.
  - left. split; [reflexivity|]. split; [reflexivity|]. intros j f n Hj. destruct (Z.le_gt_cases (i_sample i) j) as [|Hl]; [assumption|].
    destruct (H2 _ _ _ Hj ltac:(lia)) as (s' & R & A & _). specialize (S _ R). lia.
Qed.
Print Assumptions C100_last_song.

(** Without the guard: when a flag race is lost (C11), the stream goes on as silence of a pause for as
    long as one likes while everything announced says that it plays (so that is what a display shows). *)
Theorem C100_flag_race_refuted : forall m : nat, exists acts st mid,
  prun ex_decode 3 (new_playlist [sa]) acts = Some (st, ENewSong 0 sa 1 :: mid) /\ in_song mid /\
  ex_decode sa = Some [(1%N, 2%N)] /\ zlen (stream_of mid) = 512 * (Z.of_nat m + 1) /\
  forall y, 0 < y <= zlen (stream_of mid) ->
    plays_at (announced_toggles (ENewSong 0 sa 1 :: mid)) (y - 1) = true /\
    nth_error (stream_of mid) (Z.to_nat (y - 1)) = Some nan_sample.
Proof.
  intro m. set (blk := EBlock (repeat nan_sample 512)).
  assert (H0 : exists st, prun ex_decode 3 (new_playlist [sa]) race_acts = Some (st, [ENewSong 0 sa 1; EToggle true 0; blk]) /\
    at_pc st = InSong [(1%N, 2%N)] /\ playing st = false /\ playing_last st = false /\ tokens st = 0%nat).
  { eexists. split; [vm_compute; reflexivity|]. auto. }
  destruct H0 as (st0 & R0 & A0 & P0 & L0 & T0).
  assert (H1 : forall k st, at_pc st = InSong [(1%N, 2%N)] -> playing st = false -> playing_last st = false -> tokens st = 0%nat ->
    exists st', prun ex_decode 3 st (concat (repeat [PCmp; PBlock; PCheck] k)) = Some (st', repeat blk k)).
  { induction k as [|k IH]; intros st A P L Tk; [exists st; reflexivity|].
    cbn [repeat concat app]. cbn [prun]. unfold pstep at 1. rewrite A, P, L. cbn [Bool.eqb].
    unfold pstep at 1. cbn [at_pc set_pc playing]. rewrite P.
    unfold pstep at 1. cbn [at_pc set_pc pushed tokens]. rewrite Tk. change (0 <? 0)%nat with false. change (negb true || (streamer_buffer_size <? streamer_buffer_size)%nat)%bool with false.
    cbn iota beta.
    match goal with |- context [prun ex_decode 3 ?q _] => destruct (IH q) as (st' & R) end; try reflexivity; try assumption.
    rewrite R. exists st'. reflexivity. }
  destruct (H1 m st0 A0 P0 L0 T0) as (st & R1).
  exists (race_acts ++ concat (repeat [PCmp; PBlock; PCheck] m)), st, (EToggle true 0 :: blk :: repeat blk m).
  assert (S : stream_of (EToggle true 0 :: blk :: repeat blk m) = repeat nan_sample (512 * S m)).
  { change (stream_of (EToggle true 0 :: blk :: repeat blk m)) with (stream_of (repeat blk (S m))). induction (S m) as [|k IH]; [reflexivity|].
    change (stream_of (repeat blk (Datatypes.S k))) with (repeat nan_sample 512 ++ stream_of (repeat blk k)). rewrite IH, <- repeat_app. f_equal. lia. }
  assert (L : zlen (stream_of (EToggle true 0 :: blk :: repeat blk m)) = 512 * (Z.of_nat m + 1)).
  { rewrite S. unfold zlen. rewrite repeat_length. lia. }
  split; [rewrite (PlaylistLoopProofs.prun_app ex_decode 3), R0, R1; reflexivity|]. split; [|split; [reflexivity|split; [exact L|]]].
  - constructor; [exact Logic.I|]. constructor; [exact Logic.I|]. clear. induction m as [|m IH]; [constructor|]. cbn [repeat]. constructor; [exact Logic.I|exact IH].
  - intros y Hy. split.
    + assert (E : announced_toggles (ENewSong 0 sa 1 :: EToggle true 0 :: blk :: repeat blk m) = [{| t_playing := true; t_index := 0 |}]).
      { unfold announced_toggles. cbn [toggles_of flat_map app blk]. replace (flat_map _ (repeat blk m)) with (@nil (bool * Z)); [reflexivity|].
        clear. induction m as [|m IH]; [reflexivity|]. cbn [repeat flat_map app blk]. exact IH. }
      rewrite E. unfold plays_at. cbn [fold_left t_index t_playing]. destruct (0 <=? y - 1); reflexivity.
    + rewrite S. apply nth_error_repeat. rewrite L in Hy. lia.
Qed.
Print Assumptions C100_flag_race_refuted.

(** Example: song a, a gap, song b paused for 512 samples, then played.  Displays at sample
    10 (paused, 0 samples of b) and 518 (playing, both samples of b). *)
Definition view_acts : list PlaylistModel.action :=
  [ASetPlaying true; PNext; POpen; PCmp; PBlock; PCheck;
   PNext; POpen; ASetPlaying false; PCmp; PTogStore; PTogCall; PBlock; PCheck;
   ASetPlaying true; PCmp; PTogStore; PTogCall; PBlock; PCheck].
Definition view_messages : list message :=
  [NewSongInfo 4 sb 2 [] None; PauseInfo false 4; NewSongInfo 0 sa 1 [] None; ChunkInfo 0 0 500;
   ChunkInfo 500000000000 500 500; PauseInfo true 516].
Definition view_decode (f : PlaylistModel.song) : option (list sample) :=
  match f with [_] => Some [(1%N, 2%N)] | _ => Some [(1%N, 2%N); (3%N, 4%N)] end.
Definition view_mid : list PlaylistModel.event :=
  [EToggle false 4; EBlock (repeat nan_sample 512); EToggle true 516; EBlock [(1%N, 2%N); (3%N, 4%N)]].
Definition view_events : list PlaylistModel.event :=
  [ENewSong 0 sa 1; EBlock [(1%N, 2%N)]; EGap (nan_samples 3)] ++ ENewSong 4 sb 2 :: view_mid ++ [EGap (nan_samples 3)].
Example C100_server : exists st,
  prun view_decode 3 (new_playlist [sa; sb]) view_acts = Some (st, view_events) /\ no_flag_race false view_acts.
Proof. eexists. split; [vm_compute; reflexivity|cbn; tauto]. Qed.
(** Both displays meet the hypotheses of C100_display_partial (song b, schedule of chunks of
    500 samples at 1 Hz, start time 0), and what they show. *)
Example C100_client : exists s i1 i2,
  let tr := map Handled view_messages ++ display_events 10000000000 in
  let all := tr ++ display_events 518000000000 in
  client_run 1 all s Idle [i1; i2] /\
  Forall msg_ok (messages all) /\ StronglySorted Z.le (clocks all) /\ quiet all /\
  (forall c, In c (clocks all) -> Forall (near 1 c) (received_chunks (messages all))) /\
  received_chunks (messages tr) = map (fun j => server_chunk 0 500 1 (Z.of_nat j)) (seq 0 2) /\
  scheduled 0 500 1 518 = 518000000000 /\
  heard_songs view_events (messages tr) 518 /\ heard_pauses view_events (messages tr) 518 /\
  while_playing view_events 4 sb 2 view_mid 10 /\ while_playing view_events 4 sb 2 view_mid 518 /\
  i_sample i1 = 10 /\ filename (i_song i1) = sb /\ i_playing i1 = false /\ i_timeInSong i1 = 0 /\
  i_sample i2 = 518 /\ filename (i_song i2) = sb /\ i_playing i2 = true /\ i_timeInSong i2 = 2000000000 /\ i_songLength i2 = 2000000000.
Proof.
  destruct (exec 1 ((map Handled view_messages ++ display_events 10000000000) ++ display_events 518000000000)) as [[[s d] out]|] eqn:E;
    [|vm_compute in E; discriminate].
  assert (X : d = Idle /\ exists i1 i2, out = [i1; i2] /\
    i_sample i1 = 10 /\ filename (i_song i1) = sb /\ i_playing i1 = false /\ i_timeInSong i1 = 0 /\
    i_sample i2 = 518 /\ filename (i_song i2) = sb /\ i_playing i2 = true /\ i_timeInSong i2 = 2000000000 /\ i_songLength i2 = 2000000000).
  { vm_compute in E. injection E as <- <- <-. split; [reflexivity|]. do 2 eexists. split; [reflexivity|]. vm_compute. auto 20. }
  destruct X as (-> & i1 & i2 & -> & X). exists s, i1, i2. cbn zeta.
  split; [apply exec_run; exact E|]. split; [repeat constructor; vm_compute; congruence|].
  split; [repeat constructor; vm_compute; congruence|].
  split; [|split; [|split; [vm_compute; reflexivity|split; [vm_compute; reflexivity|split; [|split; [|split; [|split; [|exact X]]]]]]]].
  - intros a now h b Ee. destruct h as [|m h]; [reflexivity|exfalso].
    assert (Q : forall l, (forall e, In e l -> exists m, e = Handled m) -> forall a' t,
      l ++ t = a' ++ PruneChunks now :: map Handled (m :: h) ++ ReadSample :: b -> exists a'', a' = l ++ a'').
    { induction l as [|e l IH]; intros Hl a' t Ea; [eexists; reflexivity|].
      destruct a' as [|e' a']; cbn [app] in Ea; injection Ea as -> Ea.
      - destruct (Hl _ (or_introl eq_refl)). discriminate.
      - destruct (IH (fun x Hx => Hl x (or_intror Hx)) _ _ Ea) as [a'' ->]. exists a''. reflexivity. }
    rewrite <- app_assoc in Ee.
    destruct (Q (map Handled view_messages)) with (2 := Ee) as [a'' ->].
    { intros e He. apply in_map_iff in He as (x & <- & _). eauto. }
    rewrite <- app_assoc in Ee. apply app_inv_head in Ee. cbn in Ee.
    repeat (destruct a'' as [|? a'']; [discriminate Ee|]; cbn [app] in Ee; injection Ee as _ Ee). destruct a''; discriminate Ee.
  - intros c [<-|[<-|[]]]; repeat constructor; unfold near, chunk_end, second; cbn; lia.
  - split.
    + intros x [<-|[<-|[]]]; [exists (ENewSong 4 sb 2)|exists (ENewSong 0 sa 1)]; (split; [cbn; auto 10|repeat split]).
    + intros i f n Hi Hl. unfold view_events, view_mid in Hi. cbn [app] in Hi.
      repeat (destruct Hi as [Hi|Hi]; [try discriminate Hi|]); try contradiction.
      * assert (i = 0 /\ f = sa /\ n = 1) as (-> & -> & ->) by (repeat split; congruence). eexists. split; [right; left; reflexivity|repeat split].
      * assert (i = 4 /\ f = sb /\ n = 2) as (-> & -> & ->) by (repeat split; congruence). eexists. split; [left; reflexivity|repeat split].
  - split.
    + intros x [<-|[<-|[]]]; cbn; auto 10.
    + intros b i Hi _. unfold view_events, view_mid in Hi. cbn [app] in Hi.
      repeat (destruct Hi as [Hi|Hi]; [try discriminate Hi|]); try contradiction.
      * assert (b = false /\ i = 4) as (-> & ->) by (repeat split; congruence). left. reflexivity.
      * assert (b = true /\ i = 516) as (-> & ->) by (repeat split; congruence). right. left. reflexivity.
  - do 2 eexists. split; [reflexivity|]. split; [repeat constructor|]. vm_compute. split; congruence.
  - do 2 eexists. split; [reflexivity|]. split; [repeat constructor|]. vm_compute. split; congruence.
Qed.
