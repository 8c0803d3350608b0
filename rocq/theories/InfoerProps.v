(** The properties of the info client: C49-C55 and C57 (C56 is in ServerProps). *)
From Verif Require Import GoBase GoBaseFacts GoUtf8 WireModel InfoerModel InfoerSpec InfoerProofs InfoerRunProofs InfoerMoreProofs InfoerExec.
From Coq Require Import Permutation Sorted ZifyBool ZifyNat ZifyN.
Local Open Scope Z_scope.

(** * C49: the sample position *)

(** While a chunk covers [now] the sample shown is its first sample plus the elapsed ones. *)
Theorem C49_position : forall sr now s ended c later, 0 < sr ->
  chunks s = ended ++ c :: later ->
  Forall chunk_ok (chunks s) -> Forall (fun x => chunk_end sr x < now) ended ->
  c_startTime c <= now <= chunk_end sr c ->
  i_sample (fst (get_info sr now s)) = c_startIndex c + (now - c_startTime c) * sr / 1000000000.
Proof.
  intros sr now s ended c later Hsr E Hok He Hn. rewrite E in Hok. apply Forall_app in Hok as [Hok1 Hok2].
  inversion Hok2 as [|? ? Oc Ol]; subst. unfold get_info. rewrite E.
  rewrite (remove_old_chunks_twice sr now now (ended ++ c :: later) ltac:(lia) ended (c :: later) eq_refl).
  2:{ rewrite Forall_forall in *. intros x Hx. rewrite end_time_right by auto. auto. }
  cbn [remove_old_chunks]. rewrite end_time_right by auto.
  assert (now <=? chunk_end sr c = true) as -> by lia.
  destruct (pauses_in_song _ _ _). cbn [fst make_info i_sample].
  rewrite sample_at_right; [|auto|auto|now apply covered_near|lia]. apply position_covered; auto; lia.
Qed.

Example C49_position_example :
  let s := {| songs := []; pauses := []; volume := 0;
              chunks := [{| c_startTime := 1000; c_startIndex := 0; c_size := 48000 |};
                         {| c_startTime := 1000001000; c_startIndex := 48000; c_size := 48000 |}] |} in
  Forall chunk_ok (chunks s) /\ continuous 48000 (chunks s)
  /\ i_sample (fst (get_info 48000 500001000 s)) = 24000
  /\ i_sample (fst (get_info 48000 1000501000 s)) = 48024.
Proof.
  cbn zeta. split; [|split; [|split; vm_compute; reflexivity]].
  - repeat constructor; cbn; unfold second; lia.
  - cbn [continuous chunks c_startTime c_startIndex c_size chunk_end]. repeat split; try lia.
Qed.

(** It never decreases: [l] are the chunks known at the first display, of which the ended
    ones [p] may have been dropped and to which [more] may have been added at the second. *)
Theorem C49_monotone : forall sr now1 now2 s1 s2 p l more c0 r, 0 < sr -> now1 <= now2 ->
  chunks s1 = p ++ l -> Forall (fun c => chunk_end sr c < now1) p -> chunks s2 = l ++ more ->
  chunks s1 ++ more = c0 :: r -> Forall chunk_ok (c0 :: r) -> continuous sr (c0 :: r) ->
  c_startTime c0 <= now1 ->
  (exists c, In c (chunks s1) /\ now1 <= chunk_end sr c) -> (exists c, In c (chunks s2) /\ now2 <= chunk_end sr c) ->
  i_sample (fst (get_info sr now1 s1)) <= i_sample (fst (get_info sr now2 s2)).
Proof.
  intros sr n1 n2 s1 s2 p l more c0 r Hsr Hn E1 Hp E2 E Hok Hc Hs (c1 & C1 & C1') (c2 & C2 & C2').
  unfold get_info. destruct (pauses_in_song _ _ _) as [a b]. destruct (pauses_in_song _ _ _) as [a' b'].
  cbn [fst make_info i_sample].
  assert (In2 : In c2 (c0 :: r)).
  { rewrite <- E, E1, <- app_assoc, <- E2. apply in_or_app; auto. }
  pose proof (continuous_mono sr n1 n2 r Hsr Hn c0 Hok Hc Hs (ex_intro _ c2 (conj In2 C2'))) as M.
  rewrite <- E in M.
  assert (Hp' : Forall (fun c => end_time sr c < n1) p).
  { rewrite Forall_forall in *. intros x Hx. rewrite end_time_right; auto. apply Hok. rewrite <- E, E1.
    apply in_or_app; left; apply in_or_app; auto. }
  assert (R1 : remove_old_chunks sr n1 (chunks s1) <> []).
  { intros Z. destruct (remove_old_chunks_spec sr n1 (chunks s1)) as (q & Q1 & Q2 & _). rewrite Z, app_nil_r in Q1.
    rewrite <- Q1 in Q2. rewrite Forall_forall in Q2. specialize (Q2 c1 C1). rewrite end_time_right in Q2; [lia|auto|].
    rewrite Forall_forall in Hok. apply Hok. rewrite <- E. apply in_or_app; auto. }
  rewrite (remove_old_chunks_app sr n1 _ more R1) in M.
  assert (R2 : remove_old_chunks sr n2 (chunks s1 ++ more) = remove_old_chunks sr n2 (chunks s2)).
  { rewrite E1, E2, <- app_assoc. now apply (remove_old_chunks_twice sr n1 n2 (p ++ l ++ more) Hn p). }
  rewrite R2 in M. destruct (remove_old_chunks sr n1 (chunks s1)) as [|x k]; [now elim R1|]. exact M.
Qed.

(** It differs by at most one from the sample [k] of the chunk the players output then:
    sample [k] is due at [k * 10^9 / sr] ns after the start of the chunk (C24). *)
Theorem C49_matches_players : forall sr now s ended c later k, 0 < sr <= 1000000000 ->
  chunks s = ended ++ c :: later ->
  Forall chunk_ok (chunks s) -> Forall (fun x => chunk_end sr x < now) ended ->
  c_startTime c <= now <= chunk_end sr c ->
  0 <= k -> c_startTime c + k * 1000000000 / sr <= now < c_startTime c + (k + 1) * 1000000000 / sr ->
  Z.abs (i_sample (fst (get_info sr now s)) - (c_startIndex c + k)) <= 1.
Proof.
  intros sr now s ended c later k Hsr E Hok He Hn Hk Hd. rewrite (C49_position sr now s ended c later) by (auto; lia).
  set (e := now - c_startTime c) in *.
  assert (D1 : k * 1000000000 / sr <= e < (k + 1) * 1000000000 / sr) by lia. clearbody e.
  assert (A : k * 1000000000 < (e + 1) * sr).
  { pose proof (Z.mul_succ_div_gt (k * 1000000000) sr ltac:(lia)). nia. }
  assert (B : (e + 1) * sr <= (k + 1) * 1000000000).
  { pose proof (Z.mul_div_le ((k + 1) * 1000000000) sr ltac:(lia)). nia. }
  pose proof (Z.mul_div_le (e * sr) 1000000000 ltac:(lia)) as F1.
  pose proof (Z.mul_succ_div_gt (e * sr) 1000000000 ltac:(lia)) as F2.
  set (q := e * sr / 1000000000) in *. nia.
Qed.

Example C49_matches_players_example : (* 44100 Hz: sample 3 is due 68027 ns into the chunk *)
  let c := {| c_startTime := 5; c_startIndex := 100; c_size := 44100 |} in
  chunk_ok c /\ c_startTime c + 3 * 1000000000 / 44100 <= 68040 < c_startTime c + 4 * 1000000000 / 44100
  /\ i_sample (fst (get_info 44100 68040 {| songs := []; chunks := [c]; pauses := []; volume := 0 |})) = 103.
Proof.
  cbn zeta. split; [|split; [split; vm_compute; congruence|vm_compute; reflexivity]].
  repeat constructor; cbn; unfold second; lia.
Qed.

(** * C50: the song *)
Theorem C50_song : forall sr tr s d out sample, client_run sr tr s d out -> Forall msg_ok (messages tr) ->
  right_song sample (received_songs (messages tr)) (current_song sample (songs s)).
Proof.
  intros sr tr s d out sample H Hok. pose proof (run_inv _ _ _ _ _ H Hok) as I.
  apply (right_song_perm _ (songs s)); [symmetry; apply (inv_songs _ _ _ _ _ I)|].
  apply current_song_right; [|apply (inv_songs_sorted _ _ _ _ _ I)].
  apply (Permutation_Forall (inv_songs _ _ _ _ _ I)). now apply ok_songs.
Qed.

Theorem C50_song_shown : forall sr now tr s d out, client_run sr tr s d out -> Forall msg_ok (messages tr) ->
  right_song (i_sample (fst (get_info sr now s))) (received_songs (messages tr)) (i_song (fst (get_info sr now s))).
Proof.
  intros sr now tr s d out H Hok. unfold get_info.
  destruct (pauses_in_song _ _ _) as [a b]. cbn [fst make_info i_sample i_song]. eapply C50_song; eauto.
Qed.

Definition demo_song (name : bytes) (start : Z) : song := song_of start name 1000 [] None.
Example C50_example :
  let l := [demo_song (T "a") 10; demo_song (T "b") 20; demo_song (T "c") 30] in
  right_song 25 l (demo_song (T "b") 20) /\ right_song 10 l no_song
  /\ current_song 25 l = demo_song (T "b") 20 /\ current_song 10 l = no_song.
Proof.
  cbn zeta. split; [|split; [|split; reflexivity]].
  - left. split; [cbn; auto|]. split; [cbn; lia|]. intros s' [<-|[<-|[<-|[]]]]; cbn; lia.
  - right. split; [reflexivity|]. intros s' [<-|[<-|[<-|[]]]]; cbn; lia.
Qed.

(** * C51: pauses in the song *)
Theorem C51_paused_exact : forall sample start l, 0 <= start <= sample -> sample < 2 ^ 63 ->
  sorted_toggles l -> Forall (fun t => index_ok (t_index t)) l ->
  pauses_in_song sample start l = (paused_samples l start sample, plays_at l (sample - 1)).
Proof. exact pauses_in_song_right. Qed.

Theorem C51_position_in_song_range : forall sample start l, 0 <= start <= sample -> sample < 2 ^ 63 ->
  sorted_toggles l -> Forall (fun t => index_ok (t_index t)) l ->
  0 <= sample - start - fst (pauses_in_song sample start l) <= sample - start.
Proof.
  intros sample start l Hs Hm Hl Hi. rewrite pauses_in_song_right by auto. cbn [fst].
  pose proof (paused_range l start sample ltac:(lia)). lia.
Qed.

(** While playing the position in the song advances sample by sample, while paused it stands still. *)
Theorem C51_position_advances : forall sample start l, 0 <= start <= sample -> sample < 2 ^ 63 - 1 ->
  sorted_toggles l -> Forall (fun t => index_ok (t_index t)) l ->
  let pos x := x - start - fst (pauses_in_song x start l) in
  pos (sample + 1) = pos sample + (if snd (pauses_in_song (sample + 1) start l) then 1 else 0).
Proof.
  intros sample start l Hs Hm Hl Hi. cbn zeta. rewrite !pauses_in_song_right by (auto; lia). cbn [fst snd].
  rewrite paused_snoc by lia. replace (sample + 1 - 1) with sample by lia. destruct (plays_at l sample); lia.
Qed.

(** C65: before stream index 0 (a display while the very first chunk lies in the future) the
    conversion of the negative sample to uint64 applies every announced pause at once. *)
Theorem C65_before_stream_refuted : forall sample start p, - 2 ^ 63 <= sample < 0 -> 0 <= p < 2 ^ 63 ->
  snd (pauses_in_song sample start [{| t_playing := false; t_index := p |}]) = false
  /\ plays_at [{| t_playing := false; t_index := p |}] (sample - 1) = true.
Proof.
  intros sample start p Hs Hp. unfold pauses_in_song. cbn [fold_left].
  unfold handle_pause. cbn [ps_playing t_playing t_index Bool.eqb].
  assert (to_uint64 sample = sample + 2 ^ 64) as ->.
  { unfold to_uint64. symmetry. apply (Z.mod_unique _ _ (-1)); lia. }
  assert (sample + 2 ^ 64 <=? p = false) as -> by lia. cbn. split; [reflexivity|].
  assert (p <=? sample - 1 = false) as -> by lia. reflexivity.
Qed.

(** Up to there: at index 0 nothing is paused, and before it the last announcement of all
    decides.  So the display is right unless the last announcement is a pause; and with no
    pause announced no sample is counted as paused either. *)
Theorem C65_before_stream_partial : forall sample start l, - 2 ^ 63 <= sample <= 0 ->
  Forall (fun t => index_ok (t_index t)) l ->
  plays_at l (sample - 1) = true
  /\ (sample = 0 \/ last (map t_playing l) true = true -> snd (pauses_in_song sample start l) = true)
  /\ (sample = 0 \/ Forall (fun t => t_playing t = true) l -> fst (pauses_in_song sample start l) = 0).
Proof.
  intros sample start l Hs Hi. split; [|split].
  - induction l as [|t l IH] using rev_ind; [reflexivity|]. apply Forall_app in Hi as [Hi Ht].
    inversion Ht as [|? ? Ht' _]; subst. unfold index_ok in Ht'. rewrite plays_at_under by lia. auto.
  - intros [->|Hl].
    + unfold pauses_in_song. rewrite handle_pause_beyond; [reflexivity|lia|].
      eapply Forall_impl; [|exact Hi]. unfold index_ok. cbn. lia.
    + destruct (Z.eq_dec sample 0) as [->|Hn].
      { unfold pauses_in_song. rewrite handle_pause_beyond; [reflexivity|lia|].
        eapply Forall_impl; [|exact Hi]. unfold index_ok. cbn. lia. }
      assert (U : to_uint64 sample = sample + 2 ^ 64).
      { unfold to_uint64. symmetry. apply (Z.mod_unique _ _ (-1)); lia. }
      unfold pauses_in_song. cbn [snd]. set (st0 := {| ps_playing := true; ps_pauses := 0; ps_begin := 0 |}).
      transitivity (last (map t_playing l) true); [|exact Hl]. clear Hl. change true with (ps_playing st0). clearbody st0.
      revert st0. induction l as [|t l IH]; intros st0; [reflexivity|].
      inversion Hi as [|? ? Ht Hi']; subst. unfold index_ok in Ht. cbn [fold_left map].
      replace (last (t_playing t :: map t_playing l) (ps_playing st0))
        with (last (map t_playing l) (t_playing t)) by (clear; destruct l as [|t1 l]; [reflexivity|]; cbn [map];
          revert t1; induction l as [|t2 l IHl]; intros t1; [reflexivity|]; apply (IHl t2)).
      rewrite IH by auto.
      assert (ps_playing (handle_pause sample start st0 t) = t_playing t) as ->; [|reflexivity].
      unfold handle_pause. rewrite U.
      assert (sample + 2 ^ 64 <=? t_index t = false) as -> by lia. cbn [orb].
      destruct (Bool.eqb (ps_playing st0) (t_playing t)) eqn:E; [now apply Bool.eqb_prop|reflexivity].
  - intros [->|Hl].
    + unfold pauses_in_song. rewrite handle_pause_beyond; [reflexivity|lia|].
      eapply Forall_impl; [|exact Hi]. unfold index_ok. cbn. lia.
    + unfold pauses_in_song. set (st0 := {| ps_playing := true; ps_pauses := 0; ps_begin := 0 |}).
      assert (fold_left (handle_pause sample start) l st0 = st0) as ->; [|reflexivity].
      clear Hi. induction Hl as [|t l Ht Hl IH]; [reflexivity|]. cbn [fold_left]. unfold handle_pause at 2.
      rewrite Ht. cbn [ps_playing st0 Bool.eqb]. rewrite orb_true_r. exact IH.
Qed.
Example C65_example :
  let l := [{| t_playing := false; t_index := 5 |}; {| t_playing := true; t_index := 12 |}] in
  Forall (fun t => index_ok (t_index t)) l /\ last (map t_playing l) true = true
  /\ snd (pauses_in_song (-3) 0 l) = true /\ snd (pauses_in_song (-3) 0 (firstn 1 l)) = false.
Proof. cbn zeta. split; [repeat constructor; cbn; lia|]. vm_compute. auto. Qed.

Example C51_example :
  let l := [{| t_playing := false; t_index := 5 |}; {| t_playing := true; t_index := 12 |};
            {| t_playing := true; t_index := 14 |}; {| t_playing := false; t_index := 20 |}] in
  sorted_toggles l /\ paused_samples l 10 25 = 7 /\ pauses_in_song 25 10 l = (7, false) /\ plays_at l 24 = false.
Proof. cbn zeta. split; [repeat constructor; cbn; lia|]. vm_compute. auto. Qed.

(** * C52: forgetting is invisible *)

(** A display that reads the chunks after [messages tr ++ h0], the songs after a further
    [h1] and the pauses after a further [h2 ++ h3] shows what these messages determine,
    whatever was forgotten earlier.  Missing from the full property: displays that go back
    in the stream ([C52_going_back_refuted]) and chunk information handled between
    the first two critical sections of the display ([C52_race_refuted]). *)
Theorem C52_display_partial : forall sr tr now h0 h1 h2 h3 s d out, 0 < sr ->
  client_run sr (tr ++ PruneChunks now :: map Handled h0 ++ ReadSample :: map Handled h1 ++ ReadSong :: map Handled h2
                    ++ PrunePauses :: map Handled h3 ++ [CountPauses]) s d out ->
  Forall msg_ok (messages tr ++ h0 ++ h1 ++ h2 ++ h3) ->
  Forall (near sr now) (received_chunks (messages tr)) ->
  Forall (fun earlier => earlier <= now) (clocks tr) ->
  received_chunks h0 = [] ->
  exists out0 i, out = out0 ++ [i] /\
    (0 <= i_sample i < 2 ^ 63 -> i_sample i = 0 \/ Forall (fun o => i_sample o <= i_sample i) out0 ->
     right_display sr now (messages tr ++ h0) (messages tr ++ h0 ++ h1) (messages tr ++ h0 ++ h1 ++ h2 ++ h3) i).
Proof.
  intros sr tr now h0 h1 h2 h3 s d out Hsr H. apply (display_right sr tr now h0 h1 h2 h3 s d out Hsr).
  repeat (rewrite <- app_assoc; cbn [app]). exact H.
Qed.

(** If the chunk information arrives in order, as one continuous schedule, the displays do
    not go back. *)
Theorem C52_in_order_partial : forall sr tr now h0 h1 h2 h3 s d out, 0 < sr ->
  let all := tr ++ PruneChunks now :: map Handled h0 ++ ReadSample :: map Handled h1 ++ ReadSong :: map Handled h2
                    ++ PrunePauses :: map Handled h3 ++ [CountPauses] in
  client_run sr all s d out ->
  Forall msg_ok (messages all) -> StronglySorted Z.le (clocks all) -> quiet all ->
  (forall n, In n (clocks all) -> Forall (near sr n) (received_chunks (messages all))) ->
  continuous sr (received_chunks (messages tr)) -> Forall (fun c => 0 < c_size c) (received_chunks (messages tr)) ->
  exists out0 i, out = out0 ++ [i] /\
    (0 <= i_sample i < 2 ^ 63 ->
     right_display sr now (messages tr ++ h0) (messages tr ++ h0 ++ h1) (messages tr ++ h0 ++ h1 ++ h2 ++ h3) i).
Proof.
  intros sr tr now h0 h1 h2 h3 s d out Hsr all H Hok Hck Hq Hnear Hcont Hpos.
  assert (Em : messages all = messages tr ++ h0 ++ h1 ++ h2 ++ h3).
  { unfold all. rewrite messages_app. f_equal.
    assert (P : forall e l h, (match e with Handled _ => False | _ => True end) -> messages (e :: map Handled h ++ l) = h ++ messages l).
    { intros e l h He. change (e :: map Handled h ++ l) with ([e] ++ map Handled h ++ l). rewrite !messages_app, messages_handled.
      destruct e; [destruct He|..]; reflexivity. }
    rewrite (P (PruneChunks now)), (P ReadSample), (P ReadSong), (P PrunePauses) by exact I. cbn. now rewrite app_nil_r. }
  assert (Ec : clocks all = clocks tr ++ [now]).
  { unfold all. rewrite clocks_app. f_equal.
    assert (P : forall h, clocks (map Handled h) = []) by (intros h; induction h; cbn; auto).
    change (PruneChunks now :: ?x) with ([PruneChunks now] ++ x). rewrite clocks_app, clocks_app, P.
    change (ReadSample :: ?x) with ([ReadSample] ++ x). rewrite clocks_app, clocks_app, P.
    change (ReadSong :: ?x) with ([ReadSong] ++ x). rewrite clocks_app, clocks_app, P.
    change (PrunePauses :: ?x) with ([PrunePauses] ++ x). rewrite clocks_app, clocks_app, P. reflexivity. }
  assert (Hh0 : received_chunks h0 = []) by (eapply Hq; unfold all; reflexivity).
  rewrite Em in Hok, Hnear. rewrite Ec in Hck, Hnear.
  apply StronglySorted_app in Hck as (Hck & _ & Hle).
  assert (Htr : Forall msg_ok (messages tr)) by (now apply Forall_app in Hok as [Hok _]).
  destruct (C52_display_partial sr tr now h0 h1 h2 h3 s d out) as (out0 & i & E & Hd); auto.
  - specialize (Hnear now). lapply Hnear; [|apply in_or_app; right; now left]. rewrite rc_app. intros Z.
    now apply Forall_app in Z as [Z _].
  - apply Forall_forall. intros n Hn. apply Hle; [auto|now left].
  - exists out0, i. split; [auto|]. intros Hr. apply Hd; [auto|].
    (* everything displayed earlier was displayed in tr *)
    assert (R : exists s0, client_run sr tr s0 Idle out0 /\ right_sample sr now (received_chunks (messages tr)) (i_sample i)).
    { assert (Hq0 := Hq). unfold all in H. subst out.
      replace (tr ++ PruneChunks now :: map Handled h0 ++ ReadSample :: map Handled h1 ++ ReadSong :: map Handled h2
                    ++ PrunePauses :: map Handled h3 ++ [CountPauses])
        with (((((((((tr ++ [PruneChunks now]) ++ map Handled h0) ++ [ReadSample]) ++ map Handled h1) ++ [ReadSong]) ++ map Handled h2)
                    ++ [PrunePauses]) ++ map Handled h3) ++ [CountPauses]) in H
        by (repeat (rewrite <- app_assoc; cbn [app]); reflexivity).
      apply run_snoc in H as (n & x & cu & o & H & _ & Eo). apply app_inj_tail in Eo as [<- Ei].
      apply run_handlers in H as (s1 & H & _). apply run_snoc in H as (s2 & n2 & x2 & cu2 & H & _ & [= <- <- <-]).
      apply run_handlers in H as (s3 & H & _). apply run_snoc in H as (n3 & x3 & H & [= <- <- ->]).
      apply run_handlers in H as (s4 & H & _). apply run_snoc in H as (n4 & H & [= <- ->]).
      apply run_handlers in H as (s5 & H & _ & Ch). rewrite (Ch Hh0) in Ei. apply run_snoc in H as (s6 & H & -> & [= ->]).
      exists s6. split; [exact H|]. cbn [chunks set_chunks] in *.
      pose proof (run_inv _ _ _ _ _ H Htr) as I0. destruct (inv_chunks _ _ _ _ _ I0) as (r & P & Q).
      destruct (pauses_in_song _ _ _) as [pz pl]. rewrite Ei, make_info_sample.
      apply (right_sample_perm _ _ (r ++ chunks s6)); [now symmetry|].
      pose proof (ok_chunks _ Htr) as Oc. apply (Permutation_Forall P) in Oc.
      assert (Nn : Forall (near sr now) (received_chunks (messages tr))).
      { specialize (Hnear now). lapply Hnear; [|apply in_or_app; right; now left]. rewrite rc_app. intros Z.
        now apply Forall_app in Z as [Z _]. }
      apply (Permutation_Forall P) in Nn. rewrite (Ch Hh0) || idtac.
      apply sample_read_right; auto.
      - now apply Forall_app in Nn as [_ Nn].
      - apply Forall_forall. intros c Hc. rewrite Forall_forall in Q. destruct (Q c Hc) as (n & Hn & Ecn).
        apply Forall_app in Oc as [Oc _]. rewrite Forall_forall in Oc. rewrite end_time_right in Ecn by auto.
        specialize (Hle n now Hn). lapply Hle; [lia|now left].
      - apply (inv_chunks_sorted _ _ _ _ _ I0). }
    destruct R as (s0 & R & Rs).
    destruct (all_witnessed sr tr s0 Idle out0 Hsr R Htr Hck) as [W _].
    + intros a n h b ->. apply (Hq a n h (b ++ PruneChunks now :: map Handled h0 ++ ReadSample :: map Handled h1 ++ ReadSong :: map Handled h2
                    ++ PrunePauses :: map Handled h3 ++ [CountPauses])). unfold all. repeat (rewrite <- app_assoc; cbn [app]). reflexivity.
    + intros n Hn. specialize (Hnear n). lapply Hnear; [|apply in_or_app; auto]. rewrite rc_app. intros Z.
      now apply Forall_app in Z as [Z _].
    + destruct (Z.eq_dec (i_sample i) 0) as [|Hne]; [now left|]. right. apply Forall_forall. intros o Ho.
      rewrite Forall_forall in W. destruct (W o Ho) as (n & l & more & N1 & N2 & N3).
      rewrite N2 in Rs, Hcont, Hpos. pose proof (ok_chunks _ Htr) as Oc. rewrite N2 in Oc.
      assert (n <= now) by (apply Hle; [auto|now left]).
      destruct (right_sample_mono sr n now l more (i_sample o) (i_sample i) Hsr ltac:(auto) Oc Hcont Hpos N3 Rs ltac:(lia)); [lia|auto].
Qed.

Definition display_events (now : Z) : list event := [PruneChunks now; ReadSample; ReadSong; PrunePauses; CountPauses].
Definition song_a : message := NewSongInfo 1 (T "a") 1000 [] None.
Definition song_b : message := NewSongInfo 7 (T "b") 1000 [] None.

(** The hypotheses of the two theorems are met by an execution that really forgets: after
    the second display the first chunk and two toggles are gone. *)
Definition demo_trace : list event :=
  [Handled song_a; Handled (ChunkInfo 0 0 5); Handled (ChunkInfo 5000000000 5 5); Handled (PauseInfo false 2); Handled (PauseInfo true 4)]
  ++ display_events 3500000000
  ++ [Handled song_b; Handled (PauseInfo false 8)].
Example C52_example :
  exists s i1 i2,
    exec 1 (demo_trace ++ display_events 9000000000) = Some (s, Idle, [i1; i2])
    /\ chunks s = [{| c_startTime := 5000000000; c_startIndex := 5; c_size := 5 |}]
    /\ pauses s = [{| t_playing := true; t_index := 4 |}; {| t_playing := false; t_index := 8 |}]
    /\ i_sample i1 = 3 /\ i_song i1 = demo_song (T "a") 1 /\ i_pauses i1 = 1 /\ i_playing i1 = false
    /\ i_sample i2 = 9 /\ i_song i2 = demo_song (T "b") 7 /\ i_pauses i2 = 1 /\ i_playing i2 = false.
Proof. do 3 eexists. split; [vm_compute; reflexivity|]. vm_compute. auto 20. Qed.
Example C52_example_hypotheses :
  Forall msg_ok (messages demo_trace) /\ StronglySorted Z.le (clocks (demo_trace ++ display_events 9000000000))
  /\ continuous 1 (received_chunks (messages demo_trace))
  /\ Forall (near 1 9000000000) (received_chunks (messages demo_trace)).
Proof.
  split; [|split; [|split]].
  - repeat constructor; cbn; unfold second; lia.
  - repeat constructor; cbn; lia.
  - repeat split; try (vm_compute; congruence).
  - repeat constructor; unfold near, chunk_end, second; cbn; lia.
Qed.

(** Executions that go back in the stream: information for chunk 2 arrives before that for
    chunk 1, so the first display extrapolates (song b, sample 8) and drops the pause in
    song a; when chunk 1 is announced the display goes back to song a and shows 6 samples
    instead of the 4 that are determined by the messages received. *)
Definition back_trace : list event :=
  [Handled song_a; Handled song_b; Handled (PauseInfo false 2); Handled (PauseInfo true 4); Handled (ChunkInfo 10000000000 10 5)]
  ++ display_events 7500000000 ++ [Handled (ChunkInfo 5000000000 5 5)].
Theorem C52_going_back_refuted : exists s out0 i,
  client_run 1 (back_trace ++ display_events 7600000000) s Idle (out0 ++ [i])
  /\ ~ right_display 1 7600000000 (messages back_trace) (messages back_trace) (messages back_trace) i.
Proof.
  destruct (exec 1 (back_trace ++ display_events 7600000000)) as [[[s d] out]|] eqn:E; [|vm_compute in E; discriminate].
  assert (X : exists i1 i2, d = Idle /\ out = [i1; i2] /\ i_pauses i2 = 0 /\ i_sample i2 = 7 /\ startIndex (i_song i2) = 1).
  { vm_compute in E. injection E as <- <- <-. do 2 eexists. vm_compute. auto. }
  destruct X as (i1 & i2 & -> & -> & P0 & S7 & F1). exists s, [i1], i2. split; [now apply exec_run|].
  intros (order & P & So & _ & _ & Ei).
  assert (order = [{| t_playing := false; t_index := 2 |}; {| t_playing := true; t_index := 4 |}]).
  { symmetry. apply (sorted_perm_unique t_index); auto.
    - repeat constructor; cbn; lia.
    - cbn. repeat constructor; cbn; lia. }
  subst order. rewrite Ei in P0. cbn [i_pauses make_info] in P0. rewrite S7, F1 in P0. vm_compute in P0. discriminate.
Qed.

(** Chunk information handled between the first two critical sections of a display: the
    sample of a chunk that has already ended is shown (15 instead of 10). *)
Theorem C52_race_refuted : exists s i,
  client_run 1 [Handled (ChunkInfo 10000000000 10 5); PruneChunks 10000000000; Handled (ChunkInfo 0 5 5); ReadSample;
                ReadSong; PrunePauses; CountPauses] s Idle [i]
  /\ i_sample i = 15
  /\ right_sample 1 10000000000 (received_chunks [ChunkInfo 10000000000 10 5; ChunkInfo 0 5 5]) 10.
Proof.
  do 2 eexists. split; [apply exec_run; vm_compute; reflexivity|]. split; [reflexivity|].
  right. exists {| c_startTime := 10000000000; c_startIndex := 10; c_size := 5 |}.
  split; [cbn; auto|]. split; [vm_compute; congruence|]. split; [vm_compute; reflexivity|].
  intros c' [<-|[<-|[]]]; vm_compute; congruence.
Qed.

(** * C53: arrival order *)
Theorem C53_same_lists : forall sr h h' s s',
  client_run sr (map Handled h) s Idle [] -> client_run sr (map Handled h') s' Idle [] -> Permutation h h' ->
  NoDup (map startIndex (received_songs h)) -> NoDup (map c_startIndex (received_chunks h)) ->
  NoDup (map t_index (received_toggles h)) -> received_volume h = received_volume h' ->
  s = s' /\ forall now, get_info sr now s = get_info sr now s'.
Proof.
  intros sr h h' s s' H H' P N1 N2 N3 V.
  destruct (no_display_lists _ _ _ H) as (A1 & A2 & A3 & A4 & A5 & A6 & A7).
  destruct (no_display_lists _ _ _ H') as (B1 & B2 & B3 & B4 & B5 & B6 & B7).
  assert (s = s'); [|subst; auto].
  assert (E1 : songs s = songs s').
  { apply (sorted_perm_unique startIndex); auto; [now apply (Permutation_NoDup (Permutation_map _ A1))|].
    rewrite <- A1, <- B1. now apply perm_flat_map. }
  assert (E2 : chunks s = chunks s').
  { apply (sorted_perm_unique c_startIndex); auto; [now apply (Permutation_NoDup (Permutation_map _ A2))|].
    rewrite <- A2, <- B2. now apply perm_flat_map. }
  assert (E3 : pauses s = pauses s').
  { apply (sorted_perm_unique t_index); auto; [now apply (Permutation_NoDup (Permutation_map _ A3))|].
    rewrite <- A3, <- B3. now apply perm_flat_map. }
  destruct s, s'. cbn in *. congruence.
Qed.

(** With displays in between: what C52 says is displayed does not depend on the order. *)
Theorem C53_same_display : forall sr now mc mc' ms ms' mp mp' i i',
  Permutation mc mc' -> Permutation ms ms' -> Permutation mp mp' ->
  NoDup (map c_startIndex (received_chunks mc)) -> NoDup (map startIndex (received_songs ms)) ->
  NoDup (map t_index (received_toggles mp)) -> received_volume mp = received_volume mp' ->
  right_display sr now mc ms mp i -> right_display sr now mc' ms' mp' i' -> i = i'.
Proof.
  intros sr now mc mc' ms ms' mp mp' i i' Pc Ps Pp N1 N2 N3 V (o & O1 & O2 & O3 & O4 & O5) (o' & O1' & O2' & O3' & O4' & O5').
  assert (Eo : o = o').
  { apply (sorted_perm_unique t_index); auto; [now apply (Permutation_NoDup (Permutation_map _ O1))|].
    rewrite <- O1, <- O1'. now apply perm_flat_map. }
  assert (Es : i_sample i = i_sample i').
  { apply (right_sample_unique sr now (received_chunks mc)); auto.
    apply (right_sample_perm _ _ (received_chunks mc')); auto. apply perm_flat_map. now symmetry. }
  assert (Eg : i_song i = i_song i').
  { apply (right_song_unique (i_sample i) (received_songs ms)); auto.
    rewrite Es. apply (right_song_perm _ (received_songs ms')); auto. apply perm_flat_map. now symmetry. }
  rewrite O5, O5', <- Eo, <- Es, <- Eg, V. reflexivity.
Qed.

Example C53_example : exists s,
  client_run 1 (map Handled [song_a; PauseInfo false 5; song_b; ChunkInfo 0 0 5]) s Idle []
  /\ client_run 1 (map Handled [ChunkInfo 0 0 5; song_b; song_a; PauseInfo false 5]) s Idle [].
Proof. eexists. split; apply exec_run; vm_compute; reflexivity. Qed.

(** * C54: progress *)

(** For a song that does not start at index 0 time and progress are the played samples. *)
Theorem C54_progress_partial : forall sr now s, 0 < sr ->
  let i := fst (get_info sr now s) in
  let cur := i_song i in
  0 < startIndex cur -> startIndex cur < i_sample i -> i_sample i < 2 ^ 63 ->
  0 <= i_pauses i <= i_sample i - startIndex cur -> (i_sample i - startIndex cur) * 1000000000 < 2 ^ 63 ->
  let played := i_sample i - startIndex cur - i_pauses i in
  i_timeInSong i = played * 1000000000 / sr /\
  (0 < length_ cur -> i_progress i = (played, length_ cur)) /\
  (0 <= length_ cur -> length_ cur * 1000000000 < 2 ^ 63 -> i_songLength i = length_ cur * 1000000000 / sr).
Proof.
  intros sr now s Hsr. cbn zeta. unfold get_info.
  destruct (pauses_in_song _ _ _) as [pz pl]. cbn [fst make_info i_song i_sample i_pauses i_timeInSong i_progress i_songLength].
  set (x := sample_at _ _ _). set (cur := current_song x (songs s)). intros H0 H1 H2 H3 H4.
  rewrite (w64 (startIndex cur)) by lia.
  assert (E : negb (startIndex cur =? 0) && (startIndex cur <? x) = true) by lia. rewrite E. cbn [andb].
  rewrite (w64 (x - startIndex cur)) by lia. rewrite (w64 (_ - pz)) by lia. unfold samples_to_ns, second, go_div.
  split; [|split].
  - rewrite w64 by lia. apply Z.quot_div_nonneg; lia.
  - intros Hl. assert (0 <? length_ cur = true) as -> by lia. reflexivity.
  - intros Hl Hl2. rewrite w64 by lia. apply Z.quot_div_nonneg; lia.
Qed.

Example C54_example :
  let s := {| songs := [demo_song (T "a") 1]; chunks := [{| c_startTime := 0; c_startIndex := 0; c_size := 50 |}];
              pauses := [{| t_playing := false; t_index := 3 |}; {| t_playing := true; t_index := 13 |}]; volume := 0 |} in
  let i := fst (get_info 1 31000000000 s) in
  i_sample i = 31 /\ i_pauses i = 10 /\ i_timeInSong i = 20000000000 /\ i_progress i = (20, 1000).
Proof. vm_compute. auto. Qed.

(** A song that starts at index 0 (the first song of a server) never gets any. *)
Theorem C54_first_song_refuted : forall sr now s,
  startIndex (i_song (fst (get_info sr now s))) = 0 ->
  let i := fst (get_info sr now s) in i_timeInSong i = 0 /\ i_progress i = (0, 1) /\ i_songLength i = 0.
Proof.
  intros sr now s. unfold get_info. destruct (pauses_in_song _ _ _) as [pz pl].
  cbn [fst make_info i_song i_sample i_pauses i_timeInSong i_progress i_songLength]. intros ->. cbn. auto.
Qed.
Example C54_refuted_example :
  let s := {| songs := [demo_song (T "a") 0]; chunks := [{| c_startTime := 0; c_startIndex := 0; c_size := 50 |}];
              pauses := []; volume := 0 |} in
  let i := fst (get_info 1 31000000000 s) in
  i_song i = demo_song (T "a") 0 /\ i_sample i = 31 /\ i_progress i = (0, 1).
Proof. vm_compute. auto. Qed.

(** * C55: lyrics *)

(** The box has [height] lines; line [k] from the bottom is line [n - 1 - k] of the lyrics
    with its due words, where [n] counts the lines before the first one that is not due. *)
Theorem C55_lines : forall height ly t, - 2 ^ 62 <= t < 2 ^ 62 ->
  length (lyrics_history height ly t) = height /\
  exists n, (n <= length ly)%nat
    /\ Forall (line_due (Z.quot t 1000000)) (firstn n ly)
    /\ (n = length ly \/ exists l, nth_error ly n = Some l /\ ~ line_due (Z.quot t 1000000) l)
    /\ forall k, (k < height)%nat ->
         nth k (lyrics_history height ly t) []
         = if (k <? n)%nat then due_words (Z.quot t 1000000) (nth (n - 1 - k) ly []) else [].
Proof.
  intros height ly t Ht. split; [apply history_length|].
  destruct (next_line_spec ly t 0) as (n & E & L & F & G). exists n. split; [auto|]. split; [auto|]. split; [auto|].
  intros k Hk. destruct ly as [|l0 ly].
  - cbn in L. assert (n = 0%nat) by lia. subst n. cbn [lyrics_history]. rewrite nth_repeat. destruct (k <? 0)%nat eqn:E0; [lia|reflexivity].
  - cbn [lyrics_history]. rewrite E.
    rewrite (nth_indep _ [] (lyrics_build_line (0 + Z.of_nat n - Z.of_nat 0 - 1) (l0 :: ly) t)) by (rewrite map_length, seq_length; lia).
    rewrite (map_nth (fun i => lyrics_build_line (0 + Z.of_nat n - Z.of_nat i - 1) (l0 :: ly) t)).
    rewrite seq_nth by lia. destruct (Nat.ltb_spec k n).
    + replace (0 + Z.of_nat n - Z.of_nat (0 + k) - 1) with (Z.of_nat (n - 1 - k)) by lia.
      apply build_line_spec; [lia|auto].
    + apply build_line_before. lia.
Qed.

(** With first words in time order, the bottom line is the last line whose first word is due
    (or an empty line after it). *)
Theorem C55_bottom_line : forall height ly t n, - 2 ^ 62 <= t < 2 ^ 62 -> (0 < height)%nat ->
  (n < length ly)%nat -> nth n ly [] <> [] -> line_due (Z.quot t 1000000) (nth n ly []) ->
  (forall m, (m < length ly)%nat -> nth m ly [] <> [] -> line_due (Z.quot t 1000000) (nth m ly []) -> (m <= n)%nat) ->
  (forall m, (m <= n)%nat -> line_due (Z.quot t 1000000) (nth m ly [])) ->
  (S n = length ly \/ nth (S n) ly [] <> []) ->
  nth 0 (lyrics_history height ly t) [] = due_words (Z.quot t 1000000) (nth n ly []).
Proof.
  intros height ly t n Ht Hh Hn Hne Hd Hmax Hpre Hnext. unfold lyrics_line in *.
  destruct (C55_lines height ly t Ht) as (_ & k & L & F & G & Hnth). unfold lyrics_line in *. rewrite Hnth by lia.
  assert (k = S n) as ->.
  { destruct (Nat.lt_trichotomy k (S n)) as [C|[C|C]]; [|auto|].
    - destruct G as [->|(l & Hl & Nd)]; [unfold lyrics_line in *; lia|]. exfalso. apply Nd. specialize (Hpre k ltac:(lia)).
      now rewrite (nth_error_nth _ _ [] Hl) in Hpre.
    - destruct Hnext as [Hx|Hx]; [lia|]. exfalso.
      assert (S n <= n)%nat; [|lia]. apply Hmax; [lia|auto|].
      rewrite Forall_forall in F. apply F.
      rewrite <- (firstn_skipn k ly) at 1. rewrite app_nth1 by (rewrite firstn_length; lia).
      apply nth_In. rewrite firstn_length. lia. }
  assert ((0 <? S n)%nat = true) as -> by reflexivity. replace (S n - 1 - 0)%nat with n by lia. reflexivity.
Qed.

(** As time goes on no line leaves the set of lines reached; in a line with words in time
    order the words shown stay and others are appended. *)
Theorem C55_monotone : forall ly t1 t2, t1 <= t2 ->
  lyrics_next_line ly t1 0 <= lyrics_next_line ly t2 0
  /\ forall line : lyrics_line, StronglySorted (fun v w => fst v <= fst w) line ->
     exists appended, due_words (Z.quot t2 1000000) line = due_words (Z.quot t1 1000000) line ++ appended.
Proof.
  intros ly t1 t2 H. split; [now apply next_line_mono|]. intros line Hs.
  assert (Hq : Z.quot t1 1000000 <= Z.quot t2 1000000) by (apply Z.quot_le_mono; lia).
  unfold due_words. induction line as [|[ts w] line IH]; [now exists []|]. inversion Hs as [|? ? S1 S2]; subst. cbn [filter fst].
  destruct (Z.ltb_spec ts (Z.quot t1 1000000 + 100)).
  - assert (ts <? Z.quot t2 1000000 + 100 = true) as -> by lia. destruct (IH S1) as (r & Hr). exists r. cbn [map concat snd]. rewrite Hr. now rewrite app_assoc.
  - assert (E : filter (fun w => fst w <? Z.quot t1 1000000 + 100) line = []).
    { clear - S2 H0. induction S2 as [|x l Hx _ IH]; [reflexivity|]. cbn. cbn in Hx.
      assert (fst x <? Z.quot t1 1000000 + 100 = false) as -> by lia. auto. }
    rewrite E. eexists. reflexivity.
Qed.

Example C55_example :
  let ly := [[(0, T "one "); (500, T "two")]; []; [(2000, T "three")]; [(4000, T "four")]] in
  lyrics_history 4 ly 450000000 = [[]; T "one two"; []; []]
  /\ lyrics_history 4 ly 350000000 = [[]; T "one "; []; []]
  /\ lyrics_history 2 ly 2000000000 = [T "three"; []].
Proof. vm_compute. auto. Qed.

(** * C57: durations *)
Theorem C57_duration : forall d, 0 <= d < 2 ^ 63 -> clock_value (fmt_duration d) = d / 1000000000.
Proof.
  intros d Hd. rewrite clock_value_fold. unfold fmt_duration, go_div, go_mod, hour, minute, second.
  rewrite !Z.quot_div_nonneg by lia. rewrite !Z.rem_mod_nonneg by (try apply Z.div_pos; lia).
  assert (Colon : forall st, fold_left clock_step (T ":") st = ((fst st + snd st) * 60, 0)) by reflexivity.
  assert (D : 0 <= d / 1000000000) by (apply Z.div_pos; lia).
  assert (M : d / (60 * 1000000000) = d / 1000000000 / 60) by (rewrite Z.div_div by lia; f_equal; lia).
  assert (H : d / (60 * (60 * 1000000000)) = d / 1000000000 / 60 / 60) by (rewrite !Z.div_div by lia; f_equal; lia).
  set (sec := d / 1000000000) in *.
  assert (S : sec < 2 ^ 63) by (apply Z.div_lt_upper_bound; lia).
  rewrite M, H. clear M H. clearbody sec.
  destruct (d <? 60 * (60 * 1000000000)).
  - destruct (fmt_d_spec (sec / 60)) as (_ & _ & A & _); [split; [apply Z.div_pos; lia|apply Z.div_lt_upper_bound; lia]|].
    destruct (fmt_02d_spec (sec mod 60)) as (_ & _ & B); [apply Z.mod_pos_bound; lia|].
    rewrite !fold_left_app, A, Colon. cbn [fst snd]. rewrite B. pose proof (Z.div_mod sec 60). lia.
  - destruct (fmt_d_spec (sec / 60 / 60)) as (_ & _ & A & _).
    { split; [repeat apply Z.div_pos; lia|]. apply Z.div_lt_upper_bound; [lia|]. apply Z.div_lt_upper_bound; lia. }
    destruct (fmt_02d_spec ((sec / 60) mod 60)) as (_ & _ & B); [apply Z.mod_pos_bound; lia|].
    destruct (fmt_02d_spec (sec mod 60)) as (_ & _ & C); [apply Z.mod_pos_bound; lia|].
    rewrite !fold_left_app, A, !Colon. cbn [fst snd]. rewrite B. cbn [fst snd]. rewrite C.
    pose proof (Z.div_mod sec 60). pose proof (Z.div_mod (sec / 60) 60). lia.
Qed.

(** The shape: m:ss below one hour, h:mm:ss from then on; fields after the first have two
    digits and are below 60. *)
Theorem C57_shape : forall d, 0 <= d < 2 ^ 63 ->
  exists first rest, fmt_duration d = first ++ concat (map (fun f => T ":" ++ f) rest)
    /\ first <> [] /\ Forall is_digit first
    /\ Forall (fun f => length f = 2%nat /\ Forall is_digit f /\ 0 <= clock_value f < 60) rest
    /\ length rest = (if d <? 3600000000000 then 1%nat else 2%nat)
    /\ (3600000000000 <= d -> hd 0%N first <> 48%N).
Proof.
  intros d Hd. unfold fmt_duration, go_div, go_mod, hour, minute, second.
  rewrite !Z.quot_div_nonneg by lia. rewrite !Z.rem_mod_nonneg by (try apply Z.div_pos; lia).
  change (60 * (60 * 1000000000)) with 3600000000000.
  assert (F2 : forall z, length (fmt_02d (z mod 60)) = 2%nat /\ Forall is_digit (fmt_02d (z mod 60)) /\ 0 <= clock_value (fmt_02d (z mod 60)) < 60).
  { intros z. pose proof (Z.mod_pos_bound z 60 ltac:(lia)) as Bd. destruct (fmt_02d_spec (z mod 60) Bd) as (A & B & C).
    split; [auto|]. split; [auto|]. rewrite clock_value_fold, C. lia. }
  assert (B0 : forall k, 0 < k -> 0 <= d / k < 2 ^ 63) by (intros k Hk; split; [apply Z.div_pos; lia|apply Z.div_lt_upper_bound; nia]).
  destruct (Z.ltb_spec d 3600000000000).
  - destruct (fmt_d_spec (d / (60 * 1000000000)) (B0 (60 * 1000000000) ltac:(lia))) as (A & B & _).
    eexists _, [_]. cbn [map concat]. rewrite app_nil_r. split; [reflexivity|]. repeat split; auto. lia.
  - destruct (fmt_d_spec (d / 3600000000000) (B0 3600000000000 ltac:(lia))) as (A & B & _ & _ & _ & C).
    exists (fmt_d (d / 3600000000000)), [fmt_02d ((d / (60 * 1000000000)) mod 60); fmt_02d ((d / 1000000000) mod 60)].
    cbn [map concat]. rewrite app_nil_r, <- !app_assoc. split; [reflexivity|]. repeat split; auto.
    intros _. apply C. assert (1 <= d / 3600000000000); [|lia]. apply Z.div_le_lower_bound; lia.
Qed.

Example C57_example :
  fmt_duration 65999999999 = T "1:05" /\ fmt_duration 3725000000000 = T "1:02:05" /\ fmt_duration 0 = T "0:00" /\
  fmt_duration (-5000000000) = T "0:-5" /\ fmt_duration (-125000000000) = T "-2:-5".
Proof. vm_compute. auto. Qed.

(** * C66: a pause and a resume at the same sample index *)

(** If the resume that follows a pause at the same index is handled first (each message has
    its own goroutine) the display stays on "Paused" for all later samples. *)
Theorem C66_same_index_refuted : forall sr p t, index_ok t ->
  let h := [PauseInfo p t; PauseInfo (negb p) t] in
  exists s s', client_run sr (map Handled h) s Idle [] /\ client_run sr (map Handled (rev h)) s' Idle []
    /\ forall sample, t < sample < 2 ^ 63 ->
         snd (pauses_in_song sample 0 (pauses s)) = negb p /\ snd (pauses_in_song sample 0 (pauses s')) = p.
Proof.
  intros sr p t Ht h. unfold index_ok in Ht.
  set (a := {| t_playing := p; t_index := t |}). set (b := {| t_playing := negb p; t_index := t |}).
  assert (S : forall x y : toggle, t_index x = t -> t_index y = t -> sorted_toggles [x; y]).
  { intros x y Hx Hy. repeat constructor; lia. }
  exists (set_pauses init_state [a; b]), (set_pauses init_state [b; a]). split; [|split].
  - change (map Handled h) with (([] ++ [Handled (PauseInfo p t)]) ++ [Handled (PauseInfo (negb p) t)]).
    apply RunHandle with (s := set_pauses init_state [a]).
    + apply RunHandle with (s := init_state); [constructor|]. apply (HandlePause init_state p t [a]). split; [reflexivity|repeat constructor].
    + apply (HandlePause (set_pauses init_state [a]) (negb p) t [a; b]). split; [reflexivity|now apply S].
  - change (map Handled (rev h)) with (([] ++ [Handled (PauseInfo (negb p) t)]) ++ [Handled (PauseInfo p t)]).
    apply RunHandle with (s := set_pauses init_state [b]).
    + apply RunHandle with (s := init_state); [constructor|]. apply (HandlePause init_state (negb p) t [b]). split; [reflexivity|repeat constructor].
    + apply (HandlePause (set_pauses init_state [b]) p t [b; a]). split; [reflexivity|now apply S].
  - intros sample Hs. cbn [pauses set_pauses].
    assert (I : Forall (fun x => index_ok (t_index x)) [a; b]) by (repeat constructor; unfold a, b, index_ok; cbn; lia).
    assert (I' : Forall (fun x => index_ok (t_index x)) [b; a]) by (repeat constructor; unfold a, b, index_ok; cbn; lia).
    rewrite !pauses_in_song_right by (try apply S; auto; lia). cbn [snd].
    change [a; b] with ([a] ++ [b]). change [b; a] with ([b] ++ [a]).
    rewrite !plays_at_above by (unfold a, b; cbn; lia). auto.
Qed.

(** Whatever the order of handling, a display without a change of that order is right: if the
    announcements with the highest index below the sample agree, they decide. *)
Theorem C66_agreeing_partial : forall sr h s sample start q,
  client_run sr (map Handled h) s Idle [] -> Forall msg_ok h -> 0 <= start <= sample -> sample < 2 ^ 63 ->
  In q (received_toggles h) -> t_index q < sample ->
  (forall q', In q' (received_toggles h) -> t_index q' < sample ->
     t_index q' < t_index q \/ t_index q' = t_index q /\ t_playing q' = t_playing q) ->
  snd (pauses_in_song sample start (pauses s)) = t_playing q.
Proof.
  intros sr h s sample start q H Hok Hr Hm Hq Hlt Hmax.
  destruct (no_display_lists _ _ _ H) as (_ & _ & P & _ & _ & _ & So & _) || destruct (no_display_lists _ _ _ H) as (_ & _ & P & _ & _ & So & _).
  assert (Hi : Forall (fun t => index_ok (t_index t)) (pauses s)).
  { apply (Permutation_Forall P). now apply ok_toggles. }
  rewrite pauses_in_song_right by auto. cbn [snd].
  assert (Hin : In q (pauses s)) by (now apply (Permutation_in _ P)).
  assert (Hmx : forall q', In q' (pauses s) -> t_index q' < sample ->
     t_index q' < t_index q \/ t_index q' = t_index q /\ t_playing q' = t_playing q).
  { intros q' Hq'. apply Hmax. now apply (Permutation_in _ (Permutation_sym P)). }
  clear - So Hin Hmx Hlt. induction (pauses s) as [|t l IH] using rev_ind; [destruct Hin|].
  apply StronglySorted_app in So as (So & _ & Hle).
  rewrite plays_at_app. destruct (Z.leb_spec (t_index t) (sample - 1)) as [L|L].
  - destruct (Hmx t) as [A|[_ A]]; [apply in_or_app; right; now left|lia| |exact A].
    apply in_app_or in Hin as [Hin|[->|[]]]; [|lia].
    specialize (Hle q t Hin (or_introl eq_refl)). cbn in Hle. lia.
  - apply in_app_or in Hin as [Hin|[->|[]]]; [|lia]. apply IH; auto. intros q' Hq'. apply Hmx. apply in_or_app. now left.
Qed.
Example C66_example :
  let h := [PauseInfo true 12; PauseInfo false 5; PauseInfo false 5] in
  exists s, client_run 1 (map Handled h) s Idle [] /\ snd (pauses_in_song 10 0 (pauses s)) = false
    /\ snd (pauses_in_song 13 0 (pauses s)) = true.
Proof. eexists. split; [apply exec_run; vm_compute; reflexivity|]. vm_compute. auto. Qed.

Print Assumptions C49_position.
Print Assumptions C49_monotone.
Print Assumptions C49_matches_players.
Print Assumptions C50_song_shown.
Print Assumptions C51_paused_exact.
Print Assumptions C51_position_advances.
Print Assumptions C65_before_stream_refuted.
Print Assumptions C52_display_partial.
Print Assumptions C52_in_order_partial.
Print Assumptions C52_going_back_refuted.
Print Assumptions C52_race_refuted.
Print Assumptions C53_same_lists.
Print Assumptions C53_same_display.
Print Assumptions C54_progress_partial.
Print Assumptions C54_first_song_refuted.
Print Assumptions C55_lines.
Print Assumptions C55_bottom_line.
Print Assumptions C55_monotone.
Print Assumptions C57_duration.
Print Assumptions C57_shape.
Print Assumptions C66_same_index_refuted.
Print Assumptions C65_before_stream_partial.
Print Assumptions C66_agreeing_partial.
