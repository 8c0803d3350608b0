(** Theorems about announcing songs and pauses: C37-C39, C56, C67-C69. *)
From Verif Require Import GoBase GoBaseFacts GoUtf8 WireModel WireSpec WireProofs WireProps SenderModel
  InfoerModel InfoerSpec InfoerProofs InfoerRunProofs InfoerMoreProofs InfoerExec ServerModel ServerSpec ServerProofs.
From Coq Require Import Permutation Sorted ZifyBool ZifyNat.
Local Open Scope Z_scope.

(** * C37: what a new client is told *)
Theorem C37_messages : forall ss c,
  client_handler ss c =
    if (c =? AUDIO) then [SetVolumeRequest (s_volume ss)]
    else if (c =? META) then
      SetVolumeRequest (s_volume ss)
        :: (match s_newest ss with Some m => [m] | None => [] end)
        ++ map (fun t => PauseInfo (t_playing t) (t_index t)) (s_pauses ss)
    else [].
Proof. intros ss c. unfold client_handler. destruct (c =? AUDIO); [reflexivity|]. destruct (c =? META); reflexivity. Qed.

(** The complete picture: an info client that subscribes to a server with any past, and
    handles what it is sent in any order, shows - for every sample of the newest song - that
    song, the server's volume, the number of samples of the song paused so far and whether
    that sample plays, as in the complete pause history (toggles at different samples). *)
Theorem C37_new_client_right : forall ev h l v first file len ly md ms s sample sr,
  let m := NewSongInfo first file len ly md in
  sequential ev (Some m) h l ->
  Permutation ms (client_handler {| s_volume := v; s_newest := Some m; s_pauses := l |} META) ->
  client_run sr (map Handled ms) s Idle [] ->
  NoDup (map t_index h) -> Forall (fun t => index_ok (t_index t)) h ->
  0 <= first < sample -> sample < 2 ^ 63 ->
  current_song sample (songs s) = song_of first file len ly md
  /\ volume s = v
  /\ pauses_in_song sample first (pauses s) = (paused_samples h first sample, plays_at h (sample - 1)).
Proof.
  intros ev h l v first file len ly md ms s sample sr m Hseq P Hrun Hd Hi Hf Hs.
  destruct (sequential_inv _ _ _ _ Hseq) as (Sh & r & -> & C).
  destruct (no_display_lists _ _ _ Hrun) as (A1 & _ & A3 & _ & _ & A6 & A7).
  assert (Et : received_toggles (map pause_message l) = l).
  { clear. induction l as [|[p i] l IH]; [reflexivity|]. cbn. f_equal. exact IH. }
  assert (Es : received_songs (map pause_message l) = []).
  { clear. induction l as [|[p i] l IH]; [reflexivity|]. exact IH. }
  assert (P1 : Permutation (received_songs ms) [song_of first file len ly md]).
  { etransitivity; [apply (perm_flat_map _ _ _ P)|]. 
    change (flat_map _ _) with (song_of first file len ly md :: received_songs (map pause_message l)). now rewrite Es. }
  assert (P3 : Permutation (received_toggles ms) l).
  { etransitivity; [apply (perm_flat_map _ _ _ P)|]. 
    change (flat_map _ _) with (received_toggles (map pause_message l)). now rewrite Et. }
  assert (E1 : songs s = [song_of first file len ly md]).
  { apply Permutation_length_1_inv. now rewrite <- A1, P1. }
  apply StronglySorted_app in Sh as (Sr & Sl & _). apply Forall_app in Hi as [Hir Hil].
  rewrite map_app in Hd.
  assert (Hdl : NoDup (map t_index l)).
  { clear - Hd. induction (map t_index r) as [|x rr IH]; [exact Hd|]. inversion Hd; auto. }
  assert (E3 : pauses s = l).
  { symmetry. apply (sorted_perm_unique t_index); auto. now rewrite <- A3, P3. }
  split; [|split].
  - rewrite E1. cbn. rewrite w64 by lia. assert (first <? sample = true) as -> by lia. reflexivity.
  - rewrite A7. clear - P. 
    assert (V : forall k w0, Permutation k (SetVolumeRequest v :: w0) ->
              Forall (fun x => match x with SetVolumeRequest _ => False | _ => True end) w0 -> received_volume k = v).
    { intros k w0 Pk F. symmetry in Pk.
      assert (In (SetVolumeRequest v) k) by (apply (Permutation_in _ Pk); now left).
      apply in_split in H as (k1 & k2 & ->). apply Permutation_cons_app_inv in Pk.
      apply (Permutation_Forall Pk) in F. apply Forall_app in F as [_ F].
      unfold received_volume. rewrite fold_left_app. cbn [fold_left]. generalize v. clear - F.
      induction F as [|x k2 Hx F IH]; intros v; [reflexivity|]. destruct x; cbn [fold_left]; auto. destruct Hx. }
    apply (V _ _ P). constructor; [exact I|]. cbn. apply Forall_forall. intros x Hx. apply in_map_iff in Hx as (t & <- & _). exact I.
  - rewrite E3, pauses_in_song_right by (auto; lia).
    destruct C as [->|(m0 & k & rest & E & -> & Hk)]; [reflexivity|]. injection E as <-. cbn [start_of] in Hk. unfold m in Hk. cbn in Hk.
    f_equal.
    + apply paused_ext. intros x Hx. symmetry. apply plays_suffix. lia.
    + symmetry. apply plays_suffix. lia.
Qed.

(** * C38: pruning old pauses *)

(** At every sample from the start of the newest song on, the retained pauses say the same
    as the complete history ... *)
Theorem C38_same_answers : forall ev n h l x, sequential ev n h l -> newest_start n <= x -> plays_at l x = plays_at h x.
Proof.
  intros ev n h l x H Hx. destruct (sequential_inv _ _ _ _ H) as (_ & r & -> & C).
  destruct C as [->|(m & k & rest & -> & -> & Hk)]; [reflexivity|]. symmetry. apply plays_suffix. cbn in Hx. lia.
Qed.

(** ... and the info client computes from them what it would compute from the history. *)
Theorem C38_pruning_invisible : forall ev n h l start sample, sequential ev n h l ->
  Forall (fun t => index_ok (t_index t)) h ->
  0 <= start -> newest_start n <= start < sample -> sample < 2 ^ 63 ->
  pauses_in_song sample start l = pauses_in_song sample start h
  /\ pauses_in_song sample start l = (paused_samples h start sample, plays_at h (sample - 1)).
Proof.
  intros ev n h l start sample H Hi H0 Hs Hm.
  assert (A : pauses_in_song sample start l = (paused_samples h start sample, plays_at h (sample - 1))).
  { assert (A := C38_same_answers ev n h l). destruct (sequential_inv _ _ _ _ H) as (Sh & r & E & C). rewrite E in Sh, Hi.
    apply StronglySorted_app in Sh as (_ & Sl & _). apply Forall_app in Hi as [_ Hil].
    rewrite pauses_in_song_right by (auto; lia). f_equal.
    - apply paused_ext. intros x Hx. apply A; [auto|lia].
    - apply A; [auto|lia]. }
  split; [|exact A]. rewrite A. symmetry. apply pauses_in_song_right; auto; [lia|].
  now apply (sequential_inv _ _ _ _ H).
Qed.

(** Pruning does drop something. *)
Definition tg (p : bool) (i : Z) : toggle := {| t_playing := p; t_index := i |}.
Definition a_song (start : Z) : message := NewSongInfo start (T "a.mp3") 100 [] None.
Example C38_example : exists ev,
  sequential ev (Some (a_song 10)) [tg false 1; tg true 4; tg false 6; tg true 9; tg false 12] [tg true 9; tg false 12]
  /\ pauses_in_song 15 10 [tg true 9; tg false 12] = (3, false).
Proof.
  eexists. split; [|vm_compute; reflexivity].
  eapply (SeqToggle _ _ [tg false 1; tg true 4; tg false 6; tg true 9] [tg true 9]); [|repeat constructor; cbn; lia].
  eapply (SeqPrune _ _ _ [tg false 1; tg true 4; tg false 6; tg true 9]); [|vm_compute; reflexivity].
  eapply SeqSong with (n := None); [|discriminate].
  eapply (SeqToggle _ _ [tg false 1; tg true 4; tg false 6] [tg false 1; tg true 4; tg false 6]); [|repeat constructor; cbn; lia].
  eapply (SeqToggle _ _ [tg false 1; tg true 4] [tg false 1; tg true 4]); [|repeat constructor; cbn; lia].
  eapply (SeqToggle _ _ [tg false 1] [tg false 1]); [|repeat constructor; cbn; lia].
  eapply (SeqToggle _ _ [] []); [constructor|constructor].
Qed.

Example C37_example : exists ev s,
  sequential ev (Some (a_song 10)) [tg false 1; tg true 4; tg false 6; tg true 9; tg false 12] [tg true 9; tg false 12]
  /\ client_run 1 (map Handled [PauseInfo false 12; a_song 10; PauseInfo true 9; SetVolumeRequest 5]) s Idle []
  /\ Permutation [PauseInfo false 12; a_song 10; PauseInfo true 9; SetVolumeRequest 5]
       (client_handler {| s_volume := 5; s_newest := Some (a_song 10); s_pauses := [tg true 9; tg false 12] |} META)
  /\ pauses_in_song 15 10 (pauses s) = (3, false).
Proof.
  destruct C38_example as (ev & H & _). exists ev. eexists. split; [exact H|].
  split; [apply exec_run; vm_compute; reflexivity|]. split; [|vm_compute; reflexivity].
  cbn. apply Permutation_sym. change [PauseInfo false 12; a_song 10; PauseInfo true 9; SetVolumeRequest 5] with ([PauseInfo false 12; a_song 10; PauseInfo true 9] ++ SetVolumeRequest 5 :: []).
  apply Permutation_cons_app. cbn. change [PauseInfo false 12; a_song 10; PauseInfo true 9] with ([PauseInfo false 12] ++ a_song 10 :: [PauseInfo true 9]).
  apply Permutation_cons_app. apply perm_swap.
Qed.

(** * C39: concurrent pruning *)

(** One after the other, a second pruning has no effect, and no pruning panics. *)
Theorem C39_one_after_another_partial : forall newest l, exists l', remove_old newest l = Ok l' /\ remove_old newest l' = Ok l'.
Proof.
  intros newest l. exists (skipn (removable newest l) l). split; [apply remove_old_ok|].
  eapply remove_old_twice. apply remove_old_ok.
Qed.

(** As long as no pruning counts while another one is between counting and removing -
    appends, songs and clients may come anywhere -, there is no panic and the retained
    pauses answer every question about samples of the newest song like all appended ones.
    Missing: overlapping prunings, for which it is false (below). *)
Theorem C39_no_overlap_partial : forall tr w, wrun tr w -> songs_in_order tr -> no_overlap tr ->
  w_crashed w = false
  /\ forall x m, w_newest w = Some m -> start_of m <= x -> plays_at (w_pauses w) x = plays_at (appended tr) x.
Proof.
  intros tr w H Ho Hn. destruct (pruning_inv _ _ H Ho Hn) as (A & (r & E & C) & _). split; [exact A|].
  intros x m Hm Hx. rewrite E. destruct C as [->|(m' & k & rest & N & L & _ & I)]; [reflexivity|].
  rewrite Hm in N. injection N as <-. rewrite L. symmetry. apply plays_suffix. lia.
Qed.

(** Two prunings that both count [k] before either removes: the second removal takes away
    [k] further pauses, or panics if there are not as many. *)
Theorem C39_double_removal_refuted : forall newest l, let k := removable newest l in (0 < k)%nat ->
  remove_first k l = Ok (skipn k l)
  /\ remove_first k (skipn k l) = if (length l <? 2 * k)%nat then Panic else Ok (skipn (2 * k) l).
Proof.
  intros newest l k Hk. pose proof (removable_le newest l). fold k in H. split; [now apply remove_first_ok|].
  pose proof (skipn_length k l). destruct (Nat.ltb_spec (length l) (2 * k)).
  - apply remove_first_panic. lia.
  - rewrite remove_first_ok by lia. f_equal. rewrite skipn_skipn. f_equal. lia.
Qed.

Lemma wrun_exec : forall labels tr w w', wrun tr w ->
  (fix go ls w := match ls with [] => w = w' | l :: r => exists w2, w_crashed w = false /\ wstep w l w2 /\ go r w2 end) labels w ->
  wrun (tr ++ labels) w'.
Proof.
  induction labels as [|l ls IH]; intros tr w w' H G; [rewrite app_nil_r; now subst|].
  destruct G as (w2 & Hc & Hs & G). change (l :: ls) with ([l] ++ ls). rewrite app_assoc. eapply IH; [|exact G]. eapply WStep; eassumption.
Qed.

(** the pauses [p1, play2, p3] are appended, pruning finds nothing to remove (no song yet) *)
Definition three_pauses : list label :=
  [Toggle (tg false 1); PauseBroadcast (tg false 1); Append (tg false 1); Count;
   Toggle (tg true 2); PauseBroadcast (tg true 2); Append (tg true 2); Count;
   Toggle (tg false 3); PauseBroadcast (tg false 3); Append (tg false 3); Count].

Ltac one_step c := eexists; split; [reflexivity|]; split; [c|cbn].
Ltac song_steps := one_step ltac:(apply SStartSong); one_step ltac:(eapply (SNewSong _ _ []); reflexivity);
  one_step ltac:(eapply SSongBroadcast; reflexivity).
Ltac toggle_steps := 
  one_step ltac:(apply SToggle); one_step ltac:(eapply (SPauseBroadcast _ _ []); reflexivity);
  one_step ltac:(eapply (SAppend _ _ []); reflexivity); one_step ltac:(eapply SCount; reflexivity).

(** A resume and a pause in quick succession crash the server. *)
Theorem C39_crash_refuted : exists w,
  wrun (three_pauses ++ [StartSong (a_song 10); NewSong (a_song 10); SongBroadcast;
          Toggle (tg true 4); PauseBroadcast (tg true 4); Toggle (tg false 5); PauseBroadcast (tg false 5);
          Append (tg true 4); Append (tg false 5); Count; Count; Remove 3; Remove 3]) w
  /\ w_crashed w = true.
Proof.
  eexists. split.
  - apply (wrun_exec _ [] init_world); [constructor|]. cbn.
    do 3 toggle_steps.
    song_steps.
    one_step ltac:(apply SToggle). one_step ltac:(eapply (SPauseBroadcast _ _ []); reflexivity).
    one_step ltac:(apply SToggle). one_step ltac:(eapply (SPauseBroadcast _ _ []); reflexivity).
    one_step ltac:(eapply (SAppend _ _ []); reflexivity). one_step ltac:(eapply (SAppend _ _ []); reflexivity).
    one_step ltac:(eapply SCount; reflexivity). one_step ltac:(eapply SCount; reflexivity).
    one_step ltac:(eapply (SRemove _ _ []); reflexivity). one_step ltac:(eapply (SRemovePanic _ _ []); reflexivity).
    reflexivity.
  - reflexivity.
Qed.

Lemma no_count_no_removal tr w : wrun tr w -> ~ In Count tr -> w_removals w = [].
Proof.
  induction 1 as [|tr w l w' H IH Hc Hs]; intros N; [reflexivity|].
  assert (w_removals w = []) by (apply IH; intros C; apply N, in_or_app; auto).
  inversion Hs; subst; cbn; auto.
  - exfalso. apply N, in_or_app. right. now left.
  - rewrite H0 in H1. now destruct a.
  - rewrite H0 in H1. now destruct a.
Qed.

Example C39_example : exists tr w, wrun tr w /\ songs_in_order tr /\ no_overlap tr
  /\ appended tr = [tg false 1; tg true 4; tg false 6; tg true 9; tg false 12] /\ w_pauses w = [tg true 9; tg false 12].
Proof.
  exists ([Toggle (tg false 1); Append (tg false 1); Toggle (tg true 4); Append (tg true 4); StartSong (a_song 10); NewSong (a_song 10);
     Toggle (tg false 6); Append (tg false 6); Toggle (tg true 9); Append (tg true 9)] ++
     Count :: [Toggle (tg false 12); Append (tg false 12); Remove 3]).
  eexists. split; [|split; [|split; [|split]]].
  - apply (wrun_exec _ [] init_world); [constructor|]. cbn.
    do 2 (one_step ltac:(apply SToggle); one_step ltac:(eapply (SAppend _ _ []); reflexivity)).
    one_step ltac:(apply SStartSong). one_step ltac:(eapply (SNewSong _ _ []); reflexivity).
    do 2 (one_step ltac:(apply SToggle); one_step ltac:(eapply (SAppend _ _ []); reflexivity)).
    one_step ltac:(eapply SCount; reflexivity).
    one_step ltac:(apply SToggle). one_step ltac:(eapply (SAppend _ _ []); reflexivity).
    one_step ltac:(eapply (SRemove _ _ []); reflexivity). reflexivity.
  - repeat constructor.
  - intros before after w0 E H. apply (no_count_no_removal before); [exact H|]. intros C.
    apply in_split in C as (b1 & b2 & ->).
    apply (f_equal (fun x => length (filter (fun l => match l with Count => true | _ => false end) x))) in E.
    rewrite !filter_app, !app_length in E. cbn [filter] in E. cbn [length] in E. rewrite ?filter_app, ?app_length in E. cbn [filter length app] in E. lia.
  - reflexivity.
  - reflexivity.
Qed.

(** With more pauses retained, pauses that are still needed are lost: samples 10 to
    19 of the song were paused, a new client that is sent the retained pauses counts none. *)
Theorem C39_lost_pause_refuted : exists w,
  wrun (three_pauses ++ [StartSong (a_song 10); NewSong (a_song 10); SongBroadcast;
          Toggle (tg true 4); PauseBroadcast (tg true 4); Toggle (tg false 5); PauseBroadcast (tg false 5);
          Append (tg true 4); Append (tg false 5); Count; Count;
          Toggle (tg true 20); PauseBroadcast (tg true 20); Append (tg true 20);
          Toggle (tg false 30); PauseBroadcast (tg false 30); Append (tg false 30); Remove 3; Remove 3]) w
  /\ w_crashed w = false
  /\ sorted_toggles [tg false 1; tg true 2; tg false 3; tg true 4; tg false 5; tg true 20; tg false 30]
  /\ w_pauses w = [tg false 30]
  /\ pauses_in_song 25 10 [tg false 1; tg true 2; tg false 3; tg true 4; tg false 5; tg true 20; tg false 30] = (10, true)
  /\ pauses_in_song 25 10 (w_pauses w) = (0, true).
Proof.
  eexists. split; [|split; [|split; [|split; [|split]]]].
  - apply (wrun_exec _ [] init_world); [constructor|]. cbn.
    do 3 toggle_steps.
    song_steps.
    one_step ltac:(apply SToggle). one_step ltac:(eapply (SPauseBroadcast _ _ []); reflexivity).
    one_step ltac:(apply SToggle). one_step ltac:(eapply (SPauseBroadcast _ _ []); reflexivity).
    one_step ltac:(eapply (SAppend _ _ []); reflexivity). one_step ltac:(eapply (SAppend _ _ []); reflexivity).
    one_step ltac:(eapply SCount; reflexivity). one_step ltac:(eapply SCount; reflexivity).
    one_step ltac:(apply SToggle). one_step ltac:(eapply (SPauseBroadcast _ _ []); reflexivity).
    one_step ltac:(eapply (SAppend _ _ []); reflexivity).
    one_step ltac:(apply SToggle). one_step ltac:(eapply (SPauseBroadcast _ _ []); reflexivity).
    one_step ltac:(eapply (SAppend _ _ []); reflexivity).
    one_step ltac:(eapply (SRemove _ _ []); reflexivity). one_step ltac:(eapply (SRemove _ _ []); reflexivity).
    reflexivity.
  - reflexivity.
  - repeat constructor; cbn; lia.
  - reflexivity.
  - vm_compute. reflexivity.
  - vm_compute. reflexivity.
Qed.

(** * C56: lyrics and metadata arrive unchanged *)

(** The conversions undo each other, for every lyrics and metadata. *)
Theorem C56_conversion : forall ly md,
  from_wire_lyrics (to_wire_lyrics ly) = ly
  /\ from_wire_metadata (Some (m_title md, m_artist md, m_album md)) = md.
Proof.
  intros ly md. split; [|destruct md; reflexivity].
  unfold from_wire_lyrics, to_wire_lyrics. rewrite map_map. rewrite <- (map_id ly) at 2.
  apply map_ext. intros line. rewrite map_map. rewrite <- (map_id line) at 2. apply map_ext. intros []. reflexivity.
Qed.

(** From the server's providers to the client's state: the song arrives with its file name,
    length, lyrics and metadata.  Missing: songs with a text that is not UTF-8 (below). *)
Theorem C56_arrives_partial : forall (w : wire_env) start file len ly md,
  zlib_inverse w -> sendable w (new_song_message start file len ly md) ->
  exists f, frame_of w (new_song_message start file len ly md) f
    /\ forall pieces rest, concat pieces = f ++ rest ->
       exists pieces' ly' md', read_wire w pieces = Ok (Some (NewSongInfo start file len ly' md'), pieces')
         /\ concat pieces' = rest /\ from_wire_lyrics ly' = ly /\ from_wire_metadata md' = md.
Proof.
  intros w start file len ly md Hz Hs. destruct (C30_round_trip w _ Hz Hs) as (f & Hf & H). exists f. split; [exact Hf|].
  intros pieces rest E. destruct (H pieces rest E) as (p' & R & C). exists p', (to_wire_lyrics ly), (Some (m_title md, m_artist md, m_album md)).
  destruct (C56_conversion ly md) as [C1 C2]. auto.
Qed.

(** A song whose file name, title, artist or album is not UTF-8 (an ID3v1 tag in Latin-1,
    for example) is never announced. *)
Theorem C56_not_utf8_refuted : forall (w : wire_env) start file len ly md text,
  In text [file; m_title md; m_artist md; m_album md] ->
  (forall t, Forall scalar t -> text <> utf8_encode t) ->
  forall script, send_wire w (new_song_message start file len ly md) script = ([], Some false).
Proof.
  intros w start file len ly md text Hin Ht. apply C30_refused_iff_not_utf8. cbn.
  intros ((t1 & A1 & A2) & _ & (t2 & B1 & B2) & (t3 & C1 & C2) & (t4 & D1 & D2)).
  destruct Hin as [<-|[<-|[<-|[<-|[]]]]]; [apply (Ht t1 A1 A2)|apply (Ht t2 B1 B2)|apply (Ht t3 C1 C2)|apply (Ht t4 D1 D2)].
Qed.

Example C56_example : exists ly md,
  sendable toy_env (new_song_message 5 (T "a.mp3") 7 ly md) /\ ly <> [] /\ In [] ly.
Proof.
  exists [[{| a_timestamp := 1; a_caption := T "la" |}; {| a_timestamp := 9; a_caption := T "" |}]; []],
    {| m_title := T "t"; m_artist := T ""; m_album := T "x y" |}.
  split; [|split; [discriminate|cbn; auto]].
  split; [|split; [apply strings_ok; vm_compute; reflexivity|small_fits]]. cbn. unfold in_int64, in_uint64.
  repeat split; try lia. repeat constructor; cbn; lia.
Qed.

(** * C67: pauses are recorded in order *)

(** Each toggle is appended by a goroutine of its own: pausing at 3, resuming at 5 and
    pausing at 8 may be recorded as pause, pause, resume.  Pruning then keeps only the
    resume: a client that subscribes later shows a paused stream as playing. *)
Theorem C67_recorded_in_order_refuted : exists tr w,
  wrun tr w /\ toggled tr = [tg false 3; tg true 5; tg false 8] /\ appended tr = [tg false 3; tg false 8; tg true 5]
  /\ w_prunes w = O /\ w_removals w = [] /\ w_newest w = Some (a_song 10)
  /\ w_pauses w = [tg true 5]
  /\ pauses_in_song 12 10 (toggled tr) = (2, false) /\ pauses_in_song 12 10 (w_pauses w) = (0, true).
Proof.
  exists [StartSong (a_song 10); NewSong (a_song 10); SongBroadcast;
     Toggle (tg false 3); PauseBroadcast (tg false 3); Append (tg false 3); Count;
     Toggle (tg true 5); PauseBroadcast (tg true 5); Toggle (tg false 8); PauseBroadcast (tg false 8);
     Append (tg false 8); Append (tg true 5); Count; Remove 2; Count].
  eexists. split; [|split; [reflexivity|]; split; [reflexivity|]].
  - apply (wrun_exec _ [] init_world); [constructor|]. cbn.
    song_steps.
    one_step ltac:(apply SToggle). one_step ltac:(eapply (SPauseBroadcast _ _ []); reflexivity).
    one_step ltac:(eapply (SAppend _ _ []); reflexivity). one_step ltac:(eapply SCount; reflexivity).
    one_step ltac:(apply SToggle). one_step ltac:(eapply (SPauseBroadcast _ _ []); reflexivity).
    one_step ltac:(apply SToggle). one_step ltac:(eapply (SPauseBroadcast _ _ []); reflexivity).
    one_step ltac:(eapply (SAppend _ _ [_]); reflexivity). one_step ltac:(eapply (SAppend _ _ []); reflexivity).
    one_step ltac:(eapply SCount; reflexivity). one_step ltac:(eapply (SRemove _ _ []); reflexivity).
    one_step ltac:(eapply SCount; reflexivity). reflexivity.
  - cbn. repeat split.
Qed.

(** Every recorded toggle was made, and none is recorded twice. *)
Theorem C67_recorded_once : forall tr w, wrun tr w -> Permutation (toggled tr) (appended tr ++ w_appends w).
Proof.
  induction 1 as [|tr w l w' H IH Hc Hs]; [constructor|]. rewrite toggled_app, appended_app.
  inversion Hs; subst; cbn [toggled appended flat_map app upd_song upd_pauses upd_toggle upd_client w_appends]; rewrite ?app_nil_r; auto.
  - rewrite IH, <- app_assoc. reflexivity.
  - rewrite IH, <- app_assoc, H0. cbn [app]. apply Permutation_app_head. symmetry. apply Permutation_middle.
Qed.

(** If each toggle is appended before the next one is made, the record is complete and in
    order, and the pauses retained answer every question about the newest song like the
    toggles made. *)
Theorem C67_recorded_in_order_partial : forall tr w, wrun tr w -> no_overtaking tr ->
  toggled tr = appended tr ++ w_appends w
  /\ (songs_in_order tr -> no_overlap tr -> w_appends w = [] ->
      forall x m, w_newest w = Some m -> start_of m <= x -> plays_at (w_pauses w) x = plays_at (toggled tr) x).
Proof.
  intros tr w H Hn. assert (E : toggled tr = appended tr ++ w_appends w).
  { assert (G : (length (w_appends w) <= 1)%nat /\ toggled tr = appended tr ++ w_appends w); [|apply G].
    induction H as [|tr w l w' H IH Hc Hs]; [cbn; auto|].
    assert (Hn' : no_overtaking tr).
    { intros b t a w0 E. apply (Hn b t (a ++ [l])). rewrite E, <- app_assoc. reflexivity. }
    destruct (IH Hn') as [L IHe]. clear IH. rewrite toggled_app, appended_app.
    inversion Hs; subst; cbn [toggled appended flat_map app upd_song upd_pauses upd_toggle upd_client w_appends]; rewrite ?app_nil_r; auto.
    - rewrite (Hn tr t [] w eq_refl H) in IHe |- *. rewrite app_nil_r in IHe. cbn. rewrite IHe. auto.
    - rewrite H0 in L, IHe. rewrite app_length in L. cbn in L. destruct a; [|cbn in L; lia]. destruct b; [|cbn in L; lia].
      cbn. rewrite app_nil_r. split; [lia|exact IHe]. }
  split; [exact E|]. intros Ho Hv Ha x m Hm Hx. rewrite E, Ha, app_nil_r.
  destruct (C39_no_overlap_partial tr w H Ho Hv) as [_ A]. eapply A; eassumption.
Qed.
Example C67_example : exists tr w, wrun tr w /\ no_overtaking tr /\ toggled tr = [tg false 3; tg true 5; tg false 8]
  /\ w_appends w = [] /\ plays_at (w_pauses w) 12 = false.
Proof.
  exists [Toggle (tg false 3); Append (tg false 3); Toggle (tg true 5); Append (tg true 5); Toggle (tg false 8); Append (tg false 8)].
  eexists. split; [|split; [|split; [reflexivity|]]].
  - apply (wrun_exec _ [] init_world); [constructor|]. cbn.
    do 3 (one_step ltac:(apply SToggle); one_step ltac:(eapply (SAppend _ _ []); reflexivity)). reflexivity.
  - intros before t after w E H.
    assert (Hb : before = [] \/ before = [Toggle (tg false 3); Append (tg false 3)]
       \/ before = [Toggle (tg false 3); Append (tg false 3); Toggle (tg true 5); Append (tg true 5)]).
    { do 6 (destruct before as [|? before]; [try discriminate E; injection E as <- <-; auto|injection E as <- E]).
      destruct before; discriminate E. }
    pose proof (C67_recorded_once _ _ H) as P.
    destruct Hb as [->|[->| ->]]; cbn in P; apply Permutation_length in P; rewrite ?app_length in P; cbn in P;
      destruct (w_appends w); [reflexivity|cbn in P; lia|reflexivity|cbn in P; lia|reflexivity|cbn in P; lia].
  - cbn. auto.
Qed.

(** * C68: a new info client misses nothing *)

(** Once the client has been sent the newest song, it always has the announcement of the
    newest song - unless a broadcast is under way. *)
Theorem C68_newest_song : forall tr w m, wrun tr w -> In SendSong tr -> w_newest w = Some m ->
  In m (w_received w) \/ (0 < w_song_broadcasts w)%nat.
Proof. exact newest_heard. Qed.

(** If songs are announced one by one, every song announced after the subscription is
    received.  Missing: overlapping announcements, see [C70_overtaken_refuted]. *)
Theorem C68_later_songs_partial : forall before after w m, wrun (before ++ Subscribe :: after) w ->
  announced_one_by_one (before ++ Subscribe :: after) -> In m (announced after) -> w_song_broadcasts w = O ->
  In m (w_received w).
Proof.
  intros before after w m H Ho Hm H0.
  destruct (later_songs_heard _ _ _ _ _ H Ho eq_refl Hm) as [I|[_ I]]; [exact I|lia].
Qed.

Example C68_example : exists w, 
  let tr := [StartSong (a_song 1); NewSong (a_song 1); SongBroadcast] ++ Subscribe ::
      [SendSong; StartSong (a_song 10); NewSong (a_song 10); SongBroadcast; SendPauses] in
  wrun tr w /\ announced_one_by_one tr /\ w_received w = [a_song 1; a_song 10].
Proof.
  eexists. cbn zeta. split; [|split].
  - apply (wrun_exec _ [] init_world); [constructor|]. cbn. song_steps.
    one_step ltac:(apply SSubscribe; reflexivity). one_step ltac:(apply SSendSong; reflexivity).
    song_steps. one_step ltac:(apply SSendPauses; reflexivity). reflexivity.
  - intros before m after w E H.
    assert (Hb : before = [StartSong (a_song 1)] \/
            before = [StartSong (a_song 1); NewSong (a_song 1); SongBroadcast; Subscribe; SendSong; StartSong (a_song 10)]).
    { do 9 (destruct before as [|? before]; [try discriminate E; injection E as <- <-; auto|injection E as <- E]).
      destruct before; discriminate E. }
    destruct Hb as [->| ->].
    + apply (wrun_snoc []) in H as (w0 & H & _ & Hs). inversion H; [|now destruct tr]. subst. inversion Hs; subst. reflexivity.
    + apply (wrun_snoc [_; _; _; _; _]) in H as (w5 & H & _ & H5). apply (wrun_snoc [_; _; _; _]) in H as (w4 & H & _ & H4).
      apply (wrun_snoc [_; _; _]) in H as (w3 & H & _ & H3). apply (wrun_snoc [_; _]) in H as (w2 & H & _ & H2).
      apply (wrun_snoc [_]) in H as (w1 & H & _ & H1). apply (wrun_snoc []) in H as (w0 & H & _ & H0).
      inversion H; [|now destruct tr]. subst. inversion H0; subst. inversion H1; subst. inversion H2; subst.
      inversion H3; subst. inversion H4; subst. inversion H5; subst. cbn in *. congruence.
  - reflexivity.
Qed.

(** Every toggle made after the subscription is received, and so is every toggle retained
    when the pauses are sent.  Missing: toggles made before the subscription and appended
    after the pauses were sent (below). *)
Theorem C68_pauses_partial :
  (forall before after w t, wrun (before ++ Subscribe :: after) w -> In t (toggled after) ->
     In (pause_message t) (w_received w) \/ In t (w_pause_broadcasts w))
  /\ (forall before after w, wrun (before ++ SendPauses :: after) w ->
       exists w0, wrun before w0 /\ forall t, In t (w_pauses w0) -> In (pause_message t) (w_received w)).
Proof.
  split.
  - intros before after w t H. eapply later_toggles_heard; eauto.
  - intros before after w H. eapply retained_heard; eauto.
Qed.

(** A toggle whose broadcast ends before the subscription and whose append starts after the
    pauses were sent is never received: the client shows a paused stream as playing. *)
Theorem C68_pauses_refuted : exists tr w,
  wrun tr w /\ toggled tr = [tg false 12] /\ w_client w = Done
  /\ w_pause_broadcasts w = [] /\ w_appends w = [] /\ w_prunes w = O /\ w_removals w = []
  /\ w_received w = [a_song 10]
  /\ plays_at (toggled tr) 15 = false /\ plays_at (received_toggles (w_received w)) 15 = true.
Proof.
  exists [StartSong (a_song 10); NewSong (a_song 10); SongBroadcast; Toggle (tg false 12); PauseBroadcast (tg false 12);
     Subscribe; SendSong; SendPauses; Append (tg false 12); Count].
  eexists. split; [|split; [reflexivity|]].
  - apply (wrun_exec _ [] init_world); [constructor|]. cbn.
    song_steps.
    one_step ltac:(apply SToggle). one_step ltac:(eapply (SPauseBroadcast _ _ []); reflexivity).
    one_step ltac:(apply SSubscribe; reflexivity). one_step ltac:(apply SSendSong; reflexivity).
    one_step ltac:(apply SSendPauses; reflexivity). one_step ltac:(eapply (SAppend _ _ []); reflexivity).
    one_step ltac:(eapply SCount; reflexivity). reflexivity.
  - cbn. repeat split.
Qed.

(** * C70: every song is announced, in order *)

(** The goroutine announcing a song sends the newest announcement stored, not its own: if
    the next song's goroutine stores in between, the first song is announced to nobody and
    the second twice. *)
Theorem C70_overtaken_refuted : exists tr w,
  wrun tr w /\ started tr = [a_song 5; a_song 10] /\ In Subscribe tr
  /\ w_song_starts w = [] /\ w_song_broadcasts w = O /\ w_received w = [a_song 10; a_song 10].
Proof.
  exists [Subscribe; SendSong; SendPauses; StartSong (a_song 5); StartSong (a_song 10); NewSong (a_song 5); NewSong (a_song 10);
     SongBroadcast; SongBroadcast].
  eexists. split; [|split; [reflexivity|]; split; [now left|]].
  - apply (wrun_exec _ [] init_world); [constructor|]. cbn.
    one_step ltac:(apply SSubscribe; reflexivity). one_step ltac:(apply SSendSong; reflexivity).
    one_step ltac:(apply SSendPauses; reflexivity). do 2 one_step ltac:(apply SStartSong).
    do 2 one_step ltac:(eapply (SNewSong _ _ []); reflexivity). do 2 one_step ltac:(eapply SSongBroadcast; reflexivity).
    reflexivity.
  - cbn. auto.
Qed.

(** If the metadata of a song take longer to collect than those of the next one, the older
    song stays "newest": clients that subscribe later are told the wrong song. *)
Theorem C70_stale_newest_refuted : exists tr w,
  wrun tr w /\ started tr = [a_song 5; a_song 10] /\ w_song_starts w = [] /\ w_song_broadcasts w = O
  /\ In SendSong tr /\ w_received w = [a_song 5] /\ w_newest w = Some (a_song 5).
Proof.
  exists [StartSong (a_song 5); StartSong (a_song 10); NewSong (a_song 10); SongBroadcast; NewSong (a_song 5); SongBroadcast;
     Subscribe; SendSong].
  eexists. split; [|split; [reflexivity|]].
  - apply (wrun_exec _ [] init_world); [constructor|]. cbn.
    do 2 one_step ltac:(apply SStartSong).
    one_step ltac:(eapply (SNewSong _ _ [_]); reflexivity). one_step ltac:(eapply SSongBroadcast; reflexivity).
    one_step ltac:(eapply (SNewSong _ _ []); reflexivity). one_step ltac:(eapply SSongBroadcast; reflexivity).
    one_step ltac:(apply SSubscribe; reflexivity). one_step ltac:(apply SSendSong; reflexivity). reflexivity.
  - cbn. repeat split; auto 12.
Qed.

(** Songs announced one after the other: a client that had subscribed when no announcement
    was under way is told each of them once, in order; the newest song is the last one. *)
Theorem C70_one_after_the_other_partial : forall w0 after w ms,
  w_client w0 = Done -> w_song_starts w0 = [] -> w_song_broadcasts w0 = O ->
  goes_on w0 after w -> announcing_steps after = one_after_the_other ms -> forallb is_song ms = true ->
  filter is_song (w_received w) = filter is_song (w_received w0) ++ ms
  /\ w_newest w = last (map Some ms) (w_newest w0).
Proof.
  intros w0 after w ms Hd Hs0 Hb0 H E Hms.
  assert (G : w_client w = Done /\
    forall ms part, announcing_steps after = one_after_the_other ms ++ part -> 
      forallb is_song ms = true ->
    (part = [] -> w_song_starts w = [] /\ w_song_broadcasts w = O
       /\ filter is_song (w_received w) = filter is_song (w_received w0) ++ ms /\ w_newest w = last (map Some ms) (w_newest w0))
    /\ (forall m, part = [StartSong m] -> w_song_starts w = [m] /\ w_song_broadcasts w = O
       /\ filter is_song (w_received w) = filter is_song (w_received w0) ++ ms /\ w_newest w = last (map Some ms) (w_newest w0))
    /\ (forall m, part = [StartSong m; NewSong m] -> w_song_starts w = [] /\ w_song_broadcasts w = 1%nat
       /\ filter is_song (w_received w) = filter is_song (w_received w0) ++ ms /\ w_newest w = Some m)).
  2:{ destruct G as [_ G']. destruct (G' ms []) as [G0 _]; [now rewrite app_nil_r|exact Hms|].
      destruct (G0 eq_refl) as (_ & _ & A & B). auto. }
  clear ms E Hms. induction H as [|tr w l w' H [Hdone IH] Hc Hs].
  { split; [exact Hd|]. intros ms part E _. split; [|split].
    - intros ->. rewrite app_nil_r in E. destruct ms; [|discriminate E]. cbn. rewrite app_nil_r. auto.
    - intros m ->. destruct ms; discriminate E.
    - intros m ->. destruct ms; discriminate E. }
  assert (Hdone' : w_client w' = Done) by (inversion Hs; subst; cbn; congruence).
  split; [exact Hdone'|]. unfold announcing_steps in *. rewrite filter_app.
  destruct (match l with StartSong _ | NewSong _ | SongBroadcast => true | _ => false end) eqn:K.
  - (* a step of an announcing goroutine *)
    cbn [filter]. rewrite K. intros ms part E Hms. split; [|split].
    + intros ->. rewrite app_nil_r in E. destruct ms as [|m ms _] using rev_ind; [now destruct (filter _ tr)|].
      unfold one_after_the_other in E. rewrite flat_map_app in E. cbn [flat_map app] in E.
      change [StartSong m; NewSong m; SongBroadcast] with ([StartSong m; NewSong m] ++ [SongBroadcast]) in E.
      rewrite app_assoc in E. apply app_inj_tail in E as [E ->]. rewrite forallb_app in Hms. apply andb_prop in Hms as [Hms Hm].
      cbn in Hm. rewrite andb_true_r in Hm.
      destruct (IH ms _ E Hms) as (_ & _ & C). destruct (C m eq_refl) as (C1 & C2 & C3 & C4).
      inversion Hs; subst. cbn. rewrite H0 in C2. injection C2 as ->. rewrite C4 in H1. injection H1 as ->.
      unfold heard. rewrite Hdone. cbn [is_subscribed]. rewrite filter_app, C3. cbn [filter]. rewrite Hm, map_app, <- app_assoc. cbn [map].
      rewrite last_last. auto.
    + intros m ->. apply app_inj_tail in E as [E ->]. 
      destruct (IH ms [] (eq_trans E (eq_sym (app_nil_r _))) Hms) as (A & _). destruct (A eq_refl) as (A1 & A2 & A3 & A4).
      inversion Hs; subst. cbn. rewrite A1. auto.
    + intros m ->. change [StartSong m; NewSong m] with ([StartSong m] ++ [NewSong m]) in E. rewrite app_assoc in E.
      apply app_inj_tail in E as [E ->]. destruct (IH ms _ E Hms) as (_ & B & _). destruct (B m eq_refl) as (B1 & B2 & B3 & B4).
      inversion Hs; subst. cbn. rewrite B1 in H2. destruct a as [|x a]; [|destruct a; discriminate H2]. injection H2 as <-.
      rewrite B2. auto.
  - (* any other step *)
    cbn [filter]. rewrite K, app_nil_r. intros ms part E Hms. specialize (IH ms part E Hms).
    assert (X : w_song_starts w' = w_song_starts w /\ w_song_broadcasts w' = w_song_broadcasts w /\ w_newest w' = w_newest w
                /\ filter is_song (w_received w') = filter is_song (w_received w)).
    { inversion Hs; subst; try discriminate K; cbn; try congruence; auto.
      unfold heard. rewrite Hdone. cbn [is_subscribed]. rewrite filter_app. cbn. now rewrite app_nil_r. }
    destruct X as (-> & -> & -> & ->). exact IH.
Qed.
Lemma goes_exec : forall w0 labels tr w w', goes_on w0 tr w ->
  (fix go ls w := match ls with [] => w = w' | l :: r => exists w2, w_crashed w = false /\ wstep w l w2 /\ go r w2 end) labels w ->
  goes_on w0 (tr ++ labels) w'.
Proof.
  intros w0. induction labels as [|l ls IH]; intros tr w w' H G; [rewrite app_nil_r; now subst|].
  destruct G as (w2 & Hc & Hs & G). change (l :: ls) with ([l] ++ ls). rewrite app_assoc. eapply IH; [|exact G]. eapply GoStep; eassumption.
Qed.
Example C70_example : exists before w0 after w,
  wrun before w0 /\ w_client w0 = Done /\ w_song_starts w0 = [] /\ w_song_broadcasts w0 = O
  /\ goes_on w0 after w /\ announcing_steps after = one_after_the_other [a_song 5; a_song 10]
  /\ w_received w = [a_song 1; a_song 5; PauseInfo false 7; a_song 10].
Proof.
  exists [StartSong (a_song 1); NewSong (a_song 1); SongBroadcast; Subscribe; SendSong; SendPauses]. eexists.
  exists [StartSong (a_song 5); Toggle (tg false 7); NewSong (a_song 5); SongBroadcast; PauseBroadcast (tg false 7);
     StartSong (a_song 10); NewSong (a_song 10); SongBroadcast]. eexists.
  split; [|split; [|split; [|split; [|split; [|split]]]]].
  - apply (wrun_exec _ [] init_world); [constructor|]. cbn. song_steps.
    one_step ltac:(apply SSubscribe; reflexivity). one_step ltac:(apply SSendSong; reflexivity).
    one_step ltac:(apply SSendPauses; reflexivity). reflexivity.
  - reflexivity.
  - reflexivity.
  - reflexivity.
  - apply (goes_exec _ _ [] _ _ (GoOn _)). cbn.
    one_step ltac:(apply SStartSong). one_step ltac:(apply SToggle). one_step ltac:(eapply (SNewSong _ _ []); reflexivity).
    one_step ltac:(eapply SSongBroadcast; reflexivity). one_step ltac:(eapply (SPauseBroadcast _ _ []); reflexivity).
    one_step ltac:(apply SStartSong). one_step ltac:(eapply (SNewSong _ _ []); reflexivity).
    one_step ltac:(eapply SSongBroadcast; reflexivity). reflexivity.
  - reflexivity.
  - reflexivity.
Qed.

(** Each song is stored exactly once. *)
Theorem C70_stored_once_partial : forall tr w, wrun tr w -> Permutation (started tr) (announced tr ++ w_song_starts w).
Proof.
  induction 1 as [|tr w l w' H IH Hc Hs]; [constructor|]. rewrite announced_app. unfold started. rewrite flat_map_app.
  fold (started tr).
  inversion Hs; subst; cbn [announced flat_map app upd_song upd_pauses upd_toggle upd_client w_song_starts]; rewrite ?app_nil_r; auto.
  - rewrite IH, <- app_assoc. reflexivity.
  - rewrite IH, <- app_assoc, H0. cbn [app]. apply Permutation_app_head. symmetry. apply Permutation_middle.
Qed.

(** * C69: a new info client shows the song that is playing *)

(** The next song is announced as soon as it is queued, while the current one still plays; a
    client that subscribes then is told the next song only and shows no song until it
    starts. *)
Theorem C69_current_song_refuted : forall first file len ly md sample,
  0 <= first < 2 ^ 63 -> sample <= first ->
  forall v pauses ms s sr, let m := NewSongInfo first file len ly md in
  Permutation ms (client_handler {| s_volume := v; s_newest := Some m; s_pauses := pauses |} META) ->
  client_run sr (map Handled ms) s Idle [] ->
  current_song sample (songs s) = no_song.
Proof.
  intros first file len ly md sample Hf Hs v l ms s sr m P Hrun.
  destruct (no_display_lists _ _ _ Hrun) as (A1 & _).
  assert (Es : received_songs (map pause_message l) = []).
  { clear. induction l as [|[p i] l IH]; [reflexivity|]. exact IH. }
  assert (P1 : Permutation (received_songs ms) [song_of first file len ly md]).
  { etransitivity; [apply (perm_flat_map _ _ _ P)|].
    change (flat_map _ _) with (song_of first file len ly md :: received_songs (map pause_message l)). now rewrite Es. }
  assert (E1 : songs s = [song_of first file len ly md]).
  { apply Permutation_length_1_inv. now rewrite <- A1, P1. }
  rewrite E1. cbn. rewrite w64 by lia. assert (first <? sample = false) as -> by lia. reflexivity.
Qed.

(** What holds: if the newest song has started, a client that subscribes shows it, in
    whatever order it handles what it is sent. *)
Theorem C69_newest_started_partial : forall first file len ly md sample,
  0 <= first < sample -> sample < 2 ^ 63 ->
  forall v pauses ms s sr, let m := NewSongInfo first file len ly md in
  Permutation ms (client_handler {| s_volume := v; s_newest := Some m; s_pauses := pauses |} META) ->
  client_run sr (map Handled ms) s Idle [] ->
  current_song sample (songs s) = song_of first file len ly md.
Proof.
  intros first file len ly md sample Hf Hs v l ms s sr m P Hrun.
  destruct (no_display_lists _ _ _ Hrun) as (A1 & _).
  assert (Es : received_songs (map pause_message l) = []).
  { clear. induction l as [|[p i] l IH]; [reflexivity|]. exact IH. }
  assert (P1 : Permutation (received_songs ms) [song_of first file len ly md]).
  { etransitivity; [apply (perm_flat_map _ _ _ P)|].
    change (flat_map _ _) with (song_of first file len ly md :: received_songs (map pause_message l)). now rewrite Es. }
  assert (E1 : songs s = [song_of first file len ly md]).
  { apply Permutation_length_1_inv. now rewrite <- A1, P1. }
  rewrite E1. cbn. rewrite w64 by lia. assert (first <? sample = true) as -> by lia. reflexivity.
Qed.

Print Assumptions C37_new_client_right.
Print Assumptions C38_pruning_invisible.
Print Assumptions C39_no_overlap_partial.
Print Assumptions C39_crash_refuted.
Print Assumptions C56_arrives_partial.
Print Assumptions C67_recorded_in_order_refuted.
Print Assumptions C68_newest_song.
Print Assumptions C68_pauses_refuted.
Print Assumptions C70_overtaken_refuted.
Print Assumptions C69_current_song_refuted.
Print Assumptions C69_newest_started_partial.
Print Assumptions C67_recorded_in_order_partial.
Print Assumptions C70_one_after_the_other_partial.
