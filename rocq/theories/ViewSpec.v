(** Vocabulary of C100: what the info client's display says about the stream of the server. *)
From Verif Require Import GoBase GoUtf8 PlaylistModel PlaylistSpec ScheduleModel WireModel InfoerModel InfoerSpec ServerModel.
Local Open Scope Z_scope.

(** [out] is [l] with silence (NaN samples) put in between. *)
Inductive with_silence : list sample -> list sample -> Prop :=
| WS_nil : with_silence [] []
| WS_sample x l out : with_silence l out -> with_silence (x :: l) (x :: out)
| WS_silence l out : with_silence l out -> with_silence l (nan_sample :: out).

(** The events while one song is streamed: blocks of samples and pause announcements. *)
Definition in_song (es : list PlaylistModel.event) : Prop :=
  Forall (fun e => match e with EBlock _ | EToggle _ _ => True | _ => False end) es.

Definition toggle_of (t : bool * Z) : toggle := {| t_playing := fst t; t_index := snd t |}.
Definition announced_toggles (es : list PlaylistModel.event) : list toggle := map toggle_of (toggles_of es).


(** The song [s] of the info client is the announced one. *)
Definition announces (e : PlaylistModel.event) (s : InfoerModel.song) : Prop :=
  match e with ENewSong i f n => startIndex s = i /\ filename s = f /\ length_ s = n | _ => False end.

(** What has reached the client: nothing but announcements of the server, and all of those
    about the stream before sample [x]. *)
Definition heard_songs (es : list PlaylistModel.event) (ms : list message) (x : Z) : Prop :=
  (forall s, In s (received_songs ms) -> exists e, In e es /\ announces e s) /\
  (forall i f n, In (ENewSong i f n) es -> i < x -> exists s, In s (received_songs ms) /\ announces (ENewSong i f n) s).
Definition heard_pauses (es : list PlaylistModel.event) (ms : list message) (x : Z) : Prop :=
  (forall t, In t (received_toggles ms) -> In (EToggle (t_playing t) (t_index t)) es) /\
  (forall b i, In (EToggle b i) es -> i < x -> In {| t_playing := b; t_index := i |} (received_toggles ms)).
(** Chunk [j] of the server's schedule (C24), and the chunks that have reached the client. *)
Definition server_chunk (start size sr j : Z) : InfoerModel.chunk :=
  {| c_startTime := start + j * (size * 1000000000 / sr); c_startIndex := j * size; c_size := size |}.
Definition heard_chunks (start size sr : Z) (ms : list message) : Prop :=
  forall c, In c (received_chunks ms) -> exists j, 0 <= j /\ c = server_chunk start size sr j.

(** The stream between two songs of [es]: sample [x - 1] is one of song [f] with samples
    [content], streamed from index [i] on; [mid] are the events of the song. *)
Definition while_playing (es : list PlaylistModel.event) (i : Z) (f : PlaylistModel.song) (n : Z)
    (mid : list PlaylistModel.event) (x : Z) : Prop :=
  exists a rest, es = a ++ ENewSong i f n :: mid ++ rest /\ in_song mid /\ i < x <= i + zlen (stream_of mid).

(** What the display [d] says is true of the stream: it names the song; [k] samples of it
    have been streamed, silence (pauses) in between; the last sample streamed is one of the
    song if the display says "playing", silence if it says "paused"; the time shown is that
    of [k] samples and the length that of the song (not for a song at index 0: C54). *)
Definition shows_the_truth (sr : Z) (d : info) (i : Z) (f : PlaylistModel.song) (content : list sample)
    (mid : list PlaylistModel.event) : Prop :=
  filename (i_song d) = f /\ startIndex (i_song d) = i /\ length_ (i_song d) = zlen content /\
  let y := i_sample d - i in
  exists k, 0 <= k <= zlen content /\
    with_silence (firstn (Z.to_nat k) content) (firstn (Z.to_nat y) (stream_of mid)) /\
    (if i_playing d
     then 1 <= k /\ nth_error (stream_of mid) (Z.to_nat (y - 1)) = nth_error content (Z.to_nat (k - 1))
     else nth_error (stream_of mid) (Z.to_nat (y - 1)) = Some nan_sample) /\
    (0 < i -> i_timeInSong d = k * 1000000000 / sr /\ i_songLength d = zlen content * 1000000000 / sr).
