(** What the settings of the clients do to them: the places in the info client's Info and
    drawing (cmd/music-sync-infoer/state.go 41-69, 149-185, 223-229; cmd/music-sync-infoer/main.go 111-179) and in the
    player's initialisation (playback/playback.go 79-135) where Go panics.  InfoerModel and
    DrawModel have the same functions without these places; C120 shows when that is right. *)
From Verif Require Import GoBase GoUtf8 WireModel InfoerModel DrawModel LifeModel.
Local Open Scope Z_scope.

(** integer division panics for a divisor of 0 *)
Definition div_go (a b : Z) : outcome Z := if b =? 0 then Panic else Ok (go_div a b).

(** state.go 223-229 (endTime, length) *)
Definition end_time_go (sr : Z) (c : chunk) : outcome Z :=
  do l <- div_go (wrap64 (wrap64 (c_size c) * second)) sr; Ok (wrap64 (c_startTime c + l)).
(** 165-186 (removeOldChunks) *)
Fixpoint remove_old_chunks_go (sr now : Z) (l : list chunk) : outcome (list chunk) :=
  match l with
  | [] => Ok []
  | c :: r => do e <- end_time_go sr c; if now <=? e then Ok l else remove_old_chunks_go sr now r
  end.
(** 149-163 (currentSample) divides by a constant: [sample_at].
    41-69 (Info) *)
Definition info_go (sr now : Z) (s : state) : outcome info :=
  do ch <- remove_old_chunks_go sr now (chunks s);
  let sample := sample_at sr now ch in
  let cur := current_song sample (songs s) in
  let ps := remove_old_pauses (startIndex cur) (pauses s) in
  let '(pz, playing) := pauses_in_song sample (startIndex cur) ps in
  if negb (startIndex cur =? 0) && (wrap64 (startIndex cur) <? sample) then
    let sampleInSong := wrap64 (wrap64 (sample - wrap64 (startIndex cur)) - pz) in
    do t <- div_go (wrap64 (sampleInSong * second)) sr;
    do len <- div_go (wrap64 (length_ cur * second)) sr;
    Ok {| i_song := cur; i_sample := sample; i_pauses := pz; i_now := now; i_playing := playing; i_volume := volume s;
          i_songLength := len; i_timeInSong := t;
          i_progress := if 0 <? length_ cur then (sampleInSong, length_ cur) else (0, 1) |}
  else
    Ok {| i_song := cur; i_sample := sample; i_pauses := pz; i_now := now; i_playing := playing; i_volume := volume s;
          i_songLength := 0; i_timeInSong := 0; i_progress := (0, 1) |}.

(** cmd/music-sync-infoer/main.go 152-155: int arithmetic wraps *)
Definition lyrics_height_go (history h : Z) : Z := if h <? wrap64 (history + 7) then wrap64 (h - 7) else history.
(** cmd/music-sync-infoer/main.go 151-179 (drawLyrics, lyricsHistory): make([]string, height), 16 bytes each; the
    slice is made whether or not there are lyrics *)
Definition draw_lyrics_go (history w h : Z) (i : info) : outcome (list (Z * Z * N)) :=
  let height := lyrics_height_go history h in
  if 0 <? height then
    if can_make height 16 then
      let lines := lyrics_history (Z.to_nat height) (lyrics (i_song i)) (i_timeInSong i) in
      Ok (concat (map (fun p => draw_string 1 (h - 7 - Z.of_nat (fst p)) (snd p)) (combine (seq 0 (length lines)) lines))
          ++ draw_box 0 (h - 7 - height) w (height + 2)
          ++ draw_string 2 (h - 7 - height) (T "Lyrics"))
    else Panic
  else Ok [].
(** cmd/music-sync-infoer/main.go 111-119 (redraw) *)
Definition redraw_go (sr history w h now : Z) (s : state) : outcome (info * list (Z * Z * N)) :=
  do i <- info_go sr now s;
  do ly <- draw_lyrics_go history w h i;
  Ok (i, draw_playback_info w h i ++ ly).

(** ** The player *)
Inductive player_fate :=
| PlayerCrashes                        (* panics while it starts *)
| CrashesAtChunk                       (* panics when the first chunk arrives *)
| Silent                               (* takes chunks and never plays anything *)
| PlaysBuffers (buffer queue : Z).     (* samples played at a time, capacity of the sample queue *)
(** playback.go 84-135 (Init, initStreamer, playLoop), provided the sound system takes the sample
    rate (an error of oto.NewContext ends the player: schedule/player.go 13-16).  beep: N(d) is
    d * sr / second; 2 * SampleRate entries of 24 bytes in the queue; the buffers have
    bufferSize * 16 and * 4 bytes.  With an empty buffer playLoop plays nothing for ever
    (streamer.go 32).  ReadChunks divides by the sample rate (streamer.go 86, 100). *)
Definition player_fate_of (sr : Z) : player_fate :=
  let buffer := go_div (wrap64 (100000000 * sr)) 1000000000 in
  let capacity := wrap64 (2 * sr) in
  if negb (can_make capacity 24 && can_make buffer 16) then PlayerCrashes
  else if sr =? 0 then CrashesAtChunk
  else if buffer =? 0 then Silent
  else PlaysBuffers buffer capacity.
