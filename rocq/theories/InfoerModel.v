(** Model of the info client: cmd/music-sync-infoer/state.go,
    infoer_package_handler.go and the lyrics and duration functions of main.go.
    Drawing on the terminal is in DrawModel. *)
From Verif Require Import GoBase GoUtf8 WireModel.
From Coq Require Import Permutation Sorted.
Local Open Scope Z_scope.
Local Open Scope bool_scope.

(** metadata/lyrics_provider.go lines 12-18: a lyrics line is a list of atoms (timestamp
    in ms, caption); metadata/metadata_provider.go lines 17-21: title, artist, album. *)
Definition lyrics_line : Type := list (Z * bytes).

(** state.go lines 209-215: upcomingSong *)
Record song : Type := {
  filename : bytes;
  startIndex : Z;
  length_ : Z;
  lyrics : list lyrics_line;
  metadata : bytes * bytes * bytes
}.

(** state.go lines 217-221: upcomingChunk *)
Record chunk : Type := { c_startTime : Z; c_startIndex : Z; c_size : Z }.

(** state.go lines 231-234: pauseToggle *)
Record toggle : Type := { t_playing : bool; t_index : Z }.

(** state.go lines 10-21: state; sampleRate is schedule.SampleRate *)
Record state : Type := {
  songs : list song;
  chunks : list chunk;
  pauses : list toggle;
  volume : N
}.
Definition set_songs (s : state) l : state :=
  {| songs := l; chunks := chunks s; pauses := pauses s; volume := volume s |}.
Definition set_chunks (s : state) l : state :=
  {| songs := songs s; chunks := l; pauses := pauses s; volume := volume s |}.
Definition set_pauses (s : state) l : state :=
  {| songs := songs s; chunks := chunks s; pauses := l; volume := volume s |}.
Definition set_volume (s : state) v : state :=
  {| songs := songs s; chunks := chunks s; pauses := pauses s; volume := v |}.

(** state.go line 207 *)
Definition init_state : state := {| songs := []; chunks := []; pauses := []; volume := 0 |}.

(** time.Second *)
Definition second : Z := 1000000000.

(** state.go lines 227-229: length; int64 arithmetic wraps *)
Definition chunk_length (sr : Z) (c : chunk) : Z := go_div (wrap64 (wrap64 (c_size c) * second)) sr.
(** lines 223-225: endTime *)
Definition end_time (sr : Z) (c : chunk) : Z := wrap64 (c_startTime c + chunk_length sr c).

(** lines 173-185: removeOldChunks: the leading chunks that have ended are dropped *)
Fixpoint remove_old_chunks (sr now : Z) (l : list chunk) : list chunk :=
  match l with
  | [] => []
  | c :: r => if now <=? end_time sr c then l else remove_old_chunks sr now r
  end.

(** lines 149-163: currentSample, after removeOldChunks *)
Definition sample_at (sr now : Z) (l : list chunk) : Z :=
  match l with
  | [] => 0
  | c :: _ =>
      let timeInChunk := wrap64 (now - c_startTime c) in
      let sampleInChunk := go_div (wrap64 (timeInChunk * sr)) second in
      wrap64 (wrap64 (c_startIndex c) + sampleInChunk)
  end.

(** line 138 *)
Definition no_song : song :=
  {| filename := T "None"; startIndex := 0; length_ := 0; lyrics := []; metadata := ([], [], []) |}.

(** lines 134-147: currentSong searches from the end *)
Fixpoint find_song (sample : Z) (rev_songs : list song) : song :=
  match rev_songs with
  | [] => no_song
  | s :: r => if wrap64 (startIndex s) <? sample then s else find_song sample r
  end.
Definition current_song (sample : Z) (l : list song) : song := find_song sample (rev l).

(** lines 115-132: removeOldPauses: [passed] is the index of the last resume before the
    start of the song; everything before it is dropped. *)
Fixpoint last_resume (start : Z) (l : list toggle) (i passed : nat) : nat :=
  match l with
  | [] => passed
  | p :: r => last_resume start r (S i) (if t_playing p && (t_index p <? start) then i else passed)
  end.
Definition remove_old_pauses (start : Z) (l : list toggle) : list toggle :=
  skipn (last_resume start l 0 0) l.

(** lines 71-75: pausesInCurrentSongState *)
Record picss : Type := { ps_playing : bool; ps_pauses : Z; ps_begin : Z }.

(** lines 77-97: handlePause *)
Definition handle_pause (sample start : Z) (st : picss) (p : toggle) : picss :=
  if (to_uint64 sample <=? t_index p) || Bool.eqb (ps_playing st) (t_playing p) then st
  else
    let idx := wrap64 (t_index p) in
    let pauses1 := if t_playing p then wrap64 (ps_pauses st + wrap64 (idx - ps_begin st)) else ps_pauses st in
    let begin1 := if t_playing p then ps_begin st else idx in
    let pauses2 := if t_index p <? start
                   then (if t_playing p then 0 else wrap64 (idx - wrap64 start))
                   else pauses1 in
    {| ps_playing := t_playing p; ps_pauses := pauses2; ps_begin := begin1 |}.

(** lines 99-113: pausesInCurrentSong *)
Definition pauses_in_song (sample start : Z) (l : list toggle) : Z * bool :=
  let st := fold_left (handle_pause sample start) l {| ps_playing := true; ps_pauses := 0; ps_begin := 0 |} in
  (if ps_playing st then ps_pauses st else wrap64 (ps_pauses st + wrap64 (sample - ps_begin st)), ps_playing st).

(** lines 188-198: playbackInformation.  The progress is kept as a fraction (the code
    divides two floats, line 54); [(0, 1)] stands for "not set". *)
Record info : Type := {
  i_song : song;
  i_sample : Z;
  i_pauses : Z;
  i_now : Z;
  i_playing : bool;
  i_volume : N;
  i_songLength : Z;
  i_timeInSong : Z;
  i_progress : Z * Z
}.

(** line 52 and 56: samples to a duration in ns *)
Definition samples_to_ns (sr n : Z) : Z := go_div (wrap64 (n * second)) sr.

(** lines 41-69: Info, from the values the sub-steps computed *)
Definition make_info (sr now sample : Z) (cur : song) (pz : Z) (playing : bool) (vol : N) : info :=
  let shown := negb (startIndex cur =? 0) && (wrap64 (startIndex cur) <? sample) in
  let sampleInSong := wrap64 (wrap64 (sample - wrap64 (startIndex cur)) - pz) in
  {| i_song := cur; i_sample := sample; i_pauses := pz; i_now := now; i_playing := playing; i_volume := vol;
     i_songLength := if shown then samples_to_ns sr (length_ cur) else 0;
     i_timeInSong := if shown then samples_to_ns sr sampleInSong else 0;
     i_progress := if shown && (0 <? length_ cur) then (sampleInSong, length_ cur) else (0, 1) |}.

(** lines 41-69: Info as one uninterrupted computation.  In the program its steps lock the
    three lists one after the other; [client_run] below has them as separate steps. *)
Definition get_info (sr now : Z) (s : state) : info * state :=
  let ch := remove_old_chunks sr now (chunks s) in
  let sample := sample_at sr now ch in
  let cur := current_song sample (songs s) in
  let ps := remove_old_pauses (startIndex cur) (pauses s) in
  let '(pz, playing) := pauses_in_song sample (startIndex cur) ps in
  (make_info sr now sample cur pz playing (volume s), set_pauses (set_chunks s ch) ps).

(** infoer_package_handler.go lines 20-37: conversion of a song announcement *)
Definition song_of (first : Z) (file : bytes) (len : Z) (ly : list (list (Z * bytes)))
           (md : option (bytes * bytes * bytes)) : song :=
  {| filename := file; startIndex := first; length_ := len; lyrics := ly;
     metadata := match md with Some x => x | None => ([], [], []) end |}.

(** sort.Sort after an append (lines 46, 57, 67): some permutation of the elements sorted
    by key; the order of equal keys is not specified (sort.Sort is not stable). *)
Definition stored {A} (key : A -> Z) (old : list A) (x : A) (new : list A) : Prop :=
  Permutation (old ++ [x]) new /\ StronglySorted (fun a b => key a <= key b) new.

(** Messages of other types do not touch the state (infoer_package_handler.go 15-18, 74-76
    and the empty methods of comm.BaseTypedPackageHandler). *)
Definition touches_state (m : message) : bool :=
  match m with
  | NewSongInfo _ _ _ _ _ | ChunkInfo _ _ _ | PauseInfo _ _ | SetVolumeRequest _ => true
  | _ => false
  end.

(** infoer_package_handler.go lines 20-72: handling of one message (each handler runs in
    its own goroutine and holds its list's lock). *)
Inductive handled (s : state) : message -> state -> Prop :=
| HandleSong f file len ly md l :
    stored startIndex (songs s) (song_of f file len ly md) l ->
    handled s (NewSongInfo f file len ly md) (set_songs s l)
| HandleChunk t f n l :
    stored c_startIndex (chunks s) {| c_startTime := t; c_startIndex := f; c_size := n |} l ->
    handled s (ChunkInfo t f n) (set_chunks s l)
| HandlePause p t l :
    stored t_index (pauses s) {| t_playing := p; t_index := t |} l ->
    handled s (PauseInfo p t) (set_pauses s l)
| HandleVolume v : handled s (SetVolumeRequest v) (set_volume s v)
| HandleOther m : touches_state m = false -> handled s m s.

(** How far the redraw loop (main.go lines 101-119) has got in Info (state.go 41-69).  The
    five critical sections of one call are removeOldChunks (151), reading the chunk
    (153-160), currentSong (43), removeOldPauses (44) and pausesInCurrentSong (45); the
    volume is read after that (65). *)
Inductive display : Type :=
| Idle
| ChunksPruned (now : Z)
| HasSample (now sample : Z)
| HasSong (now sample : Z) (cur : song)
| PausesPruned (now sample : Z) (cur : song).

(** What happens in the client: a message is handled, or the redraw loop does its next
    critical section.  The line 65 read of the volume is part of [CountPauses]. *)
Inductive event : Type :=
| Handled (m : message)
| PruneChunks (now : Z)
| ReadSample
| ReadSong
| PrunePauses
| CountPauses.

(** Executions: the events so far, the state, the progress of the redraw loop and what has
    been displayed so far (oldest first). *)
Inductive client_run (sr : Z) : list event -> state -> display -> list info -> Prop :=
| RunInit : client_run sr [] init_state Idle []
| RunHandle tr s d out m s' :
    client_run sr tr s d out -> handled s m s' -> client_run sr (tr ++ [Handled m]) s' d out
| RunPruneChunks tr s out now :
    client_run sr tr s Idle out ->
    client_run sr (tr ++ [PruneChunks now]) (set_chunks s (remove_old_chunks sr now (chunks s)))
      (ChunksPruned now) out
| RunReadSample tr s now out :
    client_run sr tr s (ChunksPruned now) out ->
    client_run sr (tr ++ [ReadSample]) s (HasSample now (sample_at sr now (chunks s))) out
| RunReadSong tr s now sample out :
    client_run sr tr s (HasSample now sample) out ->
    client_run sr (tr ++ [ReadSong]) s (HasSong now sample (current_song sample (songs s))) out
| RunPrunePauses tr s now sample cur out :
    client_run sr tr s (HasSong now sample cur) out ->
    client_run sr (tr ++ [PrunePauses]) (set_pauses s (remove_old_pauses (startIndex cur) (pauses s)))
      (PausesPruned now sample cur) out
| RunCountPauses tr s now sample cur out :
    client_run sr tr s (PausesPruned now sample cur) out ->
    client_run sr (tr ++ [CountPauses]) s Idle
      (out ++ [let '(pz, playing) := pauses_in_song sample (startIndex cur) (pauses s) in
               make_info sr now sample cur pz playing (volume s)]).

(** * Lyrics (cmd/music-sync-infoer/main.go) *)

(** time.Millisecond *)
Definition millisecond : Z := 1000000.

(** cmd/music-sync-infoer/main.go lines 181-190: lyricsNextLine; nil and empty lines are one *)
Fixpoint lyrics_next_line (ly : list lyrics_line) (t : Z) (i : Z) : Z :=
  match ly with
  | [] => i
  | l :: r =>
      match l with
      | (ts, _) :: _ => if go_div t millisecond <? ts then i else lyrics_next_line r t (i + 1)
      | [] => lyrics_next_line r t (i + 1)
      end
  end.

(** cmd/music-sync-infoer/main.go lines 192-204: lyricsBuildLine *)
Definition lyrics_build_line (index : Z) (ly : list lyrics_line) (t : Z) : bytes :=
  if (index <? 0) || (zlen ly <=? index) then []
  else flat_map (fun a => if fst a <? wrap64 (go_div t millisecond + 100) then snd a else [])
                (nth (Z.to_nat index) ly []).

(** cmd/music-sync-infoer/main.go lines 166-179: lyricsHistory ([height] > 0, line 156) *)
Definition lyrics_history (height : nat) (ly : list lyrics_line) (t : Z) : list bytes :=
  match ly with
  | [] => repeat [] height
  | _ :: _ =>
      let next := lyrics_next_line ly t 0 in
      map (fun i => lyrics_build_line (next - Z.of_nat i - 1) ly t) (seq 0 height)
  end.

(** * Durations (cmd/music-sync-infoer/main.go lines 84-89): fmtDuration *)

(** fmt's %d for non-negative values: decimal digits without leading zeros *)
Fixpoint decimal (fuel : nat) (z : Z) : text :=
  match fuel with
  | O => []
  | S fuel' =>
      if z <? 10 then [Z.to_N (48 + z)]
      else decimal fuel' (z / 10) ++ [Z.to_N (48 + z mod 10)]
  end.
Definition fmt_d (z : Z) : text := if z <? 0 then T "-" ++ decimal 25 (- z) else decimal 25 z.
(** %02d: the minus sign counts, so a negative number is never padded to two characters *)
Definition fmt_02d (z : Z) : text := if (0 <=? z) && (z <? 10) then T "0" ++ fmt_d z else fmt_d z.

(** time.Minute *)
Definition minute : Z := 60 * second.
(** time.Hour *)
Definition hour : Z := 60 * minute.
(** cmd/music-sync-infoer/main.go 84-89 (fmtDuration) *)
Definition fmt_duration (d : Z) : text :=
  if d <? hour then
    fmt_d (go_div d minute) ++ T ":" ++ fmt_02d (go_mod (go_div d second) 60)
  else
    fmt_d (go_div d hour) ++ T ":" ++ fmt_02d (go_mod (go_div d minute) 60) ++ T ":"
    ++ fmt_02d (go_mod (go_div d second) 60).
