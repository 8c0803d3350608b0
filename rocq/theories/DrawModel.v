(** Model of the info client's screen: cmd/music-sync-infoer/drawing.go and the drawing
    functions of cmd/music-sync-infoer/main.go (111-164).

    A Go string is a list of bytes.  tcell's SetContent stores a rune in a cell and ignores
    cells outside of the screen; a redraw starts with Clear, which makes every cell blank.
    The drawer's w and h are the size of the screen (they differ only while a resize event is
    being handled).  Styles are constant and left out; how many terminal columns a rune takes
    up when shown is up to the terminal. *)
From Verif Require Import GoBase GoUtf8 GoFmt PlaylistModel PcmModel GoFloat VolumeModel WireModel InfoerModel.
Local Open Scope Z_scope.

(* ------------------------------------------------------------------ *)
(** ** Cells *)

(** the calls of SetContent in order: column, row, rune *)
Notation writes := (list (Z * Z * N)) (only parsing).

(** tcell: a cell shows the rune of the last SetContent on it (cmd/music-sync-infoer/drawing.go 31-70 make the calls). *)
Fixpoint last_write (ws : writes) (x y : Z) : option N :=
  match ws with
  | [] => None
  | (x', y', r) :: rest =>
      match last_write rest x y with
      | Some r' => Some r'
      | None => if (x' =? x) && (y' =? y) then Some r else None
      end
  end.

(** what cell (x, y) of a cleared screen of size w, h holds after the calls; None: no such cell *)
Definition cell (w h : Z) (ws : writes) (x y : Z) : option N :=
  if (0 <=? x) && (x <? w) && (0 <=? y) && (y <? h) then
    Some (match last_write ws x y with Some r => r | None => 32%N end)
  else None.

(* ------------------------------------------------------------------ *)
(** ** Strings *)

(** one step of Go's range over a string: the rune and its number of bytes (utf8.DecodeRune;
    U+FFFD and 1 for invalid bytes) *)
Definition decode_rune (b : bytes) : N * nat :=
  let bad := (0xFFFD%N, 1%nat) in
  match b with
  | [] => bad
  | x :: r =>
      if (x <? 0x80)%N then (x, 1%nat)
      else match r with
           | [] => bad
           | y :: r1 =>
               if between 0xC2 0xDF x then
                 if cont y then (((x - 0xC0) * 64 + (y - 0x80))%N, 2%nat) else bad
               else match r1 with
                    | [] => bad
                    | z :: r2 =>
                        if between 0xE0 0xEF x then
                          if (if (x =? 0xE0)%N then between 0xA0 0xBF y
                              else if (x =? 0xED)%N then between 0x80 0x9F y else cont y) && cont z
                          then ((((x - 0xE0) * 64 + (y - 0x80)) * 64 + (z - 0x80))%N, 3%nat) else bad
                        else match r2 with
                             | [] => bad
                             | u :: _ =>
                                 if between 0xF0 0xF4 x
                                    && (if (x =? 0xF0)%N then between 0x90 0xBF y
                                        else if (x =? 0xF4)%N then between 0x80 0x8F y else cont y)
                                    && cont z && cont u
                                 then (((((x - 0xF0) * 64 + (y - 0x80)) * 64 + (z - 0x80)) * 64 + (u - 0x80))%N, 4%nat)
                                 else bad
                             end
                    end
           end
  end.

(** range str: (byte offset, rune) *)
Fixpoint range_string (fuel : nat) (off : Z) (b : bytes) : list (Z * N) :=
  match fuel, b with
  | S fuel', _ :: _ =>
      let '(r, n) := decode_rune b in
      (off, r) :: range_string fuel' (off + Z.of_nat n) (skipn n b)
  | _, _ => []
  end.

(** drawing.go:31-35 (drawString) *)
Definition draw_string (x y : Z) (str : bytes) : writes :=
  map (fun p => (x + fst p, y, snd p)) (range_string (length str) 0 str).

(* ------------------------------------------------------------------ *)
(** ** Progress bar *)

Definition r_full : N := 0x2588%N.   (* '█' *)
Definition r_half : N := 0x258C%N.   (* '▌' *)
Definition r_empty : N := 32%N.

(** int(math.Floor(x)) on amd64 for finite x (out of range: the smallest int) *)
Definition floor_int (x : f64) : Z :=
  let z := f_scaled x / f_one in
  if is_nan x || is_inf x || negb ((- 2 ^ 63 <=? z) && (z <? 2 ^ 63)) then - 2 ^ 63 else z.
(** math.Modf's fractional part (sign of x), times 2^1074; for NaN and infinities the
    comparisons below are false *)
Definition frac (x : f64) : option Z :=
  if is_nan x || is_inf x then None else Some (Z.rem (f_scaled x) f_one).
Definition frac_lt (x c : f64) : bool :=
  match frac x with None => false | Some f => f <? f_scaled c end.

(** .3 (cmd/music-sync-infoer/drawing.go 53-70) *)
Definition float_03 : f64 := 0x3FD3333333333333%N.
(** .7 (cmd/music-sync-infoer/drawing.go 53-70) *)
Definition float_07 : f64 := 0x3FE6666666666666%N.

(** drawing.go:53-70 (progressHead): head and the rune at the head *)
Definition progress_head (length : Z) (progress : f64) : Z * N :=
  let p := fmul (f_of_int length) progress in
  let head := floor_int p in
  (head,
   if head =? length - 1 then r_full
   else if frac_lt p float_03 then r_empty
   else if frac_lt p float_07 then r_half
   else r_full).

(** drawing.go:37-51 (drawProgress) *)
Definition draw_progress (x y length : Z) (progress : f64) : writes :=
  let '(head, head_rune) := progress_head length progress in
  map (fun k => let i := Z.of_nat k in
                (x + i, y, if i <? head then r_full else if head =? i then head_rune else r_empty))
      (seq 0 (Z.to_nat length)).

(* ------------------------------------------------------------------ *)
(** ** Boxes *)

(** drawing.go:72-86 (drawBox) *)
Definition draw_box (x y w h : Z) : writes :=
  flat_map (fun k => let i := x + Z.of_nat k in [(i, y + h - 1, 0x2550%N); (i, y, 0x2550%N)]) (seq 0 (Z.to_nat w))
  ++ flat_map (fun k => let j := y + Z.of_nat k in [(x, j, 0x2551%N); (x + w - 1, j, 0x2551%N)]) (seq 0 (Z.to_nat h))
  ++ [(x, y, 0x2554%N); (x + w - 1, y, 0x2557%N); (x, y + h - 1, 0x255A%N); (x + w - 1, y + h - 1, 0x255D%N)].

(* ------------------------------------------------------------------ *)
(** ** main.go *)

(** state.go:54: float64(sampleInSong) / float64(length) *)
Definition progress_float (p : Z * Z) : f64 := fdiv (f_of_int (fst p)) (f_of_int (snd p)).

(** state.go:200-205 (playingString) *)
Definition playing_string (playing : bool) : bytes := if playing then T "Playing" else T "Paused".

(** cmd/music-sync-infoer/main.go:122-127 *)
Definition song_line_name (s : song) : bytes :=
  let '(title, _, _) := metadata s in match title with [] => filename s | _ => title end.
(** cmd/music-sync-infoer/main.go:129-135 *)
Definition song_line_artist_album (s : song) : bytes :=
  let '(_, artist, album) := metadata s in
  match artist with
  | [] => []
  | _ => artist ++ match album with [] => [] | _ => T " - " ++ album end
  end.
(** cmd/music-sync-infoer/main.go:137 *)
Definition time_line (i : info) : bytes := fmt_duration (i_timeInSong i) ++ T "/" ++ fmt_duration (i_songLength i).

(** cmd/music-sync-infoer/main.go:121-149 (drawPlaybackInfo) *)
Definition draw_playback_info (w h : Z) (i : info) : writes :=
  let volumeLine := volume_line (i_volume i) in
  let timeLine := time_line i in
  draw_string (w - zlen volumeLine - 1) (h - 4) volumeLine
  ++ draw_string 1 (h - 4) (song_line_name (i_song i))
  ++ draw_string (w - zlen timeLine - 1) (h - 3) timeLine
  ++ draw_string 1 (h - 3) (song_line_artist_album (i_song i))
  ++ draw_progress 1 (h - 2) (w - 2) (progress_float (i_progress i))
  ++ draw_box 0 (h - 5) w 5
  ++ draw_string 2 (h - 5) (playing_string (i_playing i)).

(** cmd/music-sync-infoer/main.go:151-164 (drawLyrics); [history] is lyricsHistorySize.  That nothing overflows or
    panics here is shown in C120 (SettingsModel), for all but seven history sizes. *)
Definition lyrics_height (history h : Z) : Z := if h <? history + 7 then h - 7 else history.
Definition draw_lyrics (history w h : Z) (i : info) : writes :=
  let height := lyrics_height history h in
  if 0 <? height then
    let lines := lyrics_history (Z.to_nat height) (lyrics (i_song i)) (i_timeInSong i) in
    concat (map (fun p => draw_string 1 (h - 7 - Z.of_nat (fst p)) (snd p)) (combine (seq 0 (length lines)) lines))
    ++ draw_box 0 (h - 7 - height) w (height + 2)
    ++ draw_string 2 (h - 7 - height) (T "Lyrics")
  else [].

(** cmd/music-sync-infoer/main.go:111-119 (redraw) *)
Definition redraw (history w h : Z) (i : info) : writes :=
  draw_playback_info w h i ++ draw_lyrics history w h i.

(** the screen after a redraw *)
Definition screen_after (history w h : Z) (i : info) (x y : Z) : option N := cell w h (redraw history w h i) x y.
