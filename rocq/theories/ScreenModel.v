(** Model of the info client's screen loop: cmd/music-sync-infoer/main.go:91-164 (tcellLoop,
    redraw, the drawing functions with every read of the drawer's size) and drawing.go:9-29
    (drawer, eventLoop), as two goroutines over tcell's screen.

    tcell (v1.3.0): SetContent ignores cells outside of the screen; Clear blanks all cells; a
    change of the terminal's size keeps the cells inside the new size and queues an EventResize
    (the queue is taken to be unbounded); Show and Sync put the cells on the terminal; Fini gives
    the terminal back.  Every access to a variable and every SetContent is a step. *)
From Verif Require Import GoBase GoUtf8 GoFmt PlaylistModel PcmModel GoFloat VolumeModel WireModel InfoerModel DrawModel.
Local Open Scope Z_scope.

(* ------------------------------------------------------------------ *)
(** ** Drawing as a program that reads d.w and d.h *)

(** The effects of cmd/music-sync-infoer/main.go 111-164 (redraw and what it calls), in order. *)
Inductive draw :=
| DDone
| DGetW (k : Z -> draw)
| DGetH (k : Z -> draw)
| DWrite (ws : list (Z * Z * N)) (k : draw).      (* calls of SetContent *)

(** cmd/music-sync-infoer/main.go:140-148 (drawPlaybackInfo; 122-138 only compute the texts) *)
Definition prog_playback_info (i : info) (k : draw) : draw :=
  let volumeLine := volume_line (i_volume i) in
  let timeLine := time_line i in
  DGetW (fun w => DGetH (fun h => DWrite (draw_string (w - zlen volumeLine - 1) (h - 4) volumeLine) (
  DGetH (fun h => DWrite (draw_string 1 (h - 4) (song_line_name (i_song i))) (
  DGetW (fun w => DGetH (fun h => DWrite (draw_string (w - zlen timeLine - 1) (h - 3) timeLine) (
  DGetH (fun h => DWrite (draw_string 1 (h - 3) (song_line_artist_album (i_song i))) (
  DGetH (fun h => DGetW (fun w => DWrite (draw_progress 1 (h - 2) (w - 2) (progress_float (i_progress i))) (
  DGetH (fun h => DGetW (fun w => DWrite (draw_box 0 (h - 5) w 5) (
  DGetH (fun h => DWrite (draw_string 2 (h - 5) (playing_string (i_playing i))) k))))))))))))))))).

(** cmd/music-sync-infoer/main.go:158-160: the lines of the lyrics *)
Definition prog_lines (ls : list (nat * bytes)) (k : draw) : draw :=
  fold_right (fun p k => DGetH (fun h => DWrite (draw_string 1 (h - 7 - Z.of_nat (fst p)) (snd p)) k)) k ls.

(** cmd/music-sync-infoer/main.go:156-163 *)
Definition prog_lyrics_box (height : Z) (i : info) (k : draw) : draw :=
  if 0 <? height then
    let lines := lyrics_history (Z.to_nat height) (lyrics (i_song i)) (i_timeInSong i) in
    prog_lines (combine (seq 0 (length lines)) lines) (
    DGetH (fun h => DGetW (fun w => DWrite (draw_box 0 (h - 7 - height) w (height + 2)) (
    DGetH (fun h => DWrite (draw_string 2 (h - 7 - height) (T "Lyrics")) k)))))
  else k.

(** cmd/music-sync-infoer/main.go:151-155 (drawLyrics); [history] is lyricsHistorySize *)
Definition prog_lyrics (history : Z) (i : info) (k : draw) : draw :=
  DGetH (fun h => if h <? history + 7 then DGetH (fun h' => prog_lyrics_box (h' - 7) i k)
                  else prog_lyrics_box history i k).

(** cmd/music-sync-infoer/main.go:115-116 *)
Definition redraw_prog (history : Z) (i : info) : draw := prog_playback_info i (prog_lyrics history i DDone).

(* ------------------------------------------------------------------ *)
(** ** The two goroutines *)

(** what PollEvent returns *)
Inductive tevent :=
| TKey (ctrl_c : bool)
| TResize
| TOther.                       (* any other type, e.g. EventError when the terminal is gone *)

Inductive main_pc :=
| MTick                         (* cmd/music-sync-infoer/main.go:101: waiting for the tick *)
| MCheck                        (* 102 *)
| MClear                        (* 112 *)
| MInfo                         (* 114 *)
| MDraw (i : info) (p : draw)   (* 115-116 *)
| MShow (i : info)              (* 118 *)
| MFini                         (* 108 *)
| MReturned.

Inductive ev_pc :=
| EPoll                         (* drawing.go:16 *)
| ESync                         (* 23 *)
| ESize                         (* 24, the call *)
| EStoreW (w h : Z)             (* 24, the assignments *)
| EStoreH (h : Z)
| EQuit                         (* eventLoop has returned; main.go:98 *)
| EDone.

(** How the process ends. *)
Inductive ending := Exit (status : Z) | Crash.

Notation frame := (Z -> Z -> option N) (only parsing).

(** The drawer (cmd/music-sync-infoer/drawing.go 9-12), the local variables of tcellLoop (main.go 91-109) and tcell's screen. *)
Record st := {
  d_w : Z; d_h : Z;             (* the drawer's size *)
  running : bool;
  main : main_pc;
  ev : ev_pc;
  queue : list tevent;          (* events not yet polled *)
  size : Z * Z;                 (* of the terminal, as tcell knows it *)
  cells : list (Z * Z * N);     (* the calls of SetContent since Clear *)
  shown : list (info * (Z -> Z -> option N));   (* the frames shown by redraws, with the information drawn *)
  polled : list tevent;         (* events polled so far *)
  restored : nat;               (* calls of Fini *)
  ended : option ending
}.

(** tcell's SetContent ignores other cells. *)
Definition inside (sz : Z * Z) (c : Z * Z * N) : bool :=
  let '(x, y, _) := c in (0 <=? x) && (x <? fst sz) && (0 <=? y) && (y <? snd sz).

(** Who moves. *)
Inductive act :=
| AResize (w h : Z)             (* the terminal changes its size *)
| AEvent (e : tevent)           (* a key is pressed, or another event arrives *)
| AMain (i : info)              (* the main goroutine; [i] is what currentState.Info returns, if it is called *)
| AEv                           (* the event goroutine *)
| AKill.                        (* another goroutine calls os.Exit(1): comm/conn_handler.go:80, schedule/infoer.go:22 *)

Section Step.
Variable history : Z.

(** cmd/music-sync-infoer/main.go:91-119 *)
Definition main_step (s : st) (i : info) : option st :=
  let upd m cs sh r e := Some {| d_w := d_w s; d_h := d_h s; running := running s; main := m; ev := ev s; queue := queue s;
      size := size s; cells := cs; shown := sh; polled := polled s; restored := r; ended := e |} in
  let go m := upd m (cells s) (shown s) (restored s) None in
  match main s with
  | MTick => go MCheck
  | MCheck => go (if running s then MClear else MFini)
  | MClear => upd MInfo [] (shown s) (restored s) None
  | MInfo => go (MDraw i (redraw_prog history i))
  | MDraw j DDone => go (MShow j)
  | MDraw j (DGetW k) => go (MDraw j (k (d_w s)))
  | MDraw j (DGetH k) => go (MDraw j (k (d_h s)))
  | MDraw j (DWrite [] k) => go (MDraw j k)
  | MDraw j (DWrite (c :: ws) k) =>
      upd (MDraw j (DWrite ws k)) (if inside (size s) c then cells s ++ [c] else cells s) (shown s) (restored s) None
  | MShow j => upd MTick (cells s) (shown s ++ [(j, cell (fst (size s)) (snd (size s)) (cells s))]) (restored s) None
  | MFini => upd MReturned (cells s) (shown s) (S (restored s)) None
  | MReturned => upd MReturned (cells s) (shown s) (restored s) (Some (Exit 0))   (* cmd/music-sync-infoer/main.go:63: run returns nil *)
  end.

(** drawing.go:14-29, main.go:96-99; a panic ends the process *)
Definition ev_step (s : st) : option st :=
  let upd w h r e q p en := Some {| d_w := w; d_h := h; running := r; main := main s; ev := e; queue := q;
      size := size s; cells := cells s; shown := shown s; polled := p; restored := restored s; ended := en |} in
  let go e := upd (d_w s) (d_h s) (running s) e (queue s) (polled s) None in
  match ev s with
  | EPoll =>
      match queue s with
      | [] => None
      | e :: q =>
          let next p en := upd (d_w s) (d_h s) (running s) p q (polled s ++ [e]) en in
          match e with
          | TKey true => next EQuit None
          | TKey false => next EPoll None
          | TResize => next ESync None
          | TOther => next EDone (Some Crash)
          end
      end
  | ESync => go ESize
  | ESize => go (EStoreW (fst (size s)) (snd (size s)))
  | EStoreW w h => upd w (d_h s) (running s) (EStoreH h) (queue s) (polled s) None
  | EStoreH h => upd (d_w s) h (running s) EPoll (queue s) (polled s) None
  | EQuit => upd (d_w s) (d_h s) false EDone (queue s) (polled s) None
  | EDone => None
  end.

(** One step of one of them (main.go 91-164, drawing.go 14-29). *)
Definition step (s : st) (a : act) : option st :=
  match ended s with
  | Some _ => None
  | None =>
      match a with
      | AResize w h => Some {| d_w := d_w s; d_h := d_h s; running := running s; main := main s; ev := ev s;
          queue := queue s ++ [TResize]; size := (w, h); cells := filter (inside (w, h)) (cells s); shown := shown s;
          polled := polled s; restored := restored s; ended := None |}
      | AEvent e => Some {| d_w := d_w s; d_h := d_h s; running := running s; main := main s; ev := ev s;
          queue := queue s ++ [e]; size := size s; cells := cells s; shown := shown s;
          polled := polled s; restored := restored s; ended := None |}
      | AMain i => main_step s i
      | AEv => ev_step s
      | AKill => Some {| d_w := d_w s; d_h := d_h s; running := running s; main := main s; ev := ev s;
          queue := queue s; size := size s; cells := cells s; shown := shown s;
          polled := polled s; restored := restored s; ended := Some (Exit 1) |}
      end
  end.

(** A schedule of such steps. *)
Fixpoint run (s : st) (l : list act) : option st :=
  match l with
  | [] => Some s
  | a :: r => match step s a with Some s' => run s' r | None => None end
  end.

(** cmd/music-sync-infoer/main.go:66-82, 92-95: after createTcellScreen, on a terminal of the given size *)
Definition start (sz : Z * Z) : st :=
  {| d_w := fst sz; d_h := snd sz; running := true; main := MTick; ev := EPoll; queue := []; size := sz; cells := [];
     shown := []; polled := []; restored := 0; ended := None |}.

End Step.
