(** Model of playback/playlist.go: the song list and the streaming loop. *)
From Verif Require Import GoBase.
Local Open Scope Z_scope.

Notation song := text (only parsing).

(** float64 values are represented by their 64-bit IEEE pattern. *)
Notation f64 := N (only parsing).
Notation sample := (N * N)%type (only parsing).          (* [2]float64 / one (low, high) pair *)

(** math.IsNaN on the bit pattern: exponent all ones, mantissa not zero. *)
Definition is_nan (x : f64) : bool :=
  (N.eqb (N.land (N.shiftr x 52) 2047) 2047 && negb (N.eqb (N.land x (N.ones 52)) 0))%N.

(** math.NaN() = Float64frombits(0x7FF8000000000001) *)
Definition nan64 : f64 := 0x7FF8000000000001%N.
Definition nan_sample : sample := (nan64, nan64).

(* ------------------------------------------------------------------ *)
(** ** The song list *)

(** playlist.go:165-169 (AddSong); the mutex makes the call atomic. *)
Definition add_song (songs : list song) (s : song) : list song := songs ++ [s].

(** playlist.go:173-186 (InsertSong) *)
Definition insert_song (songs : list song) (s : song) (index : Z) : outcome (list song) :=
  let index := if index <? 0 then 0 else index in
  if zlen songs <? index then Ok (songs ++ [s])
  else
    let s0 := songs ++ @cons song [] [] in                          (* append(pl.songs, "") *)
    do s1 <- copy_within s0 (index + 1) index;
    slice_set s1 index s.

(** playlist.go:191-211 (RemoveSong); returns the new list and the removed song. *)
Definition remove_song (songs : list song) (index : Z) : outcome (list song * song) :=
  if zlen songs =? 0 then Ok (songs, [])
  else
    let index := if index <? 0 then 0 else index in
    if zlen songs <? index then
      do removed <- slice_get songs (zlen songs - 1);
      do s1 <- slice_to songs (zlen songs - 1);
      Ok (s1, removed)
    else
      do removed <- slice_get songs index;
      do s1 <- copy_within songs index (index + 1);
      do s2 <- slice_set s1 (zlen s1 - 1) [];
      do s3 <- slice_to s2 (zlen s2 - 1);
      Ok (s3, removed).

(** A call of AddSong, InsertSong or RemoveSong (playback/playlist.go 165-211). *)
Inductive edit := EAdd (s : song) | EInsert (s : song) (i : Z) | ERemove (i : Z).

(** One edit; the second component is what RemoveSong returned ([None] for the
    two methods without result). *)
Definition apply_edit (songs : list song) (e : edit) : outcome (list song * option song) :=
  match e with
  | EAdd s => Ok (add_song songs s, None)
  | EInsert s i => do l <- insert_song songs s i; Ok (l, None)
  | ERemove i => do '(l, r) <- remove_song songs i; Ok (l, Some r)
  end.

(** A sequence of such calls. *)
Fixpoint apply_edits (songs : list song) (es : list edit) : outcome (list song * list (option song)) :=
  match es with
  | [] => Ok (songs, [])
  | e :: es' =>
      do '(l, r) <- apply_edit songs e;
      do '(l', rs) <- apply_edits l es';
      Ok (l', r :: rs)
  end.

(** playlist.go:146-153 (Pos) *)
Definition pos_of (songs : list song) (position : Z) : Z :=
  if zlen songs =? 0 then 0 else go_mod position (zlen songs).

(** playlist.go:63-72 (nextSong): returns the new position and the song
    ([position] is unchanged and the song "" when the list is empty). *)
Definition next_song (songs : list song) (position : Z) : outcome (Z * song) :=
  if zlen songs =? 0 then Ok (position, [])
  else
    let pos := go_mod position (zlen songs) in
    do s <- slice_get songs pos;
    Ok (pos, s).

(* ------------------------------------------------------------------ *)
(** ** The streaming loop as a state machine *)

(** playlist.go:11-12 *)
Definition streamer_buffer_size : nat := 512.
Definition no_song_nan_sample_count : N := 32768.

(** Position of the goroutine running StreamLoop (playlist.go:41-61) and
    pushStreamer (74-94). *)
Inductive pc :=
| AtTop                                             (* line 42 *)
| Opening (f : song)                                (* line 51, after nextSong and currentSong = f *)
| InSong (rest : list sample)                       (* line 82: top of the pushStreamer loop *)
| TogStore (rest : list sample)                     (* line 134: playing != playingLast was observed *)
| TogCall (rest : list sample)                      (* line 135 *)
| BlockRead (rest : list sample)                    (* line 83 *)
| Checking (rest : list sample) (n : nat) (ok : bool) (* line 90 *)
| Crashed.                                          (* the process panicked *)

Record pstate := {
  songs : list song;
  position : Z;
  tokens : nat;          (* len(pl.forceNext); every element is [true], capacity 2 (line 259) *)
  pending_jumps : nat;   (* SetPos calls that have executed line 141 but not line 142 *)
  playing : bool;
  playing_last : bool;
  current_song : song;
  idx_write : Z;         (* sampleIndexWrite; uint64 in the code, unbounded here *)
  at_pc : pc
}.

(** What the loop makes visible: calls of the two handlers (each started in its own
    goroutine with the arguments evaluated here) and the samples pushed.  [EBlock] is a
    block pushed inside pushStreamer, [EGap] the samples pushed between songs or
    while no song is queued. *)
Inductive event :=
| ENewSong (idx : Z) (f : song) (len : Z)
| EToggle (p : bool) (idx : Z)
| EBlock (l : list sample)
| EGap (l : list sample).

Inductive action :=
| PNext | POpen | PCmp | PTogStore | PTogCall | PBlock | PCheck   (* the StreamLoop goroutine *)
| ASetPlaying (b : bool)                                           (* SetPlaying, 232-234 *)
| ASetPosWrite (p : Z)                                             (* SetPos, line 141 *)
| ASetPosSend                                                      (* SetPos, line 142 *)
| AEdit (e : edit).                                                (* AddSong/InsertSong/RemoveSong *)

(** Moves the StreamLoop goroutine to another statement (playlist.go 41-137). *)
Definition set_pc (s : pstate) (p : pc) : pstate :=
  {| songs := songs s; position := position s; tokens := tokens s; pending_jumps := pending_jumps s;
     playing := playing s; playing_last := playing_last s; current_song := current_song s;
     idx_write := idx_write s; at_pc := p |}.
(** Assignment to pl.position (playlist.go 54, 70, 102, 141). *)
Definition set_position (s : pstate) (z : Z) : pstate :=
  {| songs := songs s; position := z; tokens := tokens s; pending_jumps := pending_jumps s;
     playing := playing s; playing_last := playing_last s; current_song := current_song s;
     idx_write := idx_write s; at_pc := at_pc s |}.
(** Assignment to pl.currentSong (playlist.go 49). *)
Definition set_current (s : pstate) (f : song) : pstate :=
  {| songs := songs s; position := position s; tokens := tokens s; pending_jumps := pending_jumps s;
     playing := playing s; playing_last := playing_last s; current_song := f;
     idx_write := idx_write s; at_pc := at_pc s |}.
(** The channel forceNext (playlist.go 22, 96-106, 142) and the calls of SetPos that have not sent yet. *)
Definition set_tokens (s : pstate) (t pj : nat) : pstate :=
  {| songs := songs s; position := position s; tokens := t; pending_jumps := pj;
     playing := playing s; playing_last := playing_last s; current_song := current_song s;
     idx_write := idx_write s; at_pc := at_pc s |}.
(** Assignment to pl.playing (playlist.go 232-234). *)
Definition set_playing (s : pstate) (b : bool) : pstate :=
  {| songs := songs s; position := position s; tokens := tokens s; pending_jumps := pending_jumps s;
     playing := b; playing_last := playing_last s; current_song := current_song s;
     idx_write := idx_write s; at_pc := at_pc s |}.
Definition set_playing_last (s : pstate) (b : bool) : pstate :=
  {| songs := songs s; position := position s; tokens := tokens s; pending_jumps := pending_jumps s;
     playing := playing s; playing_last := b; current_song := current_song s;
     idx_write := idx_write s; at_pc := at_pc s |}.
Definition set_songs (s : pstate) (l : list song) : pstate :=
  {| songs := l; position := position s; tokens := tokens s; pending_jumps := pending_jumps s;
     playing := playing s; playing_last := playing_last s; current_song := current_song s;
     idx_write := idx_write s; at_pc := at_pc s |}.
(** pushSample (126-130) once per element: the index grows by the number of samples. *)
Definition pushed (s : pstate) (l : list sample) : pstate :=
  {| songs := songs s; position := position s; tokens := tokens s; pending_jumps := pending_jumps s;
     playing := playing s; playing_last := playing_last s; current_song := current_song s;
     idx_write := idx_write s + zlen l; at_pc := at_pc s |}.

(** playlist.go:253-266 (NewPlaylist) *)
Definition new_playlist (l : list song) : pstate :=
  {| songs := l; position := 0; tokens := 0; pending_jumps := 0; playing := false;
     playing_last := true; current_song := []; idx_write := 0; at_pc := AtTop |}.

(** playlist.go:108-112, 120-124: [count] NaN samples; a negative count pushes nothing. *)
Definition nan_samples (count : Z) : list sample := repeat nan_sample (Z.to_nat count).

Section Loop.
(** getStreamer (playback.go:34-47): [None] when the file cannot be opened or decoded,
    otherwise the decoded samples. *)
Variable decode : song -> option (list sample).
(** nanBreakSize *)
Variable nan_break : Z.

(** The step relation as a partial function: [None] when the action is not possible in
    the state (wrong program counter, or the goroutine blocks).
    Simplifications: both handlers are set (schedule/server.go:28-29 sets them before
    any song can be queued); the context is never cancelled (context.Background());
    pushing a block is one step (channel blocking is the subject of ChanModel;
    LatencyModel pushes sample by sample into its channels). *)
Definition pstep (s : pstate) (a : action) : option (pstate * list event) :=
  match a, at_pc s with
  | _, Crashed => None
  (* lines 43-49 *)
  | PNext, AtTop =>
      match next_song (songs s) (position s) with
      | Panic => Some (set_pc s Crashed, [])
      | Ok (pos, f) =>
          let s1 := set_position s pos in
          match f with
          | [] => let g := nan_samples (Z.of_N no_song_nan_sample_count) in
                  Some (pushed s1 g, [EGap g])
          | _ => Some (set_pc (set_current s1 f) (Opening f), [])
          end
      end
  (* lines 51-58, 76-78 *)
  | POpen, Opening f =>
      match decode f with
      | None => Some (set_pc (set_position s (position s + 1)) AtTop, [])
      | Some l => Some (set_pc s (InSong l), [ENewSong (idx_write s) (current_song s) (zlen l)])
      end
  (* line 133 *)
  | PCmp, InSong rest =>
      if Bool.eqb (playing s) (playing_last s)
      then Some (set_pc s (BlockRead rest), [])
      else Some (set_pc s (TogStore rest), [])
  (* line 134 *)
  | PTogStore, TogStore rest =>
      Some (set_pc (set_playing_last s (playing s)) (TogCall rest), [])
  (* line 135 *)
  | PTogCall, TogCall rest =>
      Some (set_pc s (BlockRead rest), [EToggle (playing s) (idx_write s)])
  (* lines 81, 83-88: beep's Streamer contract: Stream fills min(512, remaining)
     samples and returns ok = (something was streamed) *)
  | PBlock, BlockRead rest =>
      if playing s then
        let blk := firstn streamer_buffer_size rest in
        let n := length blk in
        Some (set_pc (pushed s blk) (Checking (skipn streamer_buffer_size rest) n (negb (Nat.eqb n 0))),
              [EBlock blk])
      else
        let g := nan_samples (Z.of_nat streamer_buffer_size) in
        Some (set_pc (pushed s g) (Checking rest streamer_buffer_size true), [EBlock g])
  (* lines 90-92, 96-106, 59 *)
  | PCheck, Checking rest n ok =>
      let brk := nan_samples nan_break in
      if (0 <? tokens s)%nat then
        Some (set_pc (pushed (set_tokens s (tokens s - 1) (pending_jumps s)) brk) AtTop, [EGap brk])
      else if (negb ok || (n <? streamer_buffer_size)%nat)%bool then
        Some (set_pc (pushed (set_position s (position s + 1)) brk) AtTop, [EGap brk])
      else Some (set_pc s (InSong rest), [])
  (* 232-234 *)
  | ASetPlaying b, _ => Some (set_playing s b, [])
  (* 141 *)
  | ASetPosWrite p, _ => Some (set_tokens (set_position s p) (tokens s) (S (pending_jumps s)), [])
  (* 142: the send blocks while the channel holds two elements *)
  | ASetPosSend, _ =>
      match pending_jumps s with
      | O => None
      | S pj => if (tokens s <? 2)%nat then Some (set_tokens s (S (tokens s)) pj, []) else None
      end
  | AEdit e, _ =>
      match apply_edit (songs s) e with
      | Panic => Some (set_pc s Crashed, [])
      | Ok (l, _) => Some (set_songs s l, [])
      end
  | _, _ => None
  end.

(** A schedule of such steps. *)
Fixpoint prun (s : pstate) (acts : list action) : option (pstate * list event) :=
  match acts with
  | [] => Some (s, [])
  | a :: rest =>
      match pstep s a with
      | None => None
      | Some (s1, e1) =>
          match prun s1 rest with
          | None => None
          | Some (s2, e2) => Some (s2, e1 ++ e2)
          end
      end
  end.
End Loop.

(** playlist.go:237-239 (CurrentSong) *)
Definition current_song_of (s : pstate) : song := current_song s.
