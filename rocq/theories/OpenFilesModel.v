(** The open files of the server process: playback/playback.go 34-47 (getStreamer),
    playback/playlist.go 51-59 and 74-94 (the streamer is used and then dropped, Close is never
    called), metadata/lyrics_provider.go 32-48, metadata/metadata_provider.go 30-48 and
    comm/conn_handler.go 15-66, on top of the streaming loop of PlaylistModel.

    The operating system allows a process [limit] open files (sockets included); with all of
    them in use os.Open and Accept fail with EMFILE.  Go closes an *os.File that nothing refers
    to any more when the garbage collector finds it (os.NewFile sets a finalizer), at a time
    nobody promises: the action [HCollect]. *)
From Verif Require Import GoBase PlaylistModel.

(** What the server can show about one song; the contents do not matter here. *)
Record about := { ab_lyrics : text; ab_tags : text }.

(** What the handler of a new song has still to do (schedule/server_state.go 73-93). *)
Inductive stage :=
| AtLyrics (f : song)                       (* line 75 *)
| AtTags (f : song) (lyrics : text).        (* line 78 *)

Record hstate := {
  loop : pstate;
  held : nat;            (* open and still referred to: the file of the song in pushStreamer *)
  lost : nat;            (* open, but nothing refers to it any more *)
  conns : nat;           (* connections of clients *)
  accepting : bool;      (* serverConnectionAcceptor is running *)
  pending : list stage   (* goroutines started by line 77 of playlist.go *)
}.

Inductive hevent :=
| HOpened (path : text)                     (* os.Open succeeded *)
| HStream (e : event)                       (* what the loop makes visible *)
| HSkipped (f : song)                       (* playlist.go 53: logged, and the next song is tried *)
| HAnnounced (f : song) (a : about)         (* server_state.go 80-92 *)
| HAccepted                                 (* a client is served *)
| HRefused                                  (* Accept failed: conn_handler.go 52-55 *)
| HLeft                                     (* a client went away: conn_handler.go 16, 60 *)
| HCollected (k rest : nat).                (* the finalizers of k files ran, [rest] are left *)

(** Who moves: the StreamLoop goroutine, a goroutine of the new song handler (schedule/server_state.go 80-92), the acceptor (comm/conn_handler.go 49-66), a client that goes away, the garbage collector. *)
Inductive haction :=
| HLoop (a : action) | HLyrics (i : nat) | HTags (i : nat) | HAccept | HLeave | HCollect (k : nat).

(** Take the i-th element of a list out of it. *)
Fixpoint take_out {A} (i : nat) (l : list A) : option (A * list A) :=
  match l, i with
  | [], _ => None
  | x :: r, O => Some (x, r)
  | x :: r, S j => match take_out j r with None => None | Some (y, r') => Some (y, x :: r') end
  end.

Section OpenFiles.
Variable limit : nat.                                  (* RLIMIT_NOFILE *)
Variable base : nat.                                   (* standard streams, listeners, control sessions *)
Variable exists_ : song -> bool.                       (* os.Open finds the file of the song *)
Variable decode : song -> option (list sample).        (* mp3.Decode on its contents *)
Variable lyrics_file : song -> bool.                   (* util.IsFile of the .json file *)
Variable contents : song -> about.                     (* what the json and the tag reader find *)
Variable nan_break : Z.

(** Descriptors in use: [base], the song being streamed and the songs dropped without Close (playback/playback.go 34-47), the connections (comm/conn_handler.go 49-66). *)
Definition used (s : hstate) : nat := base + held s + lost s + conns s.
(** Whether a further os.Open or Accept succeeds (EMFILE otherwise). *)
Definition room (s : hstate) : bool := used s <? limit.

(** Update of one field (playlist.go 41-137). *)
Definition set_loop (s : hstate) (p : pstate) : hstate :=
  {| loop := p; held := held s; lost := lost s; conns := conns s; accepting := accepting s; pending := pending s |}.
(** Update of the files (playback.go 34-47, playlist.go 41-61). *)
Definition set_files (s : hstate) (h l : nat) : hstate :=
  {| loop := loop s; held := h; lost := l; conns := conns s; accepting := accepting s; pending := pending s |}.
(** Update of the connections (conn_handler.go 16, 49-66). *)
Definition set_conns (s : hstate) (n : nat) (a : bool) : hstate :=
  {| loop := loop s; held := held s; lost := lost s; conns := n; accepting := a; pending := pending s |}.
(** Update of the goroutines started by playlist.go 76-78. *)
Definition set_pending (s : hstate) (p : list stage) : hstate :=
  {| loop := loop s; held := held s; lost := lost s; conns := conns s; accepting := accepting s; pending := p |}.

(** playback.go 34-47 (getStreamer): what the loop sees. *)
Definition get_streamer (s : hstate) (f : song) : option (list sample) :=
  if exists_ f && room s then decode f else None.

(** The goroutines of newSongHandler started by one step of the loop (playlist.go 76-78). *)
Fixpoint started (es : list event) : list stage :=
  match es with
  | [] => []
  | ENewSong _ f _ :: r => AtLyrics f :: started r
  | _ :: r => started r
  end.

(** lyrics_provider.go 32-48, metadata_provider.go 30-48: the file is opened, read and
    dropped.  (One step: while it is being read it is one open file as well.) *)
Definition read_file (s : hstate) (is_file : bool) (path : text) (c : text) : hstate * text * list hevent :=
  if is_file && room s then (set_files s (held s) (S (lost s)), c, [HOpened path]) else (s, [], []).

(** A panic in any goroutine ends the process: nothing happens any more. *)
Definition dead (s : hstate) : bool := match at_pc (loop s) with Crashed => true | _ => false end.

Definition hstep (s : hstate) (a : haction) : option (hstate * list hevent) :=
  if dead s then None else
  match a with
  | HLoop a =>
      match pstep (get_streamer s) nan_break (loop s) a with
      | None => None
      | Some (p, es) =>
          let s1 := set_pending (set_loop s p) (pending s ++ started es) in
          match a, at_pc (loop s) with
          (* playlist.go 51-56 with playback.go 34-47 *)
          | POpen, Opening f =>
              if exists_ f && room s then
                match decode f with
                | Some _ => Some (set_files s1 (S (held s)) (lost s), HOpened f :: map HStream es)
                (* playback.go 42-44: the file stays open *)
                | None => Some (set_files s1 (held s) (S (lost s)), [HOpened f; HSkipped f])
                end
              else Some (s1, [HSkipped f])
          (* playlist.go 58-59: pushStreamer has returned, the streamer is dropped *)
          | PCheck, _ =>
              match at_pc p with
              | AtTop => Some (set_files s1 0 (held s + lost s), map HStream es)
              | _ => Some (s1, map HStream es)
              end
          | _, _ => Some (s1, map HStream es)
          end
      end
  (* server_state.go 75 *)
  | HLyrics i =>
      match take_out i (pending s) with
      | Some (AtLyrics f, r) =>
          let '(s1, ly, es) := read_file s (lyrics_file f) (f ++ T ".json") (ab_lyrics (contents f)) in
          Some (set_pending s1 (r ++ [AtTags f ly]), es)
      | _ => None
      end
  (* server_state.go 78-92 *)
  | HTags i =>
      match take_out i (pending s) with
      | Some (AtTags f ly, r) =>
          let '(s1, tg, es) := read_file s (exists_ f) f (ab_tags (contents f)) in
          Some (set_pending s1 r, es ++ [HAnnounced f {| ab_lyrics := ly; ab_tags := tg |}])
      | _ => None
      end
  (* conn_handler.go 50-60 *)
  | HAccept =>
      if accepting s then
        if room s then Some (set_conns s (S (conns s)) true, [HAccepted])
        else Some (set_conns s (conns s) false, [HRefused])
      else None
  (* conn_handler.go 16, 60 *)
  | HLeave => match conns s with O => None | S n => Some (set_conns s n (accepting s), [HLeft]) end
  | HCollect k =>
      if k <=? lost s then Some (set_files s (held s) (lost s - k), [HCollected k (lost s - k)]) else None
  end.

(** A schedule of such steps. *)
Fixpoint hrun (s : hstate) (acts : list haction) : option (hstate * list hevent) :=
  match acts with
  | [] => Some (s, [])
  | a :: rest =>
      match hstep s a with
      | None => None
      | Some (s1, e1) =>
          match hrun s1 rest with None => None | Some (s2, e2) => Some (s2, e1 ++ e2) end
      end
  end.
End OpenFiles.

(** schedule/server.go 16-40 and comm/conn_handler.go 33-47: the server after its start. *)
Definition fresh (songs : list song) : hstate :=
  {| loop := new_playlist songs; held := 0; lost := 0; conns := 0; accepting := true; pending := [] |}.
