(** Ending the streaming loop: playback/playlist.go 41-61 with the test of line 42 and
    util/context.go 6-13, around the loop of PlaylistModel (which leaves the context out). *)
From Verif Require Import GoBase PlaylistModel.

(** the state of PlaylistModel (playlist.go:16-35), the context of playlist.go:41 and where the loop stands *)
Record cstate := {
  inner : pstate;
  cancelled : bool;      (* the context's Done channel is closed *)
  tested : bool;         (* the loop stands between line 42 and line 43 *)
  returned : bool        (* StreamLoop has returned *)
}.

(** util/context.go 6-13: a receive from a closed channel never waits *)
Definition is_canceled (s : cstate) : bool := cancelled s.

(** the test of playlist.go:42, the steps of PlaylistModel, and a caller cancelling the context *)
Inductive caction :=
| CTest                  (* line 42 *)
| CAct (a : action)      (* everything else: PlaylistModel *)
| CCancel.               (* the caller's cancel function *)

(** the steps of the goroutine running playlist.go:41-106 *)
Definition loop_step (a : action) : bool :=
  match a with PNext | POpen | PCmp | PTogStore | PTogCall | PBlock | PCheck => true | _ => false end.

Section Cancel.
(** getStreamer (playback.go:34-47) and the samples of the song; nanBreakSize (playlist.go:23) *)
Variable decode : song -> option (list sample).
Variable nan_break : Z.

(** playlist.go:41-61: one step; [None] if it is not possible now *)
Definition cstep (s : cstate) (a : caction) : option (cstate * list event) :=
  match a with
  | CCancel => Some ({| inner := inner s; cancelled := true; tested := tested s; returned := returned s |}, [])
  | CTest =>
      match at_pc (inner s) with
      | AtTop =>
          if tested s || returned s then None
          else if is_canceled s then Some ({| inner := inner s; cancelled := cancelled s; tested := false; returned := true |}, [])
          else Some ({| inner := inner s; cancelled := cancelled s; tested := true; returned := false |}, [])
      | _ => None
      end
  | CAct a =>
      if loop_step a && returned s then None else
      match a with
      | PNext =>
          if tested s then
            match pstep decode nan_break (inner s) PNext with
            | None => None
            | Some (p, es) => Some ({| inner := p; cancelled := cancelled s; tested := false; returned := returned s |}, es)
            end
          else None
      | _ =>
          match pstep decode nan_break (inner s) a with
          | None => None
          | Some (p, es) => Some ({| inner := p; cancelled := cancelled s; tested := tested s; returned := returned s |}, es)
          end
      end
  end.

(** a schedule: one step after the other (no code of its own) *)
Fixpoint crun (s : cstate) (acts : list caction) : option (cstate * list event) :=
  match acts with
  | [] => Some (s, [])
  | a :: rest =>
      match cstep s a with
      | None => None
      | Some (s1, e1) => match crun s1 rest with None => None | Some (s2, e2) => Some (s2, e1 ++ e2) end
      end
  end.
End Cancel.

(** StreamLoop is called on a new playlist (schedule/server.go 19-26) with a context that is not
    cancelled yet. *)
Definition called (l : list song) : cstate :=
  {| inner := new_playlist l; cancelled := false; tested := false; returned := false |}.
