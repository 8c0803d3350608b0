(** The streaming loop and the sample channels together: PlaylistModel's loop (playback/playlist.go
    41-137), which pushes a block in one step, made to push it sample by sample into the channels of
    ChanModel (playback/playlist.go 108-130, 216-224, 253-272), while Fill is called and other
    goroutines pause, jump and edit.  [so_push]: the samples of the pushBuffer, pushNanSamples or
    pushNanBreak call (108-124) the loop is in that it has not begun to push. *)
From Verif Require Import GoBase PlaylistModel ChanModel.
Local Open Scope Z_scope.

(** The Playlist of playlist.go 16-35 with the goroutine of StreamLoop and the callers of Fill. *)
Record source := { so_loop : pstate; so_push : list sample; so_chan : cstate }.

(** A step of the loop's control flow or of another goroutine's call (PlaylistModel), the next call
    of pushSample (playlist.go 110, 116, 122), or a step in the channels (126-130, 216-224, 268-272). *)
Inductive saction := SoLoop (a : action) | SoPush | SoChan (a : caction).

(** The actions of the goroutine running StreamLoop (playlist.go 41-137). *)
Definition of_loop (a : action) : bool :=
  match a with
  | PNext | POpen | PCmp | PTogStore | PTogCall | PBlock | PCheck => true
  | ASetPlaying _ | ASetPosWrite _ | ASetPosSend | AEdit _ => false
  end.

(** The samples of the push calls an event stands for (playlist.go 108-124). *)
Definition to_push (es : list event) : list sample :=
  flat_map (fun e => match e with EBlock l => l | EGap l => l | ENewSong _ _ _ => [] | EToggle _ _ => [] end) es.

(** The loop is between two calls of pushSample and has nothing left to push: pushBuffer,
    pushNanSamples and pushNanBreak (108-124) have returned. *)
Definition pushed_all (s : source) : bool :=
  match so_push s, prod (so_chan s) with [], PIdle => true | _, _ => false end.

(** playlist.go 253-266 (NewPlaylist) *)
Definition new_source (l : list song) (c : nat) : source :=
  {| so_loop := new_playlist l; so_push := []; so_chan := init_chan c |}.

Section Source.
Variable decode : song -> option (list sample).
Variable nan_break : Z.

(** One atomic step; [None]: not possible (a goroutine is elsewhere or blocked, or the process has
    ended with a panic). *)
Definition sstep (s : source) (a : saction) : option (source * list event) :=
  match at_pc (so_loop s), a with
  | Crashed, _ => None
  | _, SoLoop a =>                                                    (* 41-137; 139-211, 232-234 *)
      if (of_loop a && negb (pushed_all s))%bool then None
      else match pstep decode nan_break (so_loop s) a with
           | None => None
           | Some (p, es) => Some ({| so_loop := p; so_push := so_push s ++ to_push es; so_chan := so_chan s |}, es)
           end
  | _, SoPush =>                                                      (* 110, 116, 122 *)
      match so_push s with
      | [] => None
      | x :: r => match cstep (so_chan s) (CPush x) with
                  | None => None
                  | Some c => Some ({| so_loop := so_loop s; so_push := r; so_chan := c |}, [])
                  end
      end
  | _, SoChan (CPush _) => None                                       (* only as above *)
  | _, SoChan a =>                                                    (* 126-130, 216-224, 268-272 *)
      match cstep (so_chan s) a with
      | None => None
      | Some c => Some ({| so_loop := so_loop s; so_push := so_push s; so_chan := c |}, [])
      end
  end.

(** A schedule of such steps, with the loop's events. *)
Fixpoint srun (s : source) (acts : list saction) : option (source * list event) :=
  match acts with
  | [] => Some (s, [])
  | a :: r =>
      match sstep s a with
      | None => None
      | Some (s1, e1) => match srun s1 r with None => None | Some (s2, e2) => Some (s2, e1 ++ e2) end
      end
  end.
End Source.
