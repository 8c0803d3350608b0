(** The playlist's position, which is not protected by a lock: playback/playlist.go 53-55, 63-72,
    101-104 and 140-143.  PlaylistModel takes each of the loop's three updates of it
    ("position % len" in lines 69-70, "position++" in lines 54 and 102) as one step; here
    reading it and writing it back are two steps, with those of other goroutines in between. *)
From Verif Require Import GoBase PlaylistModel.

(** the playlist (playlist.go 16-35) and what the loop has read of [position] in line 69, 54 or
    102 but not written back yet *)
Record jstate := { inner : pstate; held : option Z }.

(** steps: the loop reads the position, the loop writes it back, anything else *)
Inductive jaction := JLoad | JStore | JAct (a : action).

(** the steps of the goroutine running playlist.go:41-106 *)
Definition by_loop (a : action) : bool :=
  match a with PNext | POpen | PCmp | PTogStore | PTogCall | PBlock | PCheck => true | _ => false end.

Section Position.
(** getStreamer (playback.go:34-47) and the samples of the song; nanBreakSize (playlist.go:23) *)
Variable decode : song -> option (list sample).
Variable nan_break : Z.

(** is the loop about to read the position? Line 69 (the list is not empty: 66-68), line 54 (the
    song cannot be played: 51-52), line 102 (no jump is waiting: 97-99, and the song has
    ended: 101) *)
Definition about_to_load (s : pstate) : bool :=
  match at_pc s with
  | AtTop => negb (zlen (songs s) =? 0)%Z
  | Opening f => match decode f with None => true | Some _ => false end
  | Checking _ n ok => negb (0 <? tokens s)%nat && (negb ok || (n <? streamer_buffer_size)%nat)
  | _ => false
  end.

(** what the loop does once it has read [v]: lines 69-71 and 43-49; 54-55; 102-103, 91 and 59 *)
Definition store (s : pstate) (v : Z) : option (pstate * list event) :=
  match at_pc s with
  | AtTop =>
      match slice_get (songs s) (go_mod v (zlen (songs s))) with
      | Panic => Some (set_pc s Crashed, [])
      | Ok f =>
          let s1 := set_position s (go_mod v (zlen (songs s))) in
          match f with
          | [] => let g := nan_samples (Z.of_N no_song_nan_sample_count) in Some (pushed s1 g, [EGap g])
          | _ => Some (set_pc (set_current s1 f) (Opening f), [])
          end
      end
  | Opening _ => Some (set_pc (set_position s (v + 1)%Z) AtTop, [])
  | Checking _ _ _ =>
      let brk := nan_samples nan_break in
      Some (set_pc (pushed (set_position s (v + 1)%Z) brk) AtTop, [EGap brk])
  | _ => None
  end.

(** one step; [None] if it is not possible now.  nextSong holds the lock of the song list from
    line 64 on, so the list cannot be edited between lines 69 and 70. *)
Definition jstep (s : jstate) (a : jaction) : option (jstate * list event) :=
  match a, held s with
  | JLoad, None =>
      if about_to_load (inner s) then Some ({| inner := inner s; held := Some (position (inner s)) |}, []) else None
  | JLoad, Some _ => None
  | JStore, None => None
  | JStore, Some v =>
      match store (inner s) v with
      | None => None
      | Some (p, es) => Some ({| inner := p; held := None |}, es)
      end
  | JAct a, None =>
      if by_loop a && about_to_load (inner s) then None
      else match pstep decode nan_break (inner s) a with
           | None => None
           | Some (p, es) => Some ({| inner := p; held := None |}, es)
           end
  | JAct a, Some v =>
      if by_loop a then None
      else match a, at_pc (inner s) with
           | AEdit _, AtTop => None
           | _, _ => match pstep decode nan_break (inner s) a with
                     | None => None
                     | Some (p, es) => Some ({| inner := p; held := Some v |}, es)
                     end
           end
  end.

(** a schedule: one step after the other (no code of its own) *)
Fixpoint jrun (s : jstate) (acts : list jaction) : option (jstate * list event) :=
  match acts with
  | [] => Some (s, [])
  | a :: rest =>
      match jstep s a with
      | None => None
      | Some (s1, e1) => match jrun s1 rest with None => None | Some (s2, e2) => Some (s2, e1 ++ e2) end
      end
  end.
End Position.

(** NewPlaylist (playlist.go 250-265) *)
Definition fresh_playlist (l : list song) : jstate := {| inner := new_playlist l; held := None |}.
