(** Model of the playlist as shared by several control sessions and the streaming loop, at the
    granularity of single statements: playback/playlist.go:63-72 (nextSong), 140-143 (SetPos, its
    write of the position), 155-211 (Songs, AddSong, InsertSong, RemoveSong) and the
    sync.RWMutex [songsMutex]: Lock takes its turn among the writers (from then on no reader gets
    in) and waits for the readers inside; RLock waits while a writer has its turn.
    An assignment [pl.songs = append(pl.songs, x)] or [pl.songs = pl.songs[:n]] is two steps,
    reading the slice and writing it; copying for Songs reads one element at a time.
    The position is not protected by the lock for SetPos, and nextSong writes it while it holds the
    lock for reading only. *)
From Verif Require Import GoBase PlaylistModel.
Local Open Scope Z_scope.

(** playback/playlist.go: the calls made on the playlist (156-211 by sessions, 63-72 by the loop, 140-143 by sessions). *)
Inductive sop :=
| OEdit (e : edit)                  (* AddSong, InsertSong, RemoveSong *)
| OSongs                            (* Songs *)
| ONext                             (* nextSong, called by the streaming loop *)
| OJump (p : Z).                    (* SetPos; sending on forceNext is not part of this model *)
Inductive sresult := SNone | SSong (s : song) | SList (l : list song).

(** inside Lock ... Unlock *)
Inductive wpc :=
| WAdd (s : song)                           (* 168: reads the slice *)
| WAdd2 (s : song) (old : list song)        (* 168: writes it *)
| WIns (s : song) (i : Z)                   (* 176-179 *)
| WApp (s : song) (old : list song)         (* 180 *)
| WIns2 (s : song) (i : Z) (old : list song) (* 182 *)
| WIns3 (s : song) (i : Z)                  (* 183: copy *)
| WIns4 (s : song) (i : Z)                  (* 184 *)
| WRem (i : Z)                              (* 194-201 *)
| WLast                                     (* 202: removed *)
| WAt (i : Z)                               (* 205: removed *)
| WAt2 (i : Z) (x : song)                   (* 206: copy *)
| WAt3 (x : song)                           (* 207: clear the last *)
| WCut (x : song)                           (* 203 and 208: reads the slice *)
| WCut2 (x : song) (old : list song)        (* 203 and 208: writes it *)
| WOut (r : sresult).                       (* Unlock *)
Definition w_start (e : edit) : wpc :=
  match e with EAdd s => WAdd s | EInsert s i => WIns s i | ERemove i => WRem i end.
(** playlist.go 165-211: one statement of an editing method (line numbers at [wpc]). *)
Definition w_step (p : wpc) (l : list song) : outcome (wpc * list song) :=
  match p with
  | WAdd s => Ok (WAdd2 s l, l)
  | WAdd2 s old => Ok (WOut SNone, old ++ [s])
  | WIns s i => let i := if i <? 0 then 0 else i in
                if zlen l <? i then Ok (WApp s l, l) else Ok (WIns2 s i l, l)
  | WApp s old => Ok (WOut SNone, old ++ [s])
  | WIns2 s i old => Ok (WIns3 s i, old ++ @cons song [] [])
  | WIns3 s i => do l1 <- copy_within l (i + 1) i; Ok (WIns4 s i, l1)
  | WIns4 s i => do l1 <- slice_set l i s; Ok (WOut SNone, l1)
  | WRem i => if zlen l =? 0 then Ok (WOut (SSong []), l)
              else let i := if i <? 0 then 0 else i in
                   if zlen l <? i then Ok (WLast, l) else Ok (WAt i, l)
  | WLast => do x <- slice_get l (zlen l - 1); Ok (WCut x, l)
  | WAt i => do x <- slice_get l i; Ok (WAt2 i x, l)
  | WAt2 i x => do l1 <- copy_within l i (i + 1); Ok (WAt3 x, l1)
  | WAt3 x => do l1 <- slice_set l (zlen l - 1) []; Ok (WCut x, l1)
  | WCut x => Ok (WCut2 x l, l)
  | WCut2 x old => do l1 <- slice_to old (zlen old - 1); Ok (WOut (SSong x), l1)
  | WOut r => Ok (WOut r, l)
  end.

(** inside RLock ... RUnlock *)
Inductive rdpc :=
| RLen                                      (* 159: the length *)
| RCopy (n : nat) (acc : list song)         (* 160: element by element, n in all *)
| NLen                                      (* 66 *)
| NPos (n : Z)                              (* 69: n songs; reads the position *)
| NWrite (pos : Z)                          (* 70: writes it *)
| NGet (pos : Z)                            (* 71 *)
| ROut (r : sresult).                       (* RUnlock *)
Definition r_start (o : sop) : rdpc := match o with ONext => NLen | _ => RLen end.
(** [r_step p songs position] *)
Definition r_step (p : rdpc) (l : list song) (pos : Z) : outcome (rdpc * Z) :=
  match p with
  | RLen => Ok (RCopy (length l) [], pos)
  | RCopy n acc => if (length acc =? n)%nat then Ok (ROut (SList acc), pos)
                   else Ok (RCopy n (acc ++ [nth (length acc) l []]), pos)
  | NLen => if zlen l =? 0 then Ok (ROut (SSong []), pos) else Ok (NPos (zlen l), pos)
  | NPos n => Ok (NWrite (go_mod pos n), pos)
  | NWrite p => Ok (NGet p, p)
  | NGet p => do s <- slice_get l p; Ok (ROut (SSong s), pos)
  | ROut r => Ok (ROut r, pos)
  end.

(** one goroutine *)
Inductive gpc :=
| GIdle
| GCalled (o : sop)                         (* before Lock or RLock *)
| GTurn (e : edit)                          (* in Lock: has its turn, waits for the readers *)
| GWrites (e : edit) (p : wpc)
| GReads (o : sop) (p : rdpc).
(** Whether a goroutine holds songsMutex for reading (playlist.go 64, 157). *)
Definition g_reading (p : gpc) : bool := match p with GReads _ _ => true | _ => false end.

(** The fields songs, position and songsMutex of Playlist (playlist.go 16-35), with the goroutines using them. *)
Record sstate := {
  ss_songs : list song;
  ss_pos : Z;
  ss_turn : option nat;                     (* the goroutine whose turn it is among the writers *)
  ss_gs : list gpc;
  ss_crashed : bool                         (* a panic ended the process *)
}.
(** playlist.go 253-266 (NewPlaylist); then [n] goroutines (sessions and the loop) that have called nothing yet. *)
Definition s_init (l : list song) (pos : Z) (n : nat) : sstate :=
  {| ss_songs := l; ss_pos := pos; ss_turn := None; ss_gs := repeat GIdle n; ss_crashed := false |}.
(** Replace the point goroutine [g] is at. *)
Definition put (l : list gpc) (g : nat) (p : gpc) : list gpc := firstn g l ++ p :: skipn (S g) l.

(** A step: goroutine [g] calls a method (playlist.go 63, 140, 156, 165, 173, 191) or runs one statement of it. *)
Inductive s_act := Calls (g : nat) (o : sop) | Steps (g : nat).
(** a call that has returned: who, what, and what it got *)
Record s_done := { d_g : nat; d_op : sop; d_res : sresult }.

(** [None]: not possible, or the goroutine waits *)
Definition s_step (s : sstate) (a : s_act) : option (sstate * list s_done) :=
  if ss_crashed s then None else
  let mk l pos t g p := {| ss_songs := l; ss_pos := pos; ss_turn := t; ss_gs := put (ss_gs s) g p; ss_crashed := false |} in
  let crash := Some ({| ss_songs := ss_songs s; ss_pos := ss_pos s; ss_turn := ss_turn s; ss_gs := ss_gs s; ss_crashed := true |}, []) in
  match a with
  | Calls g o =>
      match nth_error (ss_gs s) g with
      | Some GIdle => Some (mk (ss_songs s) (ss_pos s) (ss_turn s) g (GCalled o), [])
      | _ => None
      end
  | Steps g =>
      match nth_error (ss_gs s) g with
      | Some (GCalled (OJump p)) => Some (mk (ss_songs s) p (ss_turn s) g GIdle, [{| d_g := g; d_op := OJump p; d_res := SNone |}])
      | Some (GCalled (OEdit e)) =>
          match ss_turn s with
          | None => Some (mk (ss_songs s) (ss_pos s) (Some g) g (GTurn e), [])
          | Some _ => None
          end
      | Some (GCalled o) =>
          match ss_turn s with
          | None => Some (mk (ss_songs s) (ss_pos s) None g (GReads o (r_start o)), [])
          | Some _ => None
          end
      | Some (GTurn e) =>
          if existsb g_reading (ss_gs s) then None
          else Some (mk (ss_songs s) (ss_pos s) (ss_turn s) g (GWrites e (w_start e)), [])
      | Some (GWrites e (WOut r)) => Some (mk (ss_songs s) (ss_pos s) None g GIdle, [{| d_g := g; d_op := OEdit e; d_res := r |}])
      | Some (GWrites e p) =>
          match w_step p (ss_songs s) with
          | Ok (p', l') => Some (mk l' (ss_pos s) (ss_turn s) g (GWrites e p'), [])
          | Panic => crash
          end
      | Some (GReads o (ROut r)) => Some (mk (ss_songs s) (ss_pos s) (ss_turn s) g GIdle, [{| d_g := g; d_op := o; d_res := r |}])
      | Some (GReads o p) =>
          match r_step p (ss_songs s) (ss_pos s) with
          | Ok (p', pos') => Some (mk (ss_songs s) pos' (ss_turn s) g (GReads o p'), [])
          | Panic => crash
          end
      | _ => None
      end
  end.
(** A schedule of such steps. *)
Fixpoint s_run (s : sstate) (acts : list s_act) : option (sstate * list s_done) :=
  match acts with
  | [] => Some (s, [])
  | a :: r => match s_step s a with
              | None => None
              | Some (s1, e1) => match s_run s1 r with None => None | Some (s2, e2) => Some (s2, e1 ++ e2) end
              end
  end.
