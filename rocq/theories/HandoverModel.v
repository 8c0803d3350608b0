(** Model of the hand-over of chunks in a player, at the granularity of single reads and writes:
    playback/playback.go:50-62 (QueueChunk, run by one goroutine per received message:
    comm/package_handler.go:68-69) and playback/streamer.go:81-97 (ReadChunks, one goroutine),
    which share the slice [chunks] and its sync.RWMutex, and the sample queue that ReadChunks fills.

    The mutex as in Go's sync/rwmutex.go: Lock first takes its turn among the writers (from then
    on no reader gets in), then waits for the readers inside; RLock waits while a writer has its turn.

    The sample queue is reduced to the number of free places ([h_room]): Add waits until there is
    one (QueueModel has the queue itself). *)
From Verif Require Import GoBase PlaylistModel QueueModel PlayerModel.
Local Open Scope Z_scope.

(** a goroutine running QueueChunk *)
Inductive qpc :=
| QStart (c : chunk)                        (* playback.go:58, before Lock *)
| QTurn (c : chunk)                         (* in Lock: its turn, waiting for the reader *)
| QLocked (c : chunk)                       (* 59: about to read the slice *)
| QRead (c : chunk) (old : list chunk)      (* 59: about to write the slice *)
| QWritten                                  (* 60: about to Unlock *)
| QDone.
(** the goroutine running ReadChunks *)
Inductive rpc :=
| HTop                                      (* streamer.go:82-83: about to look at the length, without the lock *)
| HSeen                                     (* 84: before RLock *)
| HStart                                    (* 85: about to read chunks[0].startTime *)
| HRange (st : Z)                           (* 86: about to read chunks[0].samples *)
| HAdd (st : Z) (i : nat) (l : list (N * N)) (* 86-88: sample i and those behind it are to be added *)
| HUnlockR                                  (* 89 *)
| HWant                                     (* 90, before Lock *)
| HTurn                                     (* in Lock *)
| HLocked                                   (* 91: about to read the slice *)
| HRead (old : list chunk)                  (* 91: about to write the slice *)
| HUnlockW                                  (* 92 *)
| HPanicked.                                (* index or slice bounds out of range *)

(** whose turn it is among the writers *)
Inductive turn := NoTurn | Queuer (g : nat) | Reader.
Record hstate := {
  h_chunks : list chunk;
  h_turn : turn;                            (* rw.w, and readers are kept out *)
  h_rlocked : bool;                         (* the reader is inside *)
  h_queuers : list qpc;
  h_reader : rpc;
  h_room : nat
}.
(** playback.go:104-113 (initStreamer): [cap] is 2 * sampleRate *)
Definition h_init (cap : nat) : hstate :=
  {| h_chunks := []; h_turn := NoTurn; h_rlocked := false; h_queuers := []; h_reader := HTop; h_room := cap |}.

(** What can happen: comm/package_handler.go 69 (a chunk arrives), playback.go 50-62, streamer.go 81-97, the play loop. *)
Inductive h_act :=
| Arrives (c : chunk)                       (* a message arrives: a new goroutine *)
| QStep (g : nat)                           (* a step of goroutine g *)
| RStep                                     (* a step of ReadChunks *)
| Takes.                                    (* the play loop removes a sample from the queue *)
Inductive h_event := Queued (c : chunk) | Added (x : tsample).

(** Replace the point goroutine [g] is at. *)
Definition update (l : list qpc) (g : nat) (p : qpc) : list qpc := firstn g l ++ p :: skipn (S g) l.
(** A goroutine in QueueChunk moves on (playback.go 58-60). *)
Definition with_q (s : hstate) (g : nat) (p : qpc) : hstate :=
  {| h_chunks := h_chunks s; h_turn := h_turn s; h_rlocked := h_rlocked s; h_queuers := update (h_queuers s) g p; h_reader := h_reader s; h_room := h_room s |}.
(** ReadChunks moves on (streamer.go 81-97). *)
Definition with_r (s : hstate) (p : rpc) : hstate :=
  {| h_chunks := h_chunks s; h_turn := h_turn s; h_rlocked := h_rlocked s; h_queuers := h_queuers s; h_reader := p; h_room := h_room s |}.
(** Lock and Unlock of chunksMutex (playback.go 58, 60; streamer.go 90, 92). *)
Definition with_turn (s : hstate) (t : turn) : hstate :=
  {| h_chunks := h_chunks s; h_turn := t; h_rlocked := h_rlocked s; h_queuers := h_queuers s; h_reader := h_reader s; h_room := h_room s |}.
(** RLock and RUnlock of chunksMutex (streamer.go 84, 89). *)
Definition with_rlock (s : hstate) (b : bool) : hstate :=
  {| h_chunks := h_chunks s; h_turn := h_turn s; h_rlocked := b; h_queuers := h_queuers s; h_reader := h_reader s; h_room := h_room s |}.
(** Assignment to streamer.chunks (playback.go 59, streamer.go 91). *)
Definition with_chunks (s : hstate) (l : list chunk) : hstate :=
  {| h_chunks := l; h_turn := h_turn s; h_rlocked := h_rlocked s; h_queuers := h_queuers s; h_reader := h_reader s; h_room := h_room s |}.
(** Room in the sample queue (streamer.go 87). *)
Definition with_room (s : hstate) (n : nat) : hstate :=
  {| h_chunks := h_chunks s; h_turn := h_turn s; h_rlocked := h_rlocked s; h_queuers := h_queuers s; h_reader := h_reader s; h_room := n |}.

(** [None]: the action is not possible, or its goroutine waits *)
Definition h_step (sr : Z) (s : hstate) (a : h_act) : option (hstate * list h_event) :=
  match a with
  | Arrives c => Some ({| h_chunks := h_chunks s; h_turn := h_turn s; h_rlocked := h_rlocked s; h_queuers := h_queuers s ++ [QStart c]; h_reader := h_reader s; h_room := h_room s |}, [])
  | Takes => Some (with_room s (S (h_room s)), [])
  | QStep g =>
      match nth_error (h_queuers s) g with
      | Some (QStart c) => match h_turn s with NoTurn => Some (with_turn (with_q s g (QTurn c)) (Queuer g), []) | _ => None end
      | Some (QTurn c) => if h_rlocked s then None else Some (with_q s g (QLocked c), [])
      | Some (QLocked c) => Some (with_q s g (QRead c (h_chunks s)), [])
      | Some (QRead c old) => Some (with_chunks (with_q s g QWritten) (old ++ [c]), [Queued c])
      | Some QWritten => Some (with_turn (with_q s g QDone) NoTurn, [])
      | _ => None
      end
  | RStep =>
      match h_reader s with
      | HTop => match h_chunks s with [] => Some (s, []) | _ => Some (with_r s HSeen, []) end     (* 94: sleeps a millisecond *)
      | HSeen => match h_turn s with NoTurn => Some (with_rlock (with_r s HStart) true, []) | _ => None end
      | HStart => match h_chunks s with [] => Some (with_r s HPanicked, []) | c :: _ => Some (with_r s (HRange (c_start c)), []) end
      | HRange st => match h_chunks s with [] => Some (with_r s HPanicked, []) | c :: _ => Some (with_r s (HAdd st 0 (c_samples c)), []) end
      | HAdd st i [] => Some (with_r s HUnlockR, [])
      | HAdd st i (x :: l) =>
          match h_room s with
          | O => None
          | S n => Some (with_room (with_r s (HAdd st (S i) l)) n, [Added (x, st + samples_duration sr (Z.of_nat i))])
          end
      | HUnlockR => Some (with_rlock (with_r s HWant) false, [])
      | HWant => match h_turn s with NoTurn => Some (with_turn (with_r s HTurn) Reader, []) | _ => None end
      | HTurn => if h_rlocked s then None else Some (with_r s HLocked, [])
      | HLocked => Some (with_r s (HRead (h_chunks s)), [])
      | HRead old => match old with [] => Some (with_r s HPanicked, []) | _ :: r => Some (with_chunks (with_r s HUnlockW) r, []) end
      | HUnlockW => Some (with_turn (with_r s HTop) NoTurn, [])
      | HPanicked => None
      end
  end.
Fixpoint h_run (sr : Z) (s : hstate) (acts : list h_act) : option (hstate * list h_event) :=
  match acts with
  | [] => Some (s, [])
  | a :: r => match h_step sr s a with
              | None => None
              | Some (s1, e1) => match h_run sr s1 r with None => None | Some (s2, e2) => Some (s2, e1 ++ e2) end
              end
  end.
