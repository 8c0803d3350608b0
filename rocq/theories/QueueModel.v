(** Model of playback/timed_sample_queue.go.  First the queue used by one goroutine at a
    time, then the same code at the granularity of single memory and lock operations for
    one adding goroutine (ReadChunks) and one removing goroutine (the play loop). *)
From Verif Require Import GoBase PlaylistModel.

(** streamer.go:13-16 (timedSample) *)
Notation tsample := ((N * N) * Z)%type (only parsing).
Definition zero_ts : tsample := ((0, 0)%N, 0%Z).

(** timed_sample_queue.go:5-13; head and tail count modulo twice the buffer size and are
    never negative, so they are natural numbers here. *)
Record queue := { buf : list tsample; head : nat; tail : nat }.

(** 93-95 *)
Definition new_queue (size : nat) : queue := {| buf := repeat zero_ts size; head := 0; tail := 0 |}.

(** 61-63 *)
Definition q_cap (q : queue) : nat := length (buf q).
(** 65-67 (for a buffer of size 0 the code divides by zero; all theorems have size >= 1) *)
Definition inc (n i : nat) : nat := (i + 1) mod (2 * n).
(** 69-71 *)
Definition full (q : queue) : bool := Nat.eqb ((tail q + q_cap q) mod (2 * q_cap q)) (head q).
(** 73-75 *)
Definition empty (q : queue) : bool := Nat.eqb (head q) (tail q).
(** 50-59 *)
Definition q_len (q : queue) : Z :=
  if (tail q <=? head q)%nat then (Z.of_nat (head q) - Z.of_nat (tail q))%Z
  else (Z.of_nat (head q) - Z.of_nat (tail q) + 2 * Z.of_nat (q_cap q))%Z.

(** [buffer[i] = x] for an index within bounds *)
Fixpoint upd {A} (l : list A) (i : nat) (x : A) : list A :=
  match l, i with
  | [], _ => []
  | _ :: r, O => x :: r
  | y :: r, S j => y :: upd r j x
  end.

(** 21 *)
Definition write_head (q : queue) (x : tsample) : queue :=
  {| buf := upd (buf q) (head q mod q_cap q) x; head := head q; tail := tail q |}.
(** 22 *)
Definition incr_head (q : queue) : queue :=
  {| buf := buf q; head := inc (q_cap q) (head q); tail := tail q |}.
(** 33, 46 *)
Definition read_tail (q : queue) : tsample := nth (tail q mod q_cap q) (buf q) zero_ts.
(** 34 *)
Definition incr_tail (q : queue) : queue :=
  {| buf := buf q; head := head q; tail := inc (q_cap q) (tail q) |}.

(** the calls of timed_sample_queue.go:15-59 *)
Inductive qop := QAdd (x : tsample) | QRemove | QPeek | QLen.
(** what they return *)
Inductive qout := ODone | OSample (x : tsample) | OLen (n : Z).

(** 15-59 executed without interference; [None] when the call waits in cond.Wait. *)
Definition qstep (q : queue) (o : qop) : option (queue * qout) :=
  match o with
  | QAdd x => if full q then None else Some (incr_head (write_head q x), ODone)
  | QRemove => if empty q then None else Some (incr_tail q, OSample (read_tail q))
  | QPeek => if empty q then None else Some (q, OSample (read_tail q))
  | QLen => Some (q, OLen (q_len q))
  end.

(** a history of calls, one after the other (no code of its own) *)
Fixpoint qrun (q : queue) (os : list qop) : option (queue * list qout) :=
  match os with
  | [] => Some (q, [])
  | o :: r =>
      match qstep q o with
      | None => None
      | Some (q1, x) => match qrun q1 r with None => None | Some (q2, xs) => Some (q2, x :: xs) end
      end
  end.

(* ------------------------------------------------------------------ *)
(** ** Fine-grained interleavings *)

(** The adding goroutine inside Add (15-25).  headMutex is only ever taken by this
    goroutine (Len, the other user, is called by tests only) and is left out. *)
Inductive apc :=
| AIdle
| ALockL (x : tsample)        (* 78, and the re-lock at the end of cond.Wait: q.cond.L.Lock() *)
| ACheck (x : tsample)        (* 79: q.full(), holding cond.L *)
| ARegister (x : tsample)     (* 80: cond.Wait, first part: add to the notify list, holding cond.L *)
| AUnlockWait (x : tsample)   (* 80: cond.Wait, second part: unlock cond.L *)
| ASleep (x : tsample)        (* 80: cond.Wait, third part: sleep until notified *)
| AUnlockL (x : tsample)      (* 82 *)
| AWrite (x : tsample)        (* 21 *)
| AIncr (x : tsample)         (* 22 *)
| ABcast.                     (* 24: wakes every registered goroutine; cond.L is not held *)

(** The removing goroutine inside Remove (27-38) or Peek (40-48); [p] tells which. *)
Inductive rpc :=
| RIdle
| RLockL (p : bool)           (* 86 *)
| RCheck (p : bool)           (* 87 *)
| RRegister (p : bool)        (* 88 *)
| RUnlockWait (p : bool)
| RSleep (p : bool)
| RUnlockL (p : bool)         (* 90 *)
| RRead (p : bool)            (* 33, 46 *)
| RIncr (v : tsample)         (* 34 *)
| RBcast (v : tsample).       (* 36 *)

(** timed_sample_queue.go:5-13, where the two goroutines stand, and the history *)
Record qstate := {
  qq : queue;
  a_pc : apc;
  r_pc : rpc;
  a_reg : bool;               (* the adder is in the notify list *)
  r_reg : bool;               (* the remover is in the notify list *)
  (* history *)
  added : list tsample;       (* elements whose head increment has happened *)
  removed : list tsample;     (* elements whose tail increment has happened *)
  peeked : list (nat * tsample) (* results of Peek with the number of elements removed before *)
}.

(** timed_sample_queue.go:93-95 (newTimedSampleQueue) *)
Definition init_q (size : nat) : qstate :=
  {| qq := new_queue size; a_pc := AIdle; r_pc := RIdle; a_reg := false; r_reg := false;
     added := []; removed := []; peeked := [] |}.

(** cond.L is held by a goroutine exactly between these program counters. *)
Definition a_holds (p : apc) : bool :=
  match p with ACheck _ | ARegister _ | AUnlockWait _ | AUnlockL _ => true | _ => false end.
(** the remover holds cond.L *)
Definition r_holds (p : rpc) : bool :=
  match p with RCheck _ | RRegister _ | RUnlockWait _ | RUnlockL _ => true | _ => false end.

(** plumbing: the adder goes on *)
Definition set_a (s : qstate) (p : apc) : qstate :=
  {| qq := qq s; a_pc := p; r_pc := r_pc s; a_reg := a_reg s; r_reg := r_reg s;
     added := added s; removed := removed s; peeked := peeked s |}.
(** plumbing: the remover goes on *)
Definition set_r (s : qstate) (p : rpc) : qstate :=
  {| qq := qq s; a_pc := a_pc s; r_pc := p; a_reg := a_reg s; r_reg := r_reg s;
     added := added s; removed := removed s; peeked := peeked s |}.
(** plumbing: the queue changes *)
Definition set_q (s : qstate) (q : queue) : qstate :=
  {| qq := q; a_pc := a_pc s; r_pc := r_pc s; a_reg := a_reg s; r_reg := r_reg s;
     added := added s; removed := removed s; peeked := peeked s |}.
(** plumbing: sync.Cond's list of waiters changes *)
Definition set_reg (s : qstate) (a r : bool) : qstate :=
  {| qq := qq s; a_pc := a_pc s; r_pc := r_pc s; a_reg := a; r_reg := r;
     added := added s; removed := removed s; peeked := peeked s |}.
(** the history (not part of the program) *)
Definition log_added (s : qstate) (x : tsample) : qstate :=
  {| qq := qq s; a_pc := a_pc s; r_pc := r_pc s; a_reg := a_reg s; r_reg := r_reg s;
     added := added s ++ [x]; removed := removed s; peeked := peeked s |}.
(** the history (not part of the program) *)
Definition log_removed (s : qstate) (x : tsample) : qstate :=
  {| qq := qq s; a_pc := a_pc s; r_pc := r_pc s; a_reg := a_reg s; r_reg := r_reg s;
     added := added s; removed := removed s ++ [x]; peeked := peeked s |}.
(** the history (not part of the program) *)
Definition log_peeked (s : qstate) (x : tsample) : qstate :=
  {| qq := qq s; a_pc := a_pc s; r_pc := r_pc s; a_reg := a_reg s; r_reg := r_reg s;
     added := added s; removed := removed s; peeked := peeked s ++ [(length (removed s), x)] |}.

(** a call of timed_sample_queue.go:15-59 begins, or its goroutine takes its next step *)
Inductive qact := AStart (x : tsample) | AStep | RStart (peek : bool) | RStep.

(** One atomic step of one of the two goroutines; [None] when it cannot move. *)
Definition qmove (s : qstate) (a : qact) : option qstate :=
  match a with
  | AStart x => match a_pc s with AIdle => Some (set_a s (ALockL x)) | _ => None end
  | AStep =>
      match a_pc s with
      | AIdle => None
      | ALockL x => if r_holds (r_pc s) then None else Some (set_a s (ACheck x))
      | ACheck x => if full (qq s) then Some (set_a s (ARegister x)) else Some (set_a s (AUnlockL x))
      | ARegister x => Some (set_a (set_reg s true (r_reg s)) (AUnlockWait x))
      | AUnlockWait x => Some (set_a s (ASleep x))
      | ASleep x => if a_reg s then None else Some (set_a s (ALockL x))
      | AUnlockL x => Some (set_a s (AWrite x))
      | AWrite x => Some (set_a (set_q s (write_head (qq s) x)) (AIncr x))
      | AIncr x => Some (set_a (log_added (set_q s (incr_head (qq s))) x) ABcast)
      | ABcast => Some (set_a (set_reg s false false) AIdle)
      end
  | RStart p => match r_pc s with RIdle => Some (set_r s (RLockL p)) | _ => None end
  | RStep =>
      match r_pc s with
      | RIdle => None
      | RLockL p => if a_holds (a_pc s) then None else Some (set_r s (RCheck p))
      | RCheck p => if empty (qq s) then Some (set_r s (RRegister p)) else Some (set_r s (RUnlockL p))
      | RRegister p => Some (set_r (set_reg s (a_reg s) true) (RUnlockWait p))
      | RUnlockWait p => Some (set_r s (RSleep p))
      | RSleep p => if r_reg s then None else Some (set_r s (RLockL p))
      | RUnlockL p => Some (set_r s (RRead p))
      | RRead true => Some (set_r (log_peeked s (read_tail (qq s))) RIdle)
      | RRead false => Some (set_r s (RIncr (read_tail (qq s))))
      | RIncr v => Some (set_r (log_removed (set_q s (incr_tail (qq s))) v) (RBcast v))
      | RBcast v => Some (set_r (set_reg s false false) RIdle)
      end
  end.

(** a schedule: one step after the other (no code of its own) *)
Fixpoint qmoves (s : qstate) (acts : list qact) : option qstate :=
  match acts with
  | [] => Some s
  | a :: r => match qmove s a with None => None | Some s1 => qmoves s1 r end
  end.
