(** The sample queue used by any number of goroutines: playback/timed_sample_queue.go 15-95.
    QueueModel has one goroutine that adds and one that removes, so that headMutex and tailMutex
    are never waited for; here every goroutine may make every call, and the two
    RWMutexes are modelled: Lock announces the writer, which keeps new readers out, and then waits for
    the readers there are (Go's sync.RWMutex). *)
From Verif Require Import GoBase QueueModel.

(** whom waitNotFull (77-83) or waitNotEmpty (85-91) is called for: Add, Remove, Peek *)
Inductive waiter := ForAdd (x : tsample) | ForRemove | ForPeek.
(** inside of these: 78/86 and the end of cond.Wait; 79/87; 80/88 cond.Wait: enter the notify list;
    unlock cond.L; sleep; 82/90 *)
Inductive phase := TakeL | Check | Register | Release | Asleep | LeaveL.

(** where a goroutine stands *)
Inductive place :=
| Out                      (* not in a call *)
| LockHead (x : tsample)   (* 16: headMutex.Lock, announcing the writer *)
| DrainHead (x : tsample)  (* 16: waiting for the readers there are *)
| LockTail                 (* 28: tailMutex.Lock *)
| DrainTail
| RLockTail (len : bool)   (* 41 in Peek, 51 in Len *)
| RLockHead                (* 53 *)
| Waiting (w : waiter) (p : phase)
| Write (x : tsample)      (* 21 *)
| IncHead (x : tsample)    (* 22 *)
| BcastAdd                 (* 24 *)
| UnlockHead               (* 17 *)
| ReadRemove               (* 33 *)
| IncTail (v : tsample)    (* 34 *)
| BcastRemove (v : tsample)(* 36 *)
| UnlockTail (v : tsample) (* 29, 37 *)
| ReadPeek                 (* 46 *)
| ReadLen                  (* 55-58 *)
| RUnlockHead (r : qout)   (* 54 *)
| RUnlockTail (r : qout).  (* 42, 52 *)

(** timed_sample_queue.go 5-13: the queue; of each RWMutex the writer that has announced itself and the
    readers holding it; who holds cond.L; the goroutines cond.Broadcast would wake; where each one stands *)
Record mstate := {
  mq : queue;
  hw : option nat; hr : list nat;
  tw : option nat; tr : list nat;
  cl : option nat; reg : list nat;
  places : nat -> place
}.

(** what can be seen from outside *)
Inductive mevent := Called (g : nat) (o : qop) | Returned (g : nat) (r : qout).
(** a goroutine makes a call; a goroutine takes its next step *)
Inductive mact := Calls (g : nat) (o : qop) | Steps (g : nat).

(** an assignment to one element (no code of its own) *)
Definition put {A} (f : nat -> A) (g : nat) (x : A) : nat -> A := fun k => if (k =? g)%nat then x else f k.
(** [l] without [g] (no code of its own) *)
Definition drop (g : nat) (l : list nat) : list nat := filter (fun k => negb (k =? g)%nat) l.
(** is nobody in it? (no code of its own) *)
Definition free (o : option nat) : bool := match o with None => true | _ => false end.
(** is it empty? (no code of its own) *)
Definition nobody (l : list nat) : bool := match l with [] => true | _ => false end.

(** the first line of Add (16), Remove (28), Peek (41), Len (51) *)
Definition entry (o : qop) : place :=
  match o with QAdd x => LockHead x | QRemove => LockTail | QPeek => RLockTail false | QLen => RLockTail true end.

(** plumbing: [g] goes on to [p] *)
Definition goes (s : mstate) (g : nat) (p : place) : mstate :=
  {| mq := mq s; hw := hw s; hr := hr s; tw := tw s; tr := tr s; cl := cl s; reg := reg s; places := put (places s) g p |}.
(** plumbing: the queue changes *)
Definition with_q (s : mstate) (q : queue) : mstate :=
  {| mq := q; hw := hw s; hr := hr s; tw := tw s; tr := tr s; cl := cl s; reg := reg s; places := places s |}.
(** plumbing: headMutex changes *)
Definition with_head (s : mstate) (w : option nat) (r : list nat) : mstate :=
  {| mq := mq s; hw := w; hr := r; tw := tw s; tr := tr s; cl := cl s; reg := reg s; places := places s |}.
(** plumbing: tailMutex changes *)
Definition with_tail (s : mstate) (w : option nat) (r : list nat) : mstate :=
  {| mq := mq s; hw := hw s; hr := hr s; tw := w; tr := r; cl := cl s; reg := reg s; places := places s |}.
(** plumbing: cond.L and the waiters of cond change *)
Definition with_cond (s : mstate) (l : option nat) (r : list nat) : mstate :=
  {| mq := mq s; hw := hw s; hr := hr s; tw := tw s; tr := tr s; cl := l; reg := r; places := places s |}.

(** the step of [g] in the state; [None] if it has to wait *)
Definition gstep (s : mstate) (g : nat) : option (mstate * list mevent) :=
  match places s g with
  | Out => None
  | LockHead x => if free (hw s) then Some (goes (with_head s (Some g) (hr s)) g (DrainHead x), []) else None
  | DrainHead x => if nobody (hr s) then Some (goes s g (Waiting (ForAdd x) TakeL), []) else None
  | LockTail => if free (tw s) then Some (goes (with_tail s (Some g) (tr s)) g DrainTail, []) else None
  | DrainTail => if nobody (tr s) then Some (goes s g (Waiting ForRemove TakeL), []) else None
  | RLockTail len =>
      if free (tw s) then Some (goes (with_tail s (tw s) (g :: tr s)) g (if len then RLockHead else Waiting ForPeek TakeL), []) else None
  | RLockHead => if free (hw s) then Some (goes (with_head s (hw s) (g :: hr s)) g ReadLen, []) else None
  | Waiting w TakeL => if free (cl s) then Some (goes (with_cond s (Some g) (reg s)) g (Waiting w Check), []) else None
  | Waiting w Check =>
      let wait := match w with ForAdd _ => full (mq s) | _ => empty (mq s) end in
      Some (goes s g (Waiting w (if wait then Register else LeaveL)), [])
  | Waiting w Register => Some (goes (with_cond s (cl s) (g :: reg s)) g (Waiting w Release), [])
  | Waiting w Release => Some (goes (with_cond s None (reg s)) g (Waiting w Asleep), [])
  | Waiting w Asleep => if existsb (Nat.eqb g) (reg s) then None else Some (goes s g (Waiting w TakeL), [])
  | Waiting w LeaveL =>
      Some (goes (with_cond s None (reg s)) g (match w with ForAdd x => Write x | ForRemove => ReadRemove | ForPeek => ReadPeek end), [])
  | Write x => Some (goes (with_q s (write_head (mq s) x)) g (IncHead x), [])
  | IncHead x => Some (goes (with_q s (incr_head (mq s))) g BcastAdd, [])
  | BcastAdd => Some (goes (with_cond s (cl s) []) g UnlockHead, [])
  | UnlockHead => Some (goes (with_head s None (hr s)) g Out, [Returned g ODone])
  | ReadRemove => Some (goes s g (IncTail (read_tail (mq s))), [])
  | IncTail v => Some (goes (with_q s (incr_tail (mq s))) g (BcastRemove v), [])
  | BcastRemove v => Some (goes (with_cond s (cl s) []) g (UnlockTail v), [])
  | UnlockTail v => Some (goes (with_tail s None (tr s)) g Out, [Returned g (OSample v)])
  | ReadPeek => Some (goes s g (RUnlockTail (OSample (read_tail (mq s)))), [])
  | ReadLen => Some (goes s g (RUnlockHead (OLen (q_len (mq s)))), [])
  | RUnlockHead r => Some (goes (with_head s (hw s) (drop g (hr s))) g (RUnlockTail r), [])
  | RUnlockTail r => Some (goes (with_tail s (tw s) (drop g (tr s))) g Out, [Returned g r])
  end.

(** a call begins (only a goroutine that is in none makes one), or a step *)
Definition mstep (s : mstate) (a : mact) : option (mstate * list mevent) :=
  match a with
  | Calls g o => match places s g with Out => Some (goes s g (entry o), [Called g o]) | _ => None end
  | Steps g => gstep s g
  end.

(** a schedule: one step after the other (no code of its own) *)
Fixpoint mrun (s : mstate) (acts : list mact) : option (mstate * list mevent) :=
  match acts with
  | [] => Some (s, [])
  | a :: r =>
      match mstep s a with
      | None => None
      | Some (s1, e1) => match mrun s1 r with None => None | Some (s2, e2) => Some (s2, e1 ++ e2) end
      end
  end.

(** newTimedSampleQueue (93-95) *)
Definition new_crowd (size : nat) : mstate :=
  {| mq := new_queue size; hw := None; hr := []; tw := None; tr := []; cl := None; reg := []; places := fun _ => Out |}.
