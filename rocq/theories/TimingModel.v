(** Model of timing/timing.go.  monotime.Now is an external clock; its readings are inputs. *)
From Verif Require Import GoBase.
Local Open Scope Z_scope.

(** timing.go:38, in int64 arithmetic *)
Definition calc_offset (client_send server_recv server_send client_recv : Z) : Z :=
  go_div (wrap64 (wrap64 (server_recv - client_send) + wrap64 (server_send - client_recv))) 2.

(** 45-50: arbitrary precision sum; big.Int.Div is Euclidean division (= rounding down for
    a positive divisor) and panics for divisor 0; Int64 takes the low 64 bits. *)
Definition average (l : list Z) : outcome Z :=
  match l with
  | [] => Panic
  | _ => Ok (wrap64 (fold_left Z.add l 0 / zlen l))
  end.

(** A goroutine inside UpdateOffset, after its append *)
Inductive upc :=
| UCheck          (* 43: the comparison, made without the lock: the length and the capacity ... *)
| ULen (k : nat)  (* 43: ... the length is read, [k]; the capacity is not *)
| UCap (c : nat)  (* 43: ... the capacity is read, [c]; the length is not *)
| UAvg            (* 44-51: the average, made under the lock *)
| UDone.

Record tstate := {
  offs : list Z;          (* offsets[0:len] *)
  ocap : nat;             (* cap(offsets) *)
  off : Z;                (* offset *)
  upcs : list upc         (* the UpdateOffset calls so far, by order of their append *)
}.

(** 13-14 *)
Definition init_t : tstate := {| offs := []; ocap := 0; off := 0; upcs := [] |}.

(** A call of UpdateOffset moves on (timing/timing.go 34-52). *)
Fixpoint set_pc (l : list upc) (i : nat) (p : upc) : list upc :=
  match l, i with
  | [], _ => []
  | _ :: r, O => p :: r
  | q :: r, S j => q :: set_pc r j p
  end.

(** Call [i] goes on at [p]; it changes no variable (timing/timing.go 43). *)
Definition go_to (s : tstate) (i : nat) (p : upc) : tstate :=
  {| offs := offs s; ocap := ocap s; off := off s; upcs := set_pc (upcs s) i p |}.

(** ResetOffsets and the parts of UpdateOffset that other goroutines can come between *)
Inductive tact :=
| TReset (n : Z)          (* 28-32 *)
| TAppend (o : Z)         (* 35-41: a call with calcOffset = o *)
| TLen (i : nat)          (* 43: len(offsets), by call i *)
| TCap (i : nat)          (* 43: cap(offsets), by call i *)
| TAvg (i : nat).         (* 44-51 by call i *)

(** [grow len] is the capacity append gives to a full slice when it needs [len] elements
    (implementation-defined, at least [len]).  The comparison in line 43 reads length and
    capacity without the lock, each for itself and in either order (that the two words of the
    slice are also written one at a time adds nothing: a reader between the writes gets what one reads
    who reads one word before both and the other after). *)
Definition tstep (grow : nat -> nat) (s : tstate) (a : tact) : option (outcome tstate) :=
  match a with
  | TReset n =>
      Some (if n <? 0 then Panic       (* make with a negative capacity *)
            else Ok {| offs := []; ocap := Z.to_nat n; off := off s; upcs := upcs s |})
  | TAppend o =>
      let l := offs s ++ [o] in
      Some (Ok {| offs := l; ocap := if (length l <=? ocap s)%nat then ocap s else grow (length l);
                  off := off s; upcs := upcs s ++ [UCheck] |})
  | TLen i =>
      match nth_error (upcs s) i with
      | Some UCheck => Some (Ok (go_to s i (ULen (length (offs s)))))
      | Some (UCap c) => Some (Ok (go_to s i (if (length (offs s) =? c)%nat then UAvg else UDone)))
      | _ => None
      end
  | TCap i =>
      match nth_error (upcs s) i with
      | Some UCheck => Some (Ok (go_to s i (UCap (ocap s))))
      | Some (ULen k) => Some (Ok (go_to s i (if (k =? ocap s)%nat then UAvg else UDone)))
      | _ => None
      end
  | TAvg i =>
      match nth_error (upcs s) i with
      | Some UAvg =>
          Some (do a <- average (offs s);
                Ok {| offs := offs s; ocap := ocap s; off := a; upcs := set_pc (upcs s) i UDone |})
      | _ => None
      end
  end.

(** A schedule of such steps *)
Fixpoint trun (grow : nat -> nat) (s : tstate) (acts : list tact) : option (outcome tstate) :=
  match acts with
  | [] => Some (Ok s)
  | a :: r =>
      match tstep grow s a with
      | None => None
      | Some Panic => Some Panic
      | Some (Ok s1) => trun grow s1 r
      end
  end.

(** 18-20, at monotonic clock reading [mono] *)
Definition get_synced_time (s : tstate) (mono : Z) : Z := wrap64 (mono + off s).
