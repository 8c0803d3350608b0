(** A bounded FIFO. *)
From Verif Require Import GoBase QueueModel.

(** [l] holds the stored elements, oldest first; [None]: the call has to wait. *)
Definition fifo_step (cap : nat) (l : list tsample) (o : qop) : option (list tsample * qout) :=
  match o with
  | QAdd x => if (length l =? cap)%nat then None else Some (l ++ [x], ODone)
  | QRemove => match l with [] => None | x :: r => Some (r, OSample x) end
  | QPeek => match l with [] => None | x :: r => Some (l, OSample x) end
  | QLen => Some (l, OLen (zlen l))
  end.

Fixpoint fifo_run (cap : nat) (l : list tsample) (os : list qop) : option (list tsample * list qout) :=
  match os with
  | [] => Some (l, [])
  | o :: r =>
      match fifo_step cap l o with
      | None => None
      | Some (l1, x) => match fifo_run cap l1 r with None => None | Some (l2, xs) => Some (l2, x :: xs) end
      end
  end.

(** The goroutine has decided to wait and nobody has notified it yet. *)
Definition remover_waiting (s : qstate) : Prop :=
  (exists p, r_pc s = RRegister p) \/ r_reg s = true.
Definition adder_waiting (s : qstate) : Prop :=
  (exists x, a_pc s = ARegister x) \/ a_reg s = true.
Definition remover_asleep (s : qstate) : Prop := (exists p, r_pc s = RSleep p) /\ r_reg s = true.
Definition adder_asleep (s : qstate) : Prop := (exists x, a_pc s = ASleep x) /\ a_reg s = true.

(** Number of elements stored. *)
Definition stored (s : qstate) : nat := length (added s) - length (removed s).
