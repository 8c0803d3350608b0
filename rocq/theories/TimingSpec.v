(** Specification vocabulary for clock synchronisation. *)
From Verif Require Import GoBase TimingModel.
Local Open Scope Z_scope.

(** The measurements of a schedule, in the order of arrival. *)
Fixpoint measured (acts : list tact) : list Z :=
  match acts with
  | [] => []
  | TAppend o :: r => o :: measured r
  | _ :: r => measured r
  end.

Fixpoint total (l : list Z) : Z := match l with [] => 0 | x :: r => x + total r end.

Definition no_reset (acts : list tact) : Prop := Forall (fun a => match a with TReset _ => False | _ => True end) acts.
Definition nobody_running (s : tstate) : Prop := Forall (fun p => p = UDone) (upcs s).
