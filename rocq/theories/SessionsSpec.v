(** Specification of what several control sessions may rely on (C110). *)
From Verif Require Import GoBase PlaylistModel PlaylistSpec SessionsModel.
Local Open Scope Z_scope.

(** [one_by_one l ds l']: made one after the other on an ordinary list, the calls give these results
    and turn [l] into [l']. What comes next is a song of the list ("" if there is none). *)
Inductive one_by_one : list song -> list s_done -> list song -> Prop :=
| one_nil l : one_by_one l [] l
| one_edit l g e r l1 ds l2 : list_edit l e l1 r -> one_by_one l1 ds l2 ->
    one_by_one l ({| d_g := g; d_op := OEdit e; d_res := match r with None => SNone | Some x => SSong x end |} :: ds) l2
| one_songs l g ds l2 : one_by_one l ds l2 -> one_by_one l ({| d_g := g; d_op := OSongs; d_res := SList l |} :: ds) l2
| one_next l g x ds l2 : (l = [] /\ x = [] \/ In x l) -> one_by_one l ds l2 ->
    one_by_one l ({| d_g := g; d_op := ONext; d_res := SSong x |} :: ds) l2
| one_jump l g p ds l2 : one_by_one l ds l2 -> one_by_one l ({| d_g := g; d_op := OJump p; d_res := SNone |} :: ds) l2.

(** the calls made by a session, and those that have returned *)
Fixpoint calls_of (g : nat) (acts : list s_act) : list sop :=
  match acts with
  | [] => []
  | Calls h o :: r => if (g =? h)%nat then o :: calls_of g r else calls_of g r
  | Steps _ :: r => calls_of g r
  end.
Fixpoint returned_to (g : nat) (ds : list s_done) : list sop :=
  match ds with [] => [] | d :: r => if (g =? d_g d)%nat then d_op d :: returned_to g r else returned_to g r end.
Definition all_idle (s : sstate) : Prop := Forall (fun p => p = GIdle) (ss_gs s).

(** the songs that were put in and those that were taken out *)
Fixpoint put_in (ds : list s_done) : list song :=
  match ds with
  | [] => []
  | d :: r => match d_op d with OEdit (EAdd s) | OEdit (EInsert s _) => s :: put_in r | _ => put_in r end
  end.
Fixpoint taken_out (ds : list s_done) : list song :=
  match ds with
  | [] => []
  | d :: r => match d_op d, d_res d with
              | OEdit (ERemove _), SSong x => if (0 <? length x)%nat then x :: taken_out r else taken_out r
              | _, _ => taken_out r
              end
  end.
(** the songs a session appended *)
Fixpoint appended_by (g : nat) (ds : list s_done) : list song :=
  match ds with
  | [] => []
  | d :: r => match d_op d with OEdit (EAdd s) => if (g =? d_g d)%nat then s :: appended_by g r else appended_by g r | _ => appended_by g r end
  end.
Definition removes (d : s_done) : bool := match d_op d with OEdit (ERemove _) => true | _ => false end.
Definition inserts (d : s_done) : bool := match d_op d with OEdit (EInsert _ _) => true | _ => false end.

(** [sub a b]: the elements of [a] occur in [b], in this order *)
Inductive sub {A} : list A -> list A -> Prop :=
| sub_nil b : sub [] b
| sub_skip a x b : sub a b -> sub a (x :: b)
| sub_take a x b : sub a b -> sub (x :: a) (x :: b).
