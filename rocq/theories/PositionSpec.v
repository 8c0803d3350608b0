(** What a jump that comes at an unlucky moment amounts to, for C126. *)
From Verif Require Import GoBase PlaylistModel PositionModel.

(** [same_but_late_jumps w acts acts']: [acts'] are the steps [acts], where reading and writing back
    the position are one step of the loop, and where a jump made in between goes to a place of
    the loop's choice (the one it writes back, the same for all jumps of that moment) instead of
    the one asked for.  [w] is that place while the loop is between the two. *)
Inductive same_but_late_jumps : option Z -> list jaction -> list action -> Prop :=
| late_nil w : same_but_late_jumps w [] []
| late_load q a acts acts' : In a [PNext; POpen; PCheck] ->
    same_but_late_jumps (Some q) acts acts' -> same_but_late_jumps None (JLoad :: acts) (a :: acts')
| late_store w acts acts' :
    same_but_late_jumps None acts acts' -> same_but_late_jumps w (JStore :: acts) acts'
| late_jump q t acts acts' :
    same_but_late_jumps (Some q) acts acts' ->
    same_but_late_jumps (Some q) (JAct (ASetPosWrite t) :: acts) (ASetPosWrite q :: acts')
| late_other w a acts acts' : (w = None \/ forall t, a <> ASetPosWrite t) ->
    same_but_late_jumps w acts acts' -> same_but_late_jumps w (JAct a :: acts) (a :: acts').

(** In a schedule, no jump is made while the loop is between reading and writing back. *)
Fixpoint no_late_jump (between : bool) (acts : list jaction) : Prop :=
  match acts with
  | [] => True
  | JLoad :: r => no_late_jump true r
  | JStore :: r => no_late_jump false r
  | JAct (ASetPosWrite _) :: r => between = false /\ no_late_jump between r
  | JAct _ :: r => no_late_jump between r
  end.

(** the schedule without the two steps, with the steps of the loop of PlaylistModel still to be put in *)
Definition jumps_of (acts : list action) : list Z :=
  flat_map (fun a => match a with ASetPosWrite t => [t] | _ => [] end) acts.
Definition jumps_asked (acts : list jaction) : list Z :=
  flat_map (fun a => match a with JAct (ASetPosWrite t) => [t] | _ => [] end) acts.
