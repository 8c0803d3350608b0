(** What the info client's screen loop should do (C113). *)
From Verif Require Import GoBase InfoerModel DrawModel ScreenModel.
Local Open Scope Z_scope.

(** The frame is the screen for this information at the size of the terminal. *)
Definition right_frame (history : Z) (sz : Z * Z) (f : info * (Z -> Z -> option N)) : Prop :=
  forall x y, snd f x y = screen_after history (fst sz) (snd sz) (fst f) x y.

(** Between two redraws. *)
Definition between_redraws (s : st) : Prop := main s = MTick \/ main s = MCheck.

(** The changes of the terminal's size have been noticed: no resize event waits to be read and
    none is being handled. *)
Definition noticed (s : st) : Prop :=
  ~ In TResize (queue s) /\ (ev s = EPoll \/ ev s = EQuit \/ ev s = EDone).

Definition no_resize (l : list act) : Prop := forall w h, ~ In (AResize w h) l.
