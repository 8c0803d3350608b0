(** The words of C124. *)
From Verif Require Import GoBase PlaylistModel CancelModel.

(** The loop's own steps (the test of the context is one of them). *)
Definition own_step (a : caction) : bool := match a with CTest => true | CAct a => loop_step a | CCancel => false end.
Definition own_steps (acts : list caction) : nat := length (filter own_step acts).
(** Everything but the test and the cancelling. *)
Fixpoint without_context (acts : list caction) : list action :=
  match acts with [] => [] | CAct a :: r => a :: without_context r | _ :: r => without_context r end.
Fixpoint announced (es : list event) : nat :=
  match es with [] => 0 | ENewSong _ _ _ :: r => S (announced r) | _ :: r => announced r end.
(** Nobody pauses. *)
Definition not_paused (acts : list caction) : Prop := ~ In (CAct (ASetPlaying false)) acts.
(** Nobody resumes or jumps. *)
Definition left_paused (a : caction) : bool :=
  match a with CAct (ASetPlaying b) => negb b | CAct (ASetPosWrite _) | CAct ASetPosSend => false | _ => true end.
(** A song is being streamed. *)
Definition mid_song (s : cstate) : bool :=
  match at_pc (inner s) with InSong _ | TogStore _ | TogCall _ | BlockRead _ => true | _ => false end.
