(** The words of C122, on what can be seen from outside. *)
From Verif Require Import GoBase PlaylistModel OpenFilesModel.

(** How many files were opened. *)
Definition is_open (e : hevent) : bool := match e with HOpened _ => true | _ => false end.
Definition opens (es : list hevent) : nat := length (filter is_open es).
(** How many the garbage collector closed. *)
Fixpoint collected (es : list hevent) : nat :=
  match es with [] => 0 | HCollected k _ :: r => k + collected r | _ :: r => collected r end.
(** The songs that were started. *)
Fixpoint songs_started (es : list hevent) : nat :=
  match es with [] => 0 | HStream (ENewSong _ _ _) :: r => S (songs_started r) | _ :: r => songs_started r end.
(** The stream as the loop makes it visible. *)
Fixpoint stream_events (es : list hevent) : list event :=
  match es with [] => [] | HStream e :: r => e :: stream_events r | _ :: r => stream_events r end.

(** The steps of the streaming loop and its users among the actions. *)
Fixpoint loop_actions (acts : list haction) : list action :=
  match acts with [] => [] | HLoop a :: r => a :: loop_actions r | _ :: r => loop_actions r end.
Definition no_collector (acts : list haction) : Prop := forall k, ~ In (HCollect k) acts.

(** The collector keeps up: it never leaves more than [k] files opened since the last time it
    had closed all it could ([c] so far). *)
Fixpoint keeps_up (k c : nat) (es : list hevent) : Prop :=
  match es with
  | [] => True
  | HOpened _ :: r => c < k /\ keeps_up k (S c) r
  | HCollected _ O :: r => keeps_up k 0 r
  | _ :: r => keeps_up k c r
  end.
(** Never more than [m] clients at the same time ([n] so far). *)
Fixpoint clients_at_most (m n : nat) (es : list hevent) : Prop :=
  match es with
  | [] => True
  | HAccepted :: r => n < m /\ clients_at_most m (S n) r
  | HLeft :: r => clients_at_most m (pred n) r
  | _ :: r => clients_at_most m n r
  end.
