(** Vocabulary of C128. *)
From Verif Require Import GoBase SetVolumeModel.

(** the volume the client was sent last ([None]: it was sent none) *)
Fixpoint last_sent (c : nat) (es : list seen) : option N :=
  match es with
  | [] => None
  | e :: r =>
      match last_sent c r, e with
      | Some v, _ => Some v
      | None, Received c' v => if (c' =? c)%nat then Some v else None
      | None, _ => None
      end
  end.

(** No command is being carried out. *)
Definition no_command (s : vstate) : Prop := forall i, session s i = Idle.
(** No subscription is being handled. *)
Definition no_subscription (s : vstate) : Prop := forall c, client s c = Fresh \/ client s c = Done.

(** A command begins only when no other one and no subscription is under way, a
    subscription when no command is. *)
Definition undisturbed (s0 : vstate) (acts : list vact) : Prop :=
  forall before a after s es, acts = before ++ a :: after -> vrun s0 before = Some (s, es) ->
    match a with
    | Type_ _ _ => no_command s /\ no_subscription s
    | Subscribe _ => no_command s
    | _ => True
    end.
(** Every command was accepted. *)
Definition accepted (acts : list vact) : Prop := forall i, ~ In (Type_ i None) acts.
(** Nothing sent to [c] failed. *)
Definition reached (c : nat) (acts : list vact) : Prop := forall i, ~ In (Write i c false) acts /\ ~ In (Send c false) acts.

(** the volumes typed in, with 0 for the ones that cannot be read *)
Fixpoint typed (acts : list vact) : list N :=
  match acts with
  | [] => []
  | Type_ _ (Some v) :: r => v :: typed r
  | Type_ _ None :: r => 0%N :: typed r
  | _ :: r => typed r
  end.
(** the volumes that are heard or told of *)
Fixpoint volumes_seen (es : list seen) : list N :=
  match es with
  | [] => []
  | Received _ v :: r | Told _ _ v :: r => v :: volumes_seen r
  | Usage _ :: r => volumes_seen r
  end.
(** the volume typed last, [v] if none was *)
Definition last_typed (v : N) (acts : list vact) : N := last (typed acts) v.
(** the volumes named in replies *)
Fixpoint replies (es : list seen) : list N :=
  match es with
  | [] => []
  | Told _ _ v :: r => v :: replies r
  | _ :: r => replies r
  end.
(** what the session was told *)
Fixpoint told (i : nat) (es : list seen) : list (bool * N) :=
  match es with
  | [] => []
  | Told j ok v :: r => if (j =? i)%nat then (ok, v) :: told i r else told i r
  | _ :: r => told i r
  end.

(** Session [i] is in SendMessage. *)
Definition sending (s : vstate) (i : nat) : Prop := exists v l ok, session s i = Sending v l ok.
(** the steps of session [i] *)
Definition of_session (i : nat) (a : vact) : Prop :=
  a = Build i \/ a = Begin i \/ (exists c ok, a = Write i c ok) \/ a = End_ i \/ a = Reply i.
