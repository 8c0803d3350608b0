(** What Fill hands out, as a specification on the sequence of its results. *)
From Verif Require Import GoBase PlaylistModel ChanModel.
Local Open Scope Z_scope.

(** The samples handed out so far: the two slices of every call, element by element. *)
Definition handed_out (rs : list (Z * list f64 * list f64)) : list sample :=
  concat (map (fun r => combine (snd (fst r)) (snd r)) rs).

(** Every call returned the stream index of its first sample and slices of equal length,
    when [i] samples had been handed out before the first of them. *)
Fixpoint indices_exact (i : Z) (rs : list (Z * list f64 * list f64)) : Prop :=
  match rs with
  | [] => True
  | (j, low, high) :: r => j = i /\ length low = length high /\ indices_exact (i + zlen low) r
  end.

Definition is_prefix {A} (a b : list A) : Prop := exists r, b = a ++ r.

(** Steps of the streaming loop and of the goroutines of a Fill call under way. *)
Definition working (a : caction) : bool :=
  match a with CFill _ | CReturn => false | _ => true end.
Definition starts_push (a : caction) : bool := match a with CPush _ => true | _ => false end.

Definition fill_done (s : cstate) : Prop := cstep s CReturn <> None.
Definition filling (s : cstate) (k : nat) : Prop := exists gl gh, fill s = FRun k gl gh.
