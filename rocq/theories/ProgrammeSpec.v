(** What the stream is made of (C130). *)
From Verif Require Import GoBase PlaylistModel PlaylistSpec PlayerModel.
Local Open Scope Z_scope.

(** The samples a player can make sound: those that are not NaN (streamer.go 53, 61). *)
Definition audible (l : list sample) : list sample := filter (fun x => negb (is_nan (fst x))) l.

(** The names of the songs announced, in order. *)
Definition announced (es : list event) : list song := map (fun x => snd (fst x)) (new_songs_of es).

(** [p] is the song named [f], as decoded, or a beginning of it. *)
Definition whole (decode : song -> option (list sample)) (f : song) (p : list sample) : Prop := decode f = Some p.
Definition beginning (decode : song -> option (list sample)) (f : song) (p : list sample) : Prop :=
  exists rest, decode f = Some (p ++ rest).

(** [k] places of the playlist, cyclically from its first song: the samples of the songs one after the
    other, nothing for a file that cannot be played. *)
Definition programme (decode : song -> option (list sample)) (l : list song) (k : nat) : list sample :=
  flat_map (fun i => match decode (cyclic_song l 0 i) with Some c => c | None => [] end) (upto k).

(** [a] is [b] with some elements left out. *)
Inductive subsequence {A} : list A -> list A -> Prop :=
| sub_nil b : subsequence [] b
| sub_keep x a b : subsequence a b -> subsequence (x :: a) (x :: b)
| sub_leave x a b : subsequence a b -> subsequence a (x :: b).

(** The samples among the slots a player put out. *)
Definition sounding (out : list slot) : list sample := flat_map (fun o => match o with Some x => [fst x] | None => [] end) out.

(** The call puts song [f] into the playlist. *)
Definition puts_in (f : song) (a : action) : Prop := a = AEdit (EAdd f) \/ exists i, a = AEdit (EInsert f i).
