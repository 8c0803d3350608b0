(** What a reader of currentSong can be given, for C127. *)
From Verif Require Import GoBase PlaylistModel HeaderModel.

(** [f] was the current song at some moment of the run [acts] of a new playlist. *)
Definition was_current (decode : song -> option (list sample)) (nan_break : Z) (l : list song) (acts : list haction) (f : song) : Prop :=
  exists a1 a2 s es, acts = a1 ++ a2 /\ hrun decode nan_break (unread l) a1 = Some (s, es) /\ current_song (inner s) = f.

(** nobody has begun to read *)
Definition reader_idle (s : hstate) : Prop := got_bytes s = None /\ got_count s = None.
(** the reader has what the two words are for it: [b] and [n] *)
Definition has_read (s : hstate) (b : option song) (n : nat) : Prop := got_bytes s = Some b /\ got_count s = Some n.

(** The loop stores nothing during [acts]. *)
Definition no_store (acts : list haction) : Prop := forall h, ~ In (HStore h) acts.

(** [beyond] is some content of the memory behind the names. *)
Definition memory (beyond : song -> nat -> list N) : Prop := forall f k, length (beyond f k) = k.
