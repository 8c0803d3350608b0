(** Specification of the hand-over of chunks in a player (C109). *)
From Verif Require Import GoBase PlaylistModel QueueModel PlayerModel HandoverModel.

(** the chunks received, those that were queued and the samples put into the queue, in order *)
Fixpoint arrived (acts : list h_act) : list chunk := match acts with [] => [] | Arrives c :: r => c :: arrived r | _ :: r => arrived r end.
Fixpoint queued_in (es : list h_event) : list chunk := match es with [] => [] | Queued c :: r => c :: queued_in r | _ :: r => queued_in r end.
Fixpoint added_in (es : list h_event) : list tsample := match es with [] => [] | Added x :: r => x :: added_in r | _ :: r => added_in r end.

(** how many samples the play loop has taken *)
Fixpoint taken (acts : list h_act) : nat := match acts with [] => 0 | Takes :: r => S (taken r) | _ :: r => taken r end.

(** everything received has been handed over *)
Definition finished (s : hstate) : Prop := h_chunks s = [] /\ h_reader s = HTop /\ Forall (fun p => p = QDone) (h_queuers s).

(** [works sr s n s']: from [s] to [s'] the goroutines make [n] steps (sleeping, which changes
    nothing, does not count), while the play loop takes samples. *)
Inductive works (sr : Z) : hstate -> nat -> hstate -> Prop :=
| works_none s : works sr s 0 s
| works_step s a s1 e n s2 : a = RStep \/ (exists g, a = QStep g) -> h_step sr s a = Some (s1, e) -> s1 <> s ->
    works sr s1 n s2 -> works sr s (S n) s2
| works_takes s s1 e n s2 : h_step sr s Takes = Some (s1, e) -> works sr s1 n s2 -> works sr s n s2.
