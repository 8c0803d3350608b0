(** Vocabulary of the end-to-end property C88. *)
From Verif Require Import GoBase PlaylistModel ChanModel QueueModel PlayerModel PlayerSpec ScheduleModel WireModel E2EModel.
Local Open Scope Z_scope.

(** The chunk messages among the messages. *)
Definition is_chunk_message (m : message) : bool :=
  match m with QueueChunkRequest _ _ _ _ _ => true | _ => false end.
Definition chunk_messages (ms : list message) : list message := filter is_chunk_message ms.

(** The chunks the handler is called with for these messages, in order. *)
Definition chunks_received (ms : list message) : list chunk :=
  flat_map (fun m => flat_map (fun e => match e with PEQueue c => [c] | _ => [] end) (player_handle m)) ms.

(** The calls of QueueChunk in a history of the player. *)
Definition handled (acts : list pl_act) : list chunk :=
  flat_map (fun a => match a with LQueue c => [c] | _ => [] end) acts.

(** [x] is sample number [n] of the stream: its value, not a NaN, and the time at which the
    schedule of the stream wants it to be played. *)
Definition stream_sample (stream : list sample) (start size sr : Z) (n : nat) (x : tsample) : Prop :=
  nth_error stream n = Some (fst x) /\ is_nan (fst (fst x)) = false /\
  snd x = scheduled start size sr (Z.of_nat n).

(** Output slots, each silence or the numbered sample of the stream. *)
Definition plays (stream : list sample) (start size sr : Z) (pos : list (option nat)) (out : list slot) : Prop :=
  Forall2 (fun p o => match p, o with
                      | None, None => True
                      | Some n, Some x => stream_sample stream start size sr n x
                      | _, _ => False
                      end) pos out.

(** After sample n of the stream comes sample n+1, unless that is a NaN (a pause or the end
    of a song). *)
Fixpoint gapless (stream : list sample) (pos : list (option nat)) : Prop :=
  match pos with
  | Some n :: ((p :: _) as r) =>
      (p = Some (S n) \/ exists x, nth_error stream (S n) = Some x /\ is_nan (fst x) = true) /\ gapless stream r
  | _ :: r => gapless stream r
  | [] => True
  end.
