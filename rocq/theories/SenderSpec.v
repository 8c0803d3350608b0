(** Vocabulary of the broadcast properties C33-C36, C64. *)
From Verif Require Import GoBase WireModel SenderModel.

(** Which channel carries which message (README: audio data and volume for players; song,
    chunk and pause information and volume for info clients). *)
Inductive carried_by : message -> Z -> Prop :=
| CarryChunk s c lo hi f : carried_by (QueueChunkRequest s c lo hi f) AUDIO
| CarryVolumeA v : carried_by (SetVolumeRequest v) AUDIO
| CarryVolumeM v : carried_by (SetVolumeRequest v) META
| CarrySong f n l ly md : carried_by (NewSongInfo f n l ly md) META
| CarryChunkInfo s f n : carried_by (ChunkInfo s f n) META
| CarryPause p t : carried_by (PauseInfo p t) META.

(** Connection [c] is open after history [h]: it was added and not removed since. *)
Definition open_after (h : list op) (c : nat) : Prop :=
  exists h1 h2, h = h1 ++ AddConn c :: h2 /\ ~ In (DelConn c) h2.

(** Connection [c] asked for channel [ch] at some time. *)
Definition subscribed_to (h : list op) (c : nat) (ch : Z) : Prop := In (Subscribe c ch) h.

(** Every connection is added at most once (each accepted connection is a new object). *)
Definition added_once (h : list op) : Prop :=
  NoDup (flat_map (fun o => match o with AddConn c => [c] | _ => [] end) h).

(** Who has to get a broadcast of [m]. *)
Definition should_get (h : list op) (m : message) (c : nat) : Prop :=
  open_after h c
  /\ ((exists ch, carried_by m ch /\ subscribed_to h c ch) \/ (forall ch, ~ carried_by m ch)).

(** The errors of the failing connections among [l], in the order of [l]. *)
Definition failures {E} (res : nat -> send_result E) (l : list nat) : list E :=
  flat_map (fun c => match res c with Failed e => [e] | _ => [] end) l.
