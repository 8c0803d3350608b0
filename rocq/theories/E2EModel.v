(** The links between the parts of the pipeline: what the server puts into a chunk message
    (schedule/server_state.go:156-162) and what a player does with a message it receives
    (cmd/music-sync-player/main.go:61-74, comm/package_handler.go:62-85). *)
From Verif Require Import GoBase PlaylistModel ChanModel QueueModel PlayerModel ScheduleModel WireModel.
Local Open Scope Z_scope.

(** server_state.go:156-162: the fields of the message of one tick *)
Definition queue_message (r : chunk_request) : message :=
  QueueChunkRequest (q_start r) (q_id r) (q_low r) (q_high r) (q_first r).

(** server_state.go:150-155: every Fill of the streaming loop gets two slices of
    StreamChunkSize elements *)
Definition fills_chunks (size : Z) (a : caction) : Prop :=
  match a with CFill k => Z.of_nat k = size | _ => True end.

(** What the player's handler does with a message *)
Inductive player_effect :=
| PEQueue (c : chunk)                 (* playback.QueueChunk *)
| PEVolume (v : N)                    (* playback.SetVolume *)
| PEOffset (a b c : Z)                (* timing.UpdateOffset *)
| PEPong.                             (* comm.PingHandler: send a Pong *)

(** package_handler.go:62-85 with the handlers of player main.go:61-74; the messages not
    listed go to BaseTypedPackageHandler (14-44), which does nothing.  [chunkID] is only
    logged. *)
Definition player_handle (m : message) : list player_effect :=
  match m with
  | QueueChunkRequest s _ low high _ => [PEQueue {| c_start := s; c_samples := combine_samples low high |}]
  | SetVolumeRequest v => [PEVolume v]
  | TimeSyncResponse a b c => [PEOffset a b c]
  | PingMessage => [PEPong]
  | _ => []
  end.
