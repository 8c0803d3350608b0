(** The volume on its way into a player: what the handlers of the received messages do to the
    player's variables (cmd/music-sync-player/main.go:61-74, playback/playback.go:50-62,
    115-119). *)
From Verif Require Import GoBase PlaylistModel QueueModel PlayerModel WireModel E2EModel LifeModel.
Local Open Scope Z_scope.

(** player main.go:66-71: HandleQueueChunkRequest calls playback.QueueChunk,
    HandleSetVolumeRequest calls playback.SetVolume; the other handlers do not touch the
    playback package. *)
Definition effect_event (e : player_effect) : list player_event :=
  match e with PEQueue _ => [GotChunk] | PEVolume v => [GotVolume v] | _ => [] end.
Definition events_of (ms : list message) : list player_event :=
  flat_map (fun m => flat_map effect_event (player_handle m)) ms.
