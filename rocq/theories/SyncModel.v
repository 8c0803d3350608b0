(** One exchange of the time synchronisation, through the models of its parts: the request of
    the client (schedule/infoer.go:31), the answer of the server (comm/package_handler.go:94-100,
    LifeModel.server_handle), the handler of the client (cmd/music-sync-player/main.go:61-64 and
    cmd/music-sync-infoer/infoer_package_handler.go:15-18, E2EModel.player_handle) and
    timing.UpdateOffset (TimingModel). *)
From Verif Require Import GoBase WireModel TimingModel E2EModel.
Local Open Scope Z_scope.

(** infoer.go:31: [raw] is the reading of GetRawTime *)
Definition sync_request (raw : Z) : message := TimeSyncRequest raw.

(** main.go:62-63: [recv] is the reading of GetRawTime; the append of UpdateOffset
    (timing.go:38-41), which the rest of the call follows *)
Definition on_effect (recv : Z) (e : player_effect) : list tact :=
  match e with PEOffset a b c => [TAppend (calc_offset a b c recv)] | _ => [] end.
Definition on_response (recv : Z) (m : message) : list tact := flat_map (on_effect recv) (player_handle m).
