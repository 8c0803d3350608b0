(** Vocabulary of C89-C97. *)
From Verif Require Import GoBase PlaylistModel WireModel SenderModel ServerModel LifeModel.
Local Open Scope Z_scope.

(** What a client is answered: the time it sent with the server's two clock readings, a
    pong, and on subscribing the welcome of the channel; nothing to anything else. *)
Definition answer (ss : server) (r : nat * message * Z * Z) : list message :=
  match r with
  | (_, TimeSyncRequest sent, recv, send) => [TimeSyncResponse sent recv send]
  | (_, SubscribeChannelRequest ch, _, _) =>
      if ch =? AUDIO then [SetVolumeRequest (s_volume ss)]
      else if ch =? META then
        SetVolumeRequest (s_volume ss)
          :: (match s_newest ss with Some m => [m] | None => [] end)
          ++ map (fun t => PauseInfo (InfoerModel.t_playing t) (InfoerModel.t_index t)) (s_pauses ss)
      else []
  | (_, PingMessage, _, _) => [PongMessage]
  | _ => []
  end.

Definition sender_of (r : nat * message * Z * Z) : nat := fst (fst (fst r)).
Definition from_client (c : nat) (l : list (nat * message * Z * Z)) : list (nat * message * Z * Z) :=
  filter (fun r => Nat.eqb (sender_of r) c) l.

(** The channels a client asked for. *)
Definition subscriptions (l : list (nat * message * Z * Z)) : list Z :=
  flat_map (fun r => match r with (_, SubscribeChannelRequest ch, _, _) => [ch] | _ => [] end) l.
Definition channel_list (st : mms) (c : nat) : list Z := match channels st c with Some l => l | None => [] end.

Definition is_subscribe (m : message) : bool := match m with SubscribeChannelRequest _ => true | _ => false end.
Definition boot_steps (l : list boot_event) : nat :=
  length (filter (fun e => match e with BStep => true | _ => false end) l).

(** How far the start has come after [n] of its steps: it listens from the beginning; then the users file is
    read, the handler of the clients is set, the streaming is started, the commands are registered. *)
Definition started (n : nat) : boot :=
  match n with
  | 0%nat => Listening
  | 1%nat => UsersRead
  | 2%nat => HandlerSet
  | 3%nat => Streaming
  | _ => CommandsRegistered
  end.

(** What ends a connected client, and with which exit status. *)
Definition exit_status (k : client_kind) (e : client_event) : option Z :=
  match e with
  | EQuit => Some 0
  | EClosed | ESubscribe false => Some 1
  | EInit false => match k with PlayerClient => Some 1 | InfoClient => None end
  | _ => None
  end.

(** A program of player events. *)
Definition volumes_got (l : list player_event) : list N :=
  flat_map (fun e => match e with GotVolume v => [v] | _ => [] end) l.
Definition run_player (l : list player_event) : player_vars := fold_left player_step l player_start.
Definition chunks_got (l : list player_event) : nat :=
  length (filter (fun e => match e with GotChunk => true | _ => false end) l).

(** The errors given to Add. *)
Definition added {E} (tr : list (col_event E)) : list E :=
  flat_map (fun e => match e with CAdd x => [x] | _ => [] end) tr.
