(** Model of starting the three programs and of what connects their parts: the flags
    (cmd/music-sync-server/main.go, cmd/music-sync-player/main.go,
    cmd/music-sync-infoer/main.go), the order in which the server starts
    (comm/conn_handler.go:29-66, schedule/server.go), the server's package handler
    (comm/package_handler.go:62-118), the start of a player (schedule/player.go,
    playback/playback.go:79-119) and the error collector (util/collector.go,
    util/multi_error.go). *)
From Verif Require Import GoBase GoFmt PlaylistModel WireModel SenderModel InfoerModel ServerModel.
Local Open Scope Z_scope.
Local Open Scope bool_scope.

(* ------------------------------------------------------------------ *)
(** ** Configuration of the stream *)

(** The integer flags of the server that shape the stream (int is 64 bits wide). *)
Record stream_flags := { f_chunk_size : Z; f_sample_rate : Z; f_nan_break : Z }.

(** cmd/music-sync-server/main.go:63: time.Duration(streamChunkSize) * time.Second / time.Duration(sampleRate);
    int64 arithmetic; [Panic] on division by zero.  (MinInt64 / -1 is MinInt64 in Go, which
    wrap64 of the quotient gives.) *)
Definition chunk_time (size sr : Z) : outcome Z :=
  if sr =? 0 then Panic else Ok (wrap64 (Z.quot (wrap64 (size * 1000000000)) sr)).

(** Number of bytes make can allocate (runtime: 48-bit addresses); WireModel.max_alloc *)
Definition can_make (n element : Z) : bool := (0 <=? n) && (n * element <=? max_alloc).

(** What becomes of a server started with given flags (cmd/music-sync-server/main.go 47-69, schedule/server_state.go 145-169). *)
Inductive server_fate :=
| CrashesAtStart                  (* the process panics before anything is streamed *)
| NeverStreams                    (* it runs and takes clients and commands, no chunk is ever sent *)
| CrashesAtFirstChunk             (* streamMusic panics on its first tick *)
| StreamsEvery (period : Z).      (* one chunk each [period] nanoseconds *)

(** server main.go:47-69 (setScheduleVars), server.go:19 (NewPlaylist makes two channels of
    SampleRate float64, playlist.go:253-266), server_state.go:145-153 (streamMusic).
    time.Tick returns a nil channel for a period <= 0, and ranging over it waits for ever. *)
Definition server_fate_of (f : stream_flags) : server_fate :=
  match chunk_time (f_chunk_size f) (f_sample_rate f) with
  | Panic => CrashesAtStart
  | Ok t =>
      if negb (can_make (f_sample_rate f) 8) then CrashesAtStart
      else if t <=? 0 then NeverStreams
      else if negb (can_make (f_chunk_size f) 8) then CrashesAtFirstChunk
      else StreamsEvery t
  end.

(* ------------------------------------------------------------------ *)
(** ** Time synchronisation settings *)

(** schedule/schedule.go:11-36: the package variables of one process (times in ns). *)
Record sched_vars := {
  v_sync_interval : Z; v_sync_cycles : Z; v_sync_delay : Z; v_sample_rate : Z
}.
Definition default_vars : sched_vars :=
  {| v_sync_interval := 600000000000; v_sync_cycles := 500; v_sync_delay := 10000000; v_sample_rate := 44100 |}.

(** The corresponding flags given on a command line; [None]: not given, the default of
    flags.go:14-36 is used. *)
Record sync_flags := {
  g_sync_interval : option Z; g_sync_cycles : option Z; g_sync_delay : option Z; g_sample_rate : option Z
}.
Definition flag (o : option Z) (d : Z) : Z := match o with Some z => z | None => d end.

(** server main.go:29-43 registers all of them, 59-69 stores them *)
Definition server_vars (g : sync_flags) : option sched_vars :=
  Some {| v_sync_interval := flag (g_sync_interval g) 600000000000;
          v_sync_cycles := flag (g_sync_cycles g) 500;
          v_sync_delay := flag (g_sync_delay g) 10000000;
          v_sample_rate := flag (g_sample_rate g) 44100 |}.

(** player main.go:21-26, 35-43 and infoer main.go:24-30, 41-49: only the sample rate is
    registered (urfave/cli refuses a command line with an unknown flag) and stored. *)
Definition client_vars (g : sync_flags) : option sched_vars :=
  match g_sync_interval g, g_sync_cycles g, g_sync_delay g with
  | None, None, None =>
      Some {| v_sync_interval := v_sync_interval default_vars; v_sync_cycles := v_sync_cycles default_vars;
              v_sync_delay := v_sync_delay default_vars; v_sample_rate := flag (g_sample_rate g) 44100 |}
  | _, _, _ => None
  end.

(** schedule/infoer.go:27-36 (syncTime) in a process with variables [v]: when its requests
    are sent, counted from the start of the round (the time for sending is left out). *)
Fixpoint sync_round (n : nat) (delay at_ : Z) : list Z :=
  match n with O => [] | S k => at_ :: sync_round k delay (at_ + delay) end.
Definition sync_requests (v : sched_vars) : list Z := sync_round (Z.to_nat (v_sync_cycles v)) (v_sync_delay v) 0.

(** player.go:19-24, infoer.go:12-17: rounds of one client *)
Definition sync_rounds_apart (v : sched_vars) : Z := v_sync_interval v.

(* ------------------------------------------------------------------ *)
(** ** Messages a client sends to the server *)

(** The server as far as clients see it: the state of the stream (playlist), volume, newest
    song and pauses, the connections and channels, and the messages written to each
    connection. *)
Record srv := {
  sv_playlist : pstate;
  sv_state : server;
  sv_mms : mms;
  sv_out : conn -> list message
}.

(** comm/message_sender.go 113-115 (singleMessageSender.SendMessage), comm/package_util.go 90-104: messages written to connection [c]. *)
Definition write_to (s : srv) (c : conn) (ms : list message) : srv :=
  {| sv_playlist := sv_playlist s; sv_state := sv_state s; sv_mms := sv_mms s;
     sv_out := fun x => if Nat.eqb x c then sv_out s c ++ ms else sv_out s x |}.

(** package_handler.go:62-118.  [recv] and [send] are the two clock readings of
    HandleTimeSyncRequest; [ready]: NewClientHandler has been set (schedule/server.go:24);
    calling it before is a call of a nil function.  The goroutine of one message runs as a
    whole. *)
Definition server_handle (ready : bool) (s : srv) (c : conn) (m : message) (recv send : Z) : outcome srv :=
  match m with
  | TimeSyncRequest a => Ok (write_to s c [TimeSyncResponse a recv send])
  | SubscribeChannelRequest ch =>
      let s1 := {| sv_playlist := sv_playlist s; sv_state := sv_state s;
                   sv_mms := subscribe (sv_mms s) c ch; sv_out := sv_out s |} in
      if ready then Ok (write_to s1 c (client_handler (sv_state s1) ch)) else Panic
  | PingMessage => Ok (write_to s c [PongMessage])
  | _ => Ok s                                                       (* BaseTypedPackageHandler *)
  end.

(** One handled message: connection, message, clock readings. *)
Notation request := (nat * message * Z * Z)%type (only parsing).

(** comm/package_handler.go 62-85: one received message after another. *)
Fixpoint server_handles (ready : bool) (s : srv) (l : list request) : outcome srv :=
  match l with
  | [] => Ok s
  | (c, m, recv, send) :: r => do s1 <- server_handle ready s c m recv send; server_handles ready s1 r
  end.

(* ------------------------------------------------------------------ *)
(** ** The server starts *)

(** cmd/music-sync-server/main.go:71-109 and schedule/server.go:12-40: what the starting goroutines do, in
    this order (each step can be delayed; clients come at any time after the first). *)
Inductive boot := Listening | UsersRead | HandlerSet | Streaming | CommandsRegistered.

(** What happens during the start: a step of the server or the handling of a message. *)
Inductive boot_event :=
| BStep
| BMessage (r : request).

(** The next step of the start (cmd/music-sync-server/main.go 71-109, schedule/server.go 12-40). *)
Definition boot_next (b : boot) : boot :=
  match b with
  | Listening => UsersRead | UsersRead => HandlerSet | HandlerSet => Streaming
  | Streaming => CommandsRegistered | CommandsRegistered => CommandsRegistered
  end.
(** schedule/server.go 24: from here on comm.NewClientHandler is set. *)
Definition handler_set (b : boot) : bool :=
  match b with Listening | UsersRead => false | _ => true end.

(** A start during which messages are handled (comm/package_handler.go 62-85, 102-105). *)
Fixpoint boot_run (b : boot) (s : srv) (l : list boot_event) : outcome (boot * srv) :=
  match l with
  | [] => Ok (b, s)
  | BStep :: r => boot_run (boot_next b) s r
  | BMessage (c, m, recv, send) :: r =>
      do s1 <- server_handle (handler_set b) s c m recv send; boot_run b s1 r
  end.

(** conn_handler.go:49-66 (serverConnectionAcceptor): the connections that are served, for
    the results of successive Accept calls ([None]: an error); logger.Fatalf only logs. *)
Fixpoint accepted (l : list (option conn)) : list conn :=
  match l with
  | [] => []
  | Some c :: r => c :: accepted r
  | None :: _ => []
  end.

(* ------------------------------------------------------------------ *)
(** ** A client starts *)

(** The two clients: cmd/music-sync-player/main.go, cmd/music-sync-infoer/main.go. *)
Inductive client_kind := PlayerClient | InfoClient.

(** A client process: running (with the sender ConnectToServer returned, [false] is nil;
    [c_subscribed]: its channel has been asked for), ended with an exit status, or killed by
    a nil pointer dereference. *)
Inductive client_proc :=
| CRunning (c_sender c_subscribed : bool)
| CEnded (status : Z)
| CPanicked.

(** What its goroutines do, in any order; the argument tells whether it succeeded. *)
Inductive client_event :=
| ESync (ok : bool)               (* one request of syncTime, schedule/infoer.go:31-33 *)
| ESubscribe (ok : bool)          (* player.go:26-31, infoer.go:19-24 *)
| EInit (ok : bool)               (* playback.Init, player.go:12-17; players only *)
| EClosed                         (* the server's connection ends, conn_handler.go:79-83 *)
| EQuit.                          (* interrupt (cmd/util.go:9-17) or quitting the screen *)

(** main.go of player (45-48) and infoer (53-57): the player returns the exit error of a
    failed dial (urfave/cli exits with its status 1), the infoer drops it and goes on. *)
Definition client_start (k : client_kind) (dial_ok : bool) : client_proc :=
  if dial_ok then CRunning true false
  else match k with
       | PlayerClient => CEnded 1
       | InfoClient => CRunning false false
       end.

(** schedule/player.go:11-32, schedule/infoer.go:11-36, conn_handler.go:79-83.  A method call
    on the nil interface panics; a failed time synchronisation request is only logged.
    Without a connection there is none to be closed. *)
Definition client_step (k : client_kind) (p : client_proc) (e : client_event) : client_proc :=
  match p with
  | CRunning sender subscribed =>
      match e with
      | ESync _ => if sender then p else CPanicked
      | ESubscribe ok => if sender then (if ok then CRunning sender true else CEnded 1) else CPanicked
      | EInit ok => match k with PlayerClient => if ok then p else CEnded 1 | InfoClient => p end
      | EClosed => if sender then CEnded 1 else p
      | EQuit => CEnded 0
      end
  | _ => p
  end.
Definition client_run (k : client_kind) (dial_ok : bool) (l : list client_event) : client_proc :=
  fold_left (client_step k) l (client_start k dial_ok).

(** The start of a player: playback.go:79-102 (Init) runs beside the handlers of received
    messages (player.go:12-17; cmd/music-sync-player/main.go:66-71).  [pv_volume] is 0 at process start. *)
Record player_vars := { pv_volume : N; pv_ready : bool; pv_chunks : nat; pv_dropped : nat }.
Definition player_start : player_vars := {| pv_volume := 0; pv_ready := false; pv_chunks := 0; pv_dropped := 0 |}.

Definition float_tenth : N := 0x3FB999999999999A.        (* .1 *)

Inductive player_event :=
| InitVolume                      (* playback.go:83 *)
| InitStreamer                    (* playback.go:96 *)
| GotVolume (v : N)               (* SetVolume, 116-119 *)
| GotChunk.                       (* QueueChunk, 50-62 *)

(** playback/playback.go 50-62, 79-102, 116-119: the effect of each event on the player's variables. *)
Definition player_step (p : player_vars) (e : player_event) : player_vars :=
  match e with
  | InitVolume => {| pv_volume := float_tenth; pv_ready := pv_ready p; pv_chunks := pv_chunks p; pv_dropped := pv_dropped p |}
  | InitStreamer => {| pv_volume := pv_volume p; pv_ready := true; pv_chunks := pv_chunks p; pv_dropped := pv_dropped p |}
  | GotVolume v => {| pv_volume := v; pv_ready := pv_ready p; pv_chunks := pv_chunks p; pv_dropped := pv_dropped p |}
  | GotChunk =>
      if pv_ready p
      then {| pv_volume := pv_volume p; pv_ready := true; pv_chunks := S (pv_chunks p); pv_dropped := pv_dropped p |}
      else {| pv_volume := pv_volume p; pv_ready := false; pv_chunks := pv_chunks p; pv_dropped := S (pv_dropped p) |}
  end.

(* ------------------------------------------------------------------ *)
(** ** Speed of a song *)

(** playback.go:34-47 (getStreamer): the decoder returns the samples and the format of the
    file; the format is dropped.  [file] holds the sample rate of the recording and its
    samples. *)
Definition get_streamer (file : option (Z * list sample)) : option (list sample) :=
  match file with Some (_, l) => Some l | None => None end.

(* ------------------------------------------------------------------ *)
(** ** Collecting errors *)

(** util/collector.go: the errors whose insertion goroutine (14-24) has not run, and the
    slice [errs]. *)
Record collector (E : Type) := { pending : list E; collected : list E }.
Arguments pending {E}. Arguments collected {E}.

Inductive col_event (E : Type) :=
| CAdd (e : E)                    (* 13-25: Add was called *)
| CInsert (e : E).                (* one insertion goroutine runs *)
Arguments CAdd {E} e. Arguments CInsert {E} e.

(** util/collector.go 13-25: Add starts a goroutine that appends the error under the mutex. *)
Inductive col_step {E} : collector E -> col_event E -> collector E -> Prop :=
| ColAdd c e : col_step c (CAdd e) {| pending := e :: pending c; collected := collected c |}
| ColInsert a e b l : col_step {| pending := a ++ e :: b; collected := l |} (CInsert e)
                               {| pending := a ++ b; collected := l ++ [e] |}.

(** A history of calls of Add and of runs of these goroutines (util/collector.go 13-25). *)
Inductive col_run {E} : list (col_event E) -> collector E -> Prop :=
| ColInit : col_run [] {| pending := []; collected := [] |}
| ColStep tr c e c' : col_run tr c -> col_step c e c' -> col_run (tr ++ [e]) c'.

(** 34-44: Err waits until nothing is pending (the WaitGroup), then returns nil or the
    errors *)
Definition col_err {E} (c : collector E) : option (option (list E)) :=
  match pending c with
  | _ :: _ => None                              (* still waiting *)
  | [] => Some (match collected c with [] => None | l => Some l end)
  end.

(** util/multi_error.go:15-21 (Error); [%v] of an error is its text *)
Fixpoint numbered (i : Z) (l : list text) : list text :=
  match l with [] => [] | e :: r => (itoa i ++ T ": " ++ e) :: numbered (i + 1) r end.
Fixpoint join (sep : text) (l : list text) : text :=
  match l with [] => [] | [x] => x | x :: r => x ++ sep ++ join sep r end.
Definition multi_error (base : text) (errs : list text) : text :=
  base ++ T ": " ++ join (T "; ") (numbered 0 errs).

(** message_sender.go:47 *)
Definition broadcast_base : text := T "failed to send to %d clients: ".
