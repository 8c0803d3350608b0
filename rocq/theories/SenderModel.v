(** Model of broadcasting: comm/message_sender.go, comm/package_util.go lines 17-28
    (channelOf), util/collector.go, and the dispatch of received messages in
    comm/package_handler.go lines 62-85 as far as the volume is concerned. *)
From Verif Require Import GoBase WireModel.
Local Open Scope Z_scope.
Local Open Scope bool_scope.

(** comm/packages.pb.go lines 40-41 *)
Definition AUDIO : Z := 0.
Definition META : Z := 1.

(** comm/package_util.go lines 17-28: channelOf; the second component says whether the
    message is bound to channels. *)
Definition channel_of (m : message) : list Z * bool :=
  match m with
  | QueueChunkRequest _ _ _ _ _ => ([AUDIO], true)
  | SetVolumeRequest _ => ([AUDIO; META], true)
  | ChunkInfo _ _ _ | NewSongInfo _ _ _ _ _ | PauseInfo _ _ => ([META], true)
  | _ => ([], false)
  end.

(** A net.Conn (compared by identity). *)
Notation conn := nat (only parsing).

(** comm/message_sender.go lines 19-23: multiMessageSender.  The map is a function, [None]
    where the key is absent. *)
Record mms : Type := { connections : list conn; channels : conn -> option (list Z) }.

(** comm/conn_handler.go line 43 *)
Definition new_mms : mms := {| connections := []; channels := fun _ => None |}.

(** lines 57-61: AddConn *)
Definition add_conn (st : mms) (c : conn) : mms :=
  {| connections := connections st ++ [c]; channels := channels st |}.

(** lines 67-73: the index of the first equal connection, -1 if there is none *)
Fixpoint find_conn (l : list conn) (c : conn) (i : Z) : Z :=
  match l with
  | [] => -1
  | x :: r => if Nat.eqb x c then i else find_conn r c (i + 1)
  end.

(** lines 63-79: DelConn: overwrite with the last element and shorten *)
Definition del_conn (st : mms) (c : conn) : outcome mms :=
  let l := connections st in
  let index := find_conn l c 0 in
  if 0 <=? index then
    do last <- slice_get l (zlen l - 1);
    do l1 <- slice_set l index last;
    do l2 <- slice_to l1 (zlen l1 - 1);
    Ok {| connections := l2; channels := channels st |}
  else Ok st.

(** lines 81-89: Subscribe *)
Definition subscribe (st : mms) (c : conn) (ch : Z) : mms :=
  {| connections := connections st;
     channels := fun x => if Nat.eqb x c
                          then match channels st c with Some l => Some (l ++ [ch]) | None => Some [ch] end
                          else channels st x |}.

(** lines 102-109: containsChannel *)
Fixpoint contains_channel (chs : list Z) (ch : Z) : bool :=
  match chs with [] => false | c :: r => if ch =? c then true else contains_channel r ch end.

(** lines 91-100: isSubscribed *)
Definition is_subscribed (st : mms) (c : conn) (chs : list Z) : bool :=
  match channels st c with
  | Some l => existsb (fun ch => contains_channel chs ch) l
  | None => false
  end.

(** lines 50-55: sendMessageTo writes to [c] iff this holds *)
Definition writes_to (st : mms) (m : message) (c : conn) : bool :=
  let '(chs, hasCh) := channel_of m in negb hasCh || is_subscribed st c chs.

(** lines 25-48: the connections a broadcast is written to, one goroutine each *)
Definition recipients (st : mms) (m : message) : list conn :=
  filter (writes_to st m) (connections st).

(** The operations that change the sender; each holds the write lock, so a history is a
    sequence of them. *)
Inductive op : Type := AddConn (c : conn) | DelConn (c : conn) | Subscribe (c : conn) (ch : Z).

(** comm/message_sender.go: the three methods that change a MultiMessageSender. *)
Definition apply_op (st : mms) (o : op) : outcome mms :=
  match o with
  | AddConn c => Ok (add_conn st c)
  | DelConn c => del_conn st c
  | Subscribe c ch => Ok (subscribe st c ch)
  end.

(** A history of them. *)
Fixpoint run_ops (st : mms) (h : list op) : outcome mms :=
  match h with
  | [] => Ok st
  | o :: r => do st' <- apply_op st o; run_ops st' r
  end.

(** * One broadcast *)

(** What the Write to a connection does: it succeeds, fails with an error, or blocks for
    ever (the peer keeps the connection open without reading; no deadline is set). *)
Inductive send_result (E : Type) : Type := Sent | Failed (e : E) | Stalled.
Arguments Sent {E}.
Arguments Failed {E} e.
Arguments Stalled {E}.

(** lines 31-45 and util/collector.go: the goroutines that have not begun, those inside
    sendWire, the errors whose insertion goroutine (collector.go lines 13-25) is still to
    run, and the collected errors.  [attempted] records every connection a write was
    begun on. *)
Record broadcast (E : Type) : Type := {
  fresh : list conn;
  writing : list conn;
  adding : list E;
  errs : list E;
  attempted : list conn
}.
Arguments fresh {E}. Arguments writing {E}. Arguments adding {E}. Arguments errs {E}. Arguments attempted {E}.

(** One step of a goroutine of comm/message_sender.go 31-45 or of util/collector.go 13-25: skip the connection, begin, end or fail the write, insert the error. *)
Inductive bc_step {E} (st : mms) (m : message) (res : conn -> send_result E) : broadcast E -> broadcast E -> Prop :=
| BcSkip c l1 l2 w a e t : writes_to st m c = false ->
    bc_step st m res {| fresh := l1 ++ c :: l2; writing := w; adding := a; errs := e; attempted := t |}
                     {| fresh := l1 ++ l2; writing := w; adding := a; errs := e; attempted := t |}
| BcStart c l1 l2 w a e t : writes_to st m c = true ->
    bc_step st m res {| fresh := l1 ++ c :: l2; writing := w; adding := a; errs := e; attempted := t |}
                     {| fresh := l1 ++ l2; writing := c :: w; adding := a; errs := e; attempted := t ++ [c] |}
| BcSent c f l1 l2 a e t : res c = Sent ->
    bc_step st m res {| fresh := f; writing := l1 ++ c :: l2; adding := a; errs := e; attempted := t |}
                     {| fresh := f; writing := l1 ++ l2; adding := a; errs := e; attempted := t |}
| BcFailed c x f l1 l2 a e t : res c = Failed x ->
    bc_step st m res {| fresh := f; writing := l1 ++ c :: l2; adding := a; errs := e; attempted := t |}
                     {| fresh := f; writing := l1 ++ l2; adding := x :: a; errs := e; attempted := t |}
| BcAppend x f w l1 l2 e t :
    bc_step st m res {| fresh := f; writing := w; adding := l1 ++ x :: l2; errs := e; attempted := t |}
                     {| fresh := f; writing := w; adding := l1 ++ l2; errs := e ++ [x]; attempted := t |}.

(** Any schedule of these goroutines. *)
Inductive bc_run {E} (st : mms) (m : message) (res : conn -> send_result E) : broadcast E -> broadcast E -> Prop :=
| BcNil b : bc_run st m res b b
| BcCons b b' b'' : bc_step st m res b b' -> bc_run st m res b' b'' -> bc_run st m res b b''.

(** SendMessage as it enters line 34 *)
Definition bc_start {E} (st : mms) : broadcast E :=
  {| fresh := connections st; writing := []; adding := []; errs := []; attempted := [] |}.

(** lines 44-47 and collector.go lines 34-42: both WaitGroups are done; the value returned
    is nil ([Some None]) or a MultiError with a copy of the collected errors.  [None]: not
    returned yet. *)
Definition bc_returned {E} (b : broadcast E) : option (option (list E)) :=
  match fresh b, writing b, adding b with
  | [], [], [] => Some (match errs b with [] => None | l => Some l end)
  | _, _, _ => None
  end.

(** * The sender's lock *)

(** sync.RWMutex around all of this (lines 26-27, 58-59, 64-65, 82-83): a waiting writer
    keeps new readers out.  Broadcasts are identified by their message; [bc_stalled] tells
    which ones contain a write that never returns, [delivering] the broadcasts holding the
    read lock, [waiting_writers] the pending AddConn/DelConn/Subscribe calls, and
    [begun] all broadcasts that ever got the lock. *)
Record hub : Type := {
  delivering : list (message * bool);
  waiting_writers : list op;
  hub_state : mms;
  begun : list message
}.

(** A broadcast takes or releases the read lock; AddConn, DelConn or Subscribe waits for and uses the write lock. *)
Inductive hub_step : hub -> hub -> Prop :=
| HubBroadcast d s b m stalls :
    hub_step {| delivering := d; waiting_writers := []; hub_state := s; begun := b |}
             {| delivering := (m, stalls) :: d; waiting_writers := []; hub_state := s; begun := b ++ [m] |}
| HubReturn d1 d2 m w s b :
    hub_step {| delivering := d1 ++ (m, false) :: d2; waiting_writers := w; hub_state := s; begun := b |}
             {| delivering := d1 ++ d2; waiting_writers := w; hub_state := s; begun := b |}
| HubWant d w s b o :
    hub_step {| delivering := d; waiting_writers := w; hub_state := s; begun := b |}
             {| delivering := d; waiting_writers := w ++ [o]; hub_state := s; begun := b |}
| HubWrite w1 o w2 s s' b : apply_op s o = Ok s' ->
    hub_step {| delivering := []; waiting_writers := w1 ++ o :: w2; hub_state := s; begun := b |}
             {| delivering := []; waiting_writers := w1 ++ w2; hub_state := s'; begun := b |}.

(** Any schedule of these steps. *)
Inductive hub_run : hub -> hub -> Prop :=
| HubNil s : hub_run s s
| HubCons s s' s'' : hub_step s s' -> hub_run s' s'' -> hub_run s s''.

(** * Volume messages at a client *)

(** comm/package_handler.go lines 62-85: every received message is handed to a goroutine
    of its own (line 75); cmd/music-sync-player/main.go lines 69-71 and
    playback/playback.go lines 116-119: the goroutine stores the volume. *)
Record volume_client : Type := { inbox : list N; handlers : list N; volume : option N }.

(** comm/package_handler.go 62-85: a message is received (its goroutine starts), or one of the goroutines stores its volume. *)
Inductive vol_step : volume_client -> volume_client -> Prop :=
| VolReceive v i h x :
    vol_step {| inbox := v :: i; handlers := h; volume := x |} {| inbox := i; handlers := h ++ [v]; volume := x |}
| VolHandle v i h1 h2 x :
    vol_step {| inbox := i; handlers := h1 ++ v :: h2; volume := x |}
             {| inbox := i; handlers := h1 ++ h2; volume := Some v |}.

(** Any schedule of these steps. *)
Inductive vol_run : volume_client -> volume_client -> Prop :=
| VolNil s : vol_run s s
| VolCons s s' s'' : vol_step s s' -> vol_run s' s'' -> vol_run s s''.

(** Runs in which a message is only received when no handler is pending. *)
Inductive vol_run_prompt : volume_client -> volume_client -> Prop :=
| VolPNil s : vol_run_prompt s s
| VolPCons s s' s'' : vol_step s s' -> (length (handlers s') <= 1)%nat -> vol_run_prompt s' s'' -> vol_run_prompt s s''.
