(** Model of the announcing part of the server: schedule/server_state.go lines 27-143
    (what a new client is sent, song and pause announcements, pruning of old pauses) and
    comm/package_handler.go lines 102-105 (a client subscribes). *)
From Verif Require Import GoBase GoUtf8 WireModel SenderModel InfoerModel.
Local Open Scope Z_scope.
Local Open Scope bool_scope.

(** schedule/server_state.go lines 12-25: the fields of serverState used here.  A PauseInfo
    message is an InfoerModel.toggle. *)
Record server : Type := { s_volume : N; s_newest : option message; s_pauses : list toggle }.

(** comm.PauseInfo as sent by schedule/server_state.go 37-43 and 95-109. *)
Definition pause_message (t : toggle) : message := PauseInfo (t_playing t) (t_index t).

(** lines 27-29, 31-35, 37-43: sendVolume, sendNewestSong, sendPauses *)
Definition send_volume (ss : server) : list message := [SetVolumeRequest (s_volume ss)].
Definition send_newest_song (ss : server) : list message :=
  match s_newest ss with Some m => [m] | None => [] end.
Definition send_pauses (ss : server) : list message := map pause_message (s_pauses ss).

(** lines 45-56: createClientHandler: the messages sent to the subscriber of a channel *)
Definition client_handler (ss : server) (channel : Z) : list message :=
  if channel =? AUDIO then send_volume ss
  else if channel =? META then send_volume ss ++ send_newest_song ss ++ send_pauses ss
  else [].

(** metadata/lyrics_provider.go lines 12-18 *)
Record lyrics_atom : Type := { a_timestamp : Z; a_caption : bytes }.
(** metadata/metadata_provider.go: SongMetadata *)
Record song_metadata : Type := { m_title : bytes; m_artist : bytes; m_album : bytes }.

(** lines 58-71: toWireLyrics *)
Definition to_wire_lyrics (l : list (list lyrics_atom)) : list (list (Z * bytes)) :=
  map (fun line => map (fun a => (a_timestamp a, a_caption a)) line) l.

(** lines 73-93: the message createNewSongHandler builds *)
Definition new_song_message (start : Z) (file : bytes) (len : Z) (ly : list (list lyrics_atom)) (md : song_metadata) : message :=
  NewSongInfo start file len (to_wire_lyrics ly) (Some (m_title md, m_artist md, m_album md)).

(** infoer_package_handler.go lines 23-37: back from the wire *)
Definition from_wire_lyrics (l : list (list (Z * bytes))) : list (list lyrics_atom) :=
  map (fun line => map (fun a => {| a_timestamp := fst a; a_caption := snd a |}) line) l.
Definition from_wire_metadata (md : option (bytes * bytes * bytes)) : song_metadata :=
  match md with
  | Some (t, a, b) => {| m_title := t; m_artist := a; m_album := b |}
  | None => {| m_title := []; m_artist := []; m_album := [] |}
  end.

(** lines 111-129: removablePauses for the newest song starting at [start]; the loop stops
    at the first toggle after [start]. *)
Fixpoint removable_loop (start : Z) (l : list toggle) (i passed : nat) : nat :=
  match l with
  | [] => passed
  | p :: r =>
      let inPast := start <? t_index p in
      if negb inPast && t_playing p then removable_loop start r (S i) i
      else if inPast then passed
      else removable_loop start r (S i) passed
  end.
(** lines 119-127 when songs may be announced in between: line 121 reads [newestSong] anew for
    each pause, the pauses are those of the moment the lock was taken (115).  Each pause stands
    with the start of the song read for it. *)
Fixpoint removable_reads (l : list (Z * toggle)) (i passed : nat) : nat :=
  match l with
  | [] => passed
  | (start, p) :: r =>
      let inPast := start <? t_index p in
      if negb inPast && t_playing p then removable_reads r (S i) i
      else if inPast then passed
      else removable_reads r (S i) passed
  end.
Definition start_of (m : message) : Z := match m with NewSongInfo f _ _ _ _ => f | _ => 0 end.
Definition removable (newest : option message) (l : list toggle) : nat :=
  match newest with
  | None => 0%nat
  | Some m => removable_loop (start_of m) l 0 0
  end.

(** lines 134-142: the removal of the first [k] pauses.  [copy(p, p[k:])] panics when k
    exceeds the length; the freed tail is overwritten and cut off. *)
Definition remove_first (k : nat) (l : list toggle) : outcome (list toggle) :=
  if (0 <? k)%nat then
    do rest <- slice_from l (Z.of_nat k);
    slice_to (rest ++ skipn (length rest) l) (zlen l - Z.of_nat k)
  else Ok l.

(** lines 131-143: removeOldPauses when nothing comes between its two critical sections *)
Definition remove_old (newest : option message) (l : list toggle) : outcome (list toggle) :=
  remove_first (removable newest l) l.

(** * Executions *)

(** The goroutines around one new META client:
    - each song is announced by a goroutine of its own (playlist.go line 76), which after
      collecting lyrics and metadata stores the announcement in [newestSong] and then
      broadcasts whatever [newestSong] is at that time (lines 80-92);
    - each pause toggle is broadcast by the calling goroutine while a new goroutine
      appends it (lines 95-109), which starts another one that prunes;
    - pruning counts (131) and removes (132-142) in separate critical sections;
    - the client subscribes, then is sent the newest song and the pauses
      (package_handler.go 102-105; the volume is left out here).
    Reads and writes of [newestSong] are atomic here (the program does not lock them). *)
Inductive phase : Type := Fresh | Subscribed | SongSent | Done.
Record world : Type := {
  w_newest : option message;
  w_pauses : list toggle;
  w_song_starts : list message;
  w_song_broadcasts : nat;
  w_pause_broadcasts : list toggle;
  w_appends : list toggle;
  w_prunes : nat;
  w_removals : list nat;
  w_client : phase;
  w_received : list message;
  w_crashed : bool
}.
Definition init_world : world :=
  {| w_newest := None; w_pauses := []; w_song_starts := []; w_song_broadcasts := 0; w_pause_broadcasts := []; w_appends := [];
     w_prunes := 0; w_removals := []; w_client := Fresh; w_received := []; w_crashed := false |}.

(** Update of newestSong and of the goroutines announcing songs (schedule/server_state.go 80-92). *)
Definition upd_song w n ss b : world :=
  {| w_newest := n; w_pauses := w_pauses w; w_song_starts := ss; w_song_broadcasts := b; w_pause_broadcasts := w_pause_broadcasts w;
     w_appends := w_appends w; w_prunes := w_prunes w; w_removals := w_removals w; w_client := w_client w;
     w_received := w_received w; w_crashed := w_crashed w |}.
(** Update of the slice pauses and of the goroutines pruning it (schedule/server_state.go 95-143). *)
Definition upd_pauses w l ap pr re cr : world :=
  {| w_newest := w_newest w; w_pauses := l; w_song_starts := w_song_starts w; w_song_broadcasts := w_song_broadcasts w; w_pause_broadcasts := w_pause_broadcasts w;
     w_appends := ap; w_prunes := pr; w_removals := re; w_client := w_client w;
     w_received := w_received w; w_crashed := cr |}.
(** Update of the goroutines announcing pauses (schedule/server_state.go 95-109). *)
Definition upd_toggle w pb ap : world :=
  {| w_newest := w_newest w; w_pauses := w_pauses w; w_song_starts := w_song_starts w; w_song_broadcasts := w_song_broadcasts w; w_pause_broadcasts := pb;
     w_appends := ap; w_prunes := w_prunes w; w_removals := w_removals w; w_client := w_client w;
     w_received := w_received w; w_crashed := w_crashed w |}.
(** The client moves on and receives messages (comm/package_handler.go 102-105, schedule/server_state.go 45-56). *)
Definition upd_client w ph ms : world :=
  {| w_newest := w_newest w; w_pauses := w_pauses w; w_song_starts := w_song_starts w; w_song_broadcasts := w_song_broadcasts w; w_pause_broadcasts := w_pause_broadcasts w;
     w_appends := w_appends w; w_prunes := w_prunes w; w_removals := w_removals w; w_client := ph;
     w_received := w_received w ++ ms; w_crashed := w_crashed w |}.

(** Whether MultiMessageSender writes broadcasts to the client (comm/message_sender.go 25-48). *)
Definition is_subscribed (p : phase) : bool := match p with Fresh => false | _ => true end.
(** what a broadcast of [m] adds to the client's messages *)
Definition heard (w : world) (m : message) : list message := if is_subscribed (w_client w) then [m] else [].

(** The steps of the goroutines, see above. *)
Inductive label : Type :=
| StartSong (m : message) | NewSong (m : message) | SongBroadcast
| Toggle (t : toggle) | PauseBroadcast (t : toggle)
| Append (t : toggle) | Count | Remove (k : nat)
| Subscribe | SendSong | SendPauses.

(** One step of one of these goroutines (schedule/server_state.go 37-56, 80-143). *)
Inductive wstep : world -> label -> world -> Prop :=
| SStartSong w m : wstep w (StartSong m) (upd_song w (w_newest w) (w_song_starts w ++ [m]) (w_song_broadcasts w))
| SNewSong w m a b : w_song_starts w = a ++ m :: b ->
    wstep w (NewSong m) (upd_song w (Some m) (a ++ b) (S (w_song_broadcasts w)))
| SSongBroadcast w m n : w_song_broadcasts w = S n -> w_newest w = Some m ->
    wstep w SongBroadcast (upd_client (upd_song w (w_newest w) (w_song_starts w) n) (w_client w) (heard w m))
| SToggle w t : wstep w (Toggle t) (upd_toggle w (w_pause_broadcasts w ++ [t]) (w_appends w ++ [t]))
| SPauseBroadcast w t a b : w_pause_broadcasts w = a ++ t :: b ->
    wstep w (PauseBroadcast t) (upd_client (upd_toggle w (a ++ b) (w_appends w)) (w_client w) (heard w (pause_message t)))
| SAppend w t a b : w_appends w = a ++ t :: b ->
    wstep w (Append t) (upd_pauses w (w_pauses w ++ [t]) (a ++ b) (S (w_prunes w)) (w_removals w) (w_crashed w))
| SCount w n : w_prunes w = S n ->
    let k := removable (w_newest w) (w_pauses w) in
    wstep w Count (upd_pauses w (w_pauses w) (w_appends w) n
                     (if (0 <? k)%nat then w_removals w ++ [k] else w_removals w) (w_crashed w))
| SRemove w k a b l : w_removals w = a ++ k :: b -> remove_first k (w_pauses w) = Ok l ->
    wstep w (Remove k) (upd_pauses w l (w_appends w) (w_prunes w) (a ++ b) (w_crashed w))
| SRemovePanic w k a b : w_removals w = a ++ k :: b -> remove_first k (w_pauses w) = Panic ->
    wstep w (Remove k) (upd_pauses w (w_pauses w) (w_appends w) (w_prunes w) (a ++ b) true)
| SSubscribe w : w_client w = Fresh -> wstep w Subscribe (upd_client w Subscribed [])
| SSendSong w : w_client w = Subscribed ->
    wstep w SendSong (upd_client w SongSent (match w_newest w with Some m => [m] | None => [] end))
| SSendPauses w : w_client w = SongSent -> wstep w SendPauses (upd_client w Done (map pause_message (w_pauses w))).

(** a crashed process does nothing any more *)
Inductive wrun : list label -> world -> Prop :=
| WInit : wrun [] init_world
| WStep tr w l w' : wrun tr w -> w_crashed w = false -> wstep w l w' -> wrun (tr ++ [l]) w'.
