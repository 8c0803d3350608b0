(** Model of schedule/server_state_commands.go, of ssh/command.go and of the command loop
    in ssh/session_handler.go. *)
From Verif Require Import GoBase GoFmt PlaylistModel ParserModel.
From Coq Require Import Sorting.Sorted Sorting.Permutation.
Local Open Scope Z_scope.

(* ------------------------------------------------------------------ *)
(** ** State of the server as far as commands read or change it *)

(** playback/playlist.go:16-35 and schedule/server_state.go:12-25: the playlist (songs, position, the values sent on forceNext, playing, currentSong), the
    volume and the SetVolumeRequests broadcast.  Each playlist method is one step here;
    their interleaving with the streaming loop is the subject of PlaylistModel. *)
Record cstate := {
  st_songs : list song;
  st_position : Z;
  st_forced : nat;
  st_playing : bool;
  st_current : song;
  st_volume : f64;
  st_sent : list f64
}.

(** playlist.go:165-211: what AddSong, InsertSong and RemoveSong change *)
Definition with_songs (st : cstate) (l : list song) : cstate :=
  {| st_songs := l; st_position := st_position st; st_forced := st_forced st; st_playing := st_playing st;
     st_current := st_current st; st_volume := st_volume st; st_sent := st_sent st |}.
(** playlist.go:140-143 (SetPos) *)
Definition with_pos (st : cstate) (p : Z) : cstate :=
  {| st_songs := st_songs st; st_position := p; st_forced := S (st_forced st); st_playing := st_playing st;
     st_current := st_current st; st_volume := st_volume st; st_sent := st_sent st |}.
(** playlist.go:232-234 (SetPlaying) *)
Definition with_playing (st : cstate) (b : bool) : cstate :=
  {| st_songs := st_songs st; st_position := st_position st; st_forced := st_forced st; st_playing := b;
     st_current := st_current st; st_volume := st_volume st; st_sent := st_sent st |}.
(** server_state_commands.go:166: the assignment to ss.volume *)
Definition with_volume (st : cstate) (v : f64) : cstate :=
  {| st_songs := st_songs st; st_position := st_position st; st_forced := st_forced st; st_playing := st_playing st;
     st_current := st_current st; st_volume := v; st_sent := st_sent st |}.
(** server_state_commands.go:170: the broadcast *)
Definition with_sent (st : cstate) (v : f64) : cstate :=
  {| st_songs := st_songs st; st_position := st_position st; st_forced := st_forced st; st_playing := st_playing st;
     st_current := st_current st; st_volume := st_volume st; st_sent := st_sent st ++ [v] |}.

(** ssh/command.go:34 (ExecFunc): its result, the message, whether the arguments were accepted, the new state. *)
Definition cresult := (text * bool * cstate)%type.

(** ssh/command.go:28-38 (Command): the texts and ExecFunc (OptionsFunc is in CompleterModel) *)
Record cmd_doc := { d_name : text; d_usage : text; d_info : text }.
(** ssh/command.go:28-38 (Command): ExecFunc as a function on the state *)
Record command := {
  cmd_doc_of : cmd_doc;
  cmd_exec : list text -> cstate -> outcome cresult
}.
(** ssh/command.go:29 (Name) *)
Definition cmd_name (c : command) : text := d_name (cmd_doc_of c).

(** ssh/command.go:58-63 (usage) *)
Definition doc_usage (d : cmd_doc) : text :=
  match d_usage d with
  | [] => T "No usage information for command '" ++ d_name d ++ T "'"
  | u => T "Usage: " ++ d_name d ++ T " " ++ u
  end.
(** ssh/command.go:58-63 (usage) of a command *)
Definition usage (c : command) : text := doc_usage (cmd_doc_of c).

(* ------------------------------------------------------------------ *)
(** ** The commands *)

(** server_state_commands.go:24-29 (parseStringParam) *)
Definition parse_string_param (args : list text) (index : nat) : option text := nth_error args index.

(** 31-40 (parseIntParam) *)
Definition parse_int_param (args : list text) (index : nat) : option Z :=
  match nth_error args index with None => None | Some a => atoi a end.

Section Commands.
(** server_state_commands.go:48: util.ListGlobFiles(playback.AudioDir, pattern): an error (its text) or the file names. *)
Variable glob : text -> text + list text.
(** strconv.ParseFloat(s, 64) (None: error) and fmt's %.3f *)
Variable parse_float : text -> option f64.
Variable fmt_3f : f64 -> text.
(** server_state_commands.go:170: what the broadcast of a SetVolumeRequest returns: None or the text of the error *)
Variable send_volume : f64 -> option text.
(** ssh/command.go:134: util.ListAllFiles(playback.AudioDir, subDir) *)
Variable all_files : text -> list text.

(** util/file_utils.go:12-20 (FilterSongs) *)
Definition filter_songs (l : list text) : list text := filter (fun f => has_suffix f (T ".mp3")) l.

(** server_state_commands.go:57-66: InsertSong(s, pos+i) for each song, i counting from [i] *)
Fixpoint insert_each (songs : list song) (l : list song) (pos i : Z) : outcome (list song) :=
  match l with
  | [] => Ok songs
  | s :: r => do songs' <- insert_song songs s (wrap64 (pos + i)); insert_each songs' r pos (i + 1)
  end.

(** 42-68 (queueCommandExec) *)
Definition queue_exec (args : list text) (st : cstate) : outcome cresult :=
  match parse_string_param args 0 with
  | None => Ok ([], false, st)
  | Some pattern =>
      match glob pattern with
      | inl err => Ok (T "glob pattern is invalid: " ++ err, true, st)
      | inr files =>
          let found := filter_songs files in
          match found with
          | [] => Ok (T "no song matches the glob pattern " ++ pattern, true, st)
          | _ =>
              do songs' <-
                (match parse_int_param args 1 with
                 | Some pos => insert_each (st_songs st) found pos 0
                 | None => Ok (fold_left add_song found (st_songs st))
                 end);
              Ok (itoa (zlen found) ++ T " song(s) added to playlist: " ++ join (T ", ") found, true,
                  with_songs st songs')
          end
      end
  end.

(** 95-98: the entry of song [i]: "  [%0<w>d] %s" *)
Definition playlist_entry (w : nat) (i : Z) (s : song) : text :=
  T "  [" ++ itoa0 w i ++ T "] " ++ s.

(** server_state_commands.go:96-98: the loop *)
Fixpoint playlist_entries (w : nat) (i : Z) (l : list song) : list text :=
  match l with
  | [] => []
  | s :: r => playlist_entry w i s :: playlist_entries w (i + 1) r
  end.

(** 92-116 (playlistCommandExc) *)
Definition playlist_exec (_ : list text) (st : cstate) : outcome cresult :=
  let songs := st_songs st in
  let entries := playlist_entries (length (itoa (zlen songs - 1))) 0 songs in
  let status := if st_playing st then T "Playing" else T "Paused" in
  let song_list := match entries with [] => T "Empty" | _ => [10%N] ++ join [10%N] entries end in
  let curr := match st_current st with [] => T "None" | s => s end in
  Ok (T "Current Playlist (" ++ status ++ T "): " ++ song_list ++ [10%N] ++ T "Current Song: " ++ curr, true, st).

(** 127-141 (removeCommand) *)
Definition remove_exec (args : list text) (st : cstate) : outcome cresult :=
  match parse_int_param args 0 with
  | None => Ok ([], false, st)
  | Some pos =>
      do '(l, removed) <- remove_song (st_songs st) pos;
      Ok (T "removed song " ++ removed ++ T " at position " ++ itoa pos ++ T " from playlist", true, with_songs st l)
  end.

(** 143-157 (jumpCommand) *)
Definition jump_exec (args : list text) (st : cstate) : outcome cresult :=
  match parse_int_param args 0 with
  | None => Ok ([], false, st)
  | Some pos => Ok (T "jumped to " ++ itoa pos, true, with_pos st pos)
  end.

(** 13-22 (parseFloatParam): 0 when it fails *)
Definition parse_float_param (args : list text) (index : nat) : f64 * bool :=
  match nth_error args index with
  | None => (0%N, false)
  | Some a => match parse_float a with None => (0%N, false) | Some v => (v, true) end
  end.

(** 159-176 (volumeCommand): ss.volume is assigned before ok is looked at. *)
Definition volume_exec (args : list text) (st : cstate) : outcome cresult :=
  let '(v, ok) := parse_float_param args 0 in
  let st1 := with_volume st v in
  if negb ok then Ok ([], false, st1)
  else
    let st2 := with_sent st1 v in
    match send_volume v with
    | Some err => Ok (T "failed to set volume to " ++ fmt_3f v ++ T ": " ++ err, true, st2)
    | None => Ok (T "setting volume to " ++ fmt_3f v, true, st2)
    end.

(** 186-202 (playbackSetCommand) *)
Definition playback_action (target : bool) : text := if target then T "resume" else T "pause".
(** server_state_commands.go:197-200 *)
Definition playback_exec (target : bool) (_ : list text) (st : cstate) : outcome cresult :=
  Ok (T "playback " ++ playback_action target ++ T "d", true, with_playing st target).

(** ssh/command.go:82-86: fmt's %-15s *)
Definition pad15 (s : text) : text := s ++ repeat 32%N (15 - length s).

(** ssh/command.go:78-110 (helpCommand's ExecFunc), reading the texts of the registry [reg] *)
Definition help_exec (reg : list cmd_doc) (args : list text) (st : cstate) : outcome cresult :=
  match args with
  | [] =>
      let usages := map (fun c => pad15 (d_name c) ++ T " " ++ d_info c) reg ++
                    [pad15 (T "clear") ++ T " Clears the terminal"; pad15 (T "exit") ++ T " Closes the connection"] in
      Ok (join [10%N] usages, true, st)
  | a :: _ =>
      match find (fun c => text_eqb (d_name c) a) (rev reg) with      (* the last match is kept *)
      | Some c => Ok (d_name c ++ T ": " ++ d_info c ++ [10%N] ++ doc_usage c, true, st)
      | None =>
          if text_eqb a (T "clear") then Ok (T "clear: Clears the terminal" ++ [10%N] ++ T "clear", true, st)
          else if text_eqb a (T "exit") then Ok (T "exit: Closes the connection" ++ [10%N] ++ T "exit", true, st)
          else Ok (T "Command '" ++ a ++ T "' does not exist.", true, st)
      end
  end.

(** ssh/command.go:129-136 (lsCommand's ExecFunc) *)
Definition ls_exec (args : list text) (st : cstate) : outcome cresult :=
  let sub_dir := match args with [] => [] | a :: _ => a end in
  Ok (join [10%N] (filter_songs (all_files sub_dir)), true, st).

(** The commands with their texts: ssh/command.go:74-77, 125-128; server_state_commands.go.
    [help] reads the package variable at the time of the call: [reg].  cmd/music-sync-server/main.go:104-105 starts
    the ssh server before schedule.Server registers its commands, so a session opened in
    between can see a smaller registry; the session theorems hold for every registry.  The
    unsynchronised access to the slice during registration is the subject of RegistryModel. *)
Definition server_commands (reg : list cmd_doc) : list command :=
  [ {| cmd_doc_of := {| d_name := T "help"; d_usage := T "[command name]"; d_info := T "retrieves help for a command" |};
       cmd_exec := help_exec reg |};
    {| cmd_doc_of := {| d_name := T "ls"; d_usage := T "[sub directory]"; d_info := T "lists all songs in the music (sub) directory" |};
       cmd_exec := ls_exec |};
    {| cmd_doc_of := {| d_name := T "queue"; d_usage := T "filename [position in playlist]"; d_info := T "adds a song to the playlist" |};
       cmd_exec := queue_exec |};
    {| cmd_doc_of := {| d_name := T "playlist"; d_usage := []; d_info := T "prints the current playlist" |}; cmd_exec := playlist_exec |};
    {| cmd_doc_of := {| d_name := T "remove"; d_usage := T "position"; d_info := T "removes a song from the playlist" |}; cmd_exec := remove_exec |};
    {| cmd_doc_of := {| d_name := T "jump"; d_usage := T "position"; d_info := T "jumps in the playlist" |}; cmd_exec := jump_exec |};
    {| cmd_doc_of := {| d_name := T "volume"; d_usage := T "volume"; d_info := T "set the playback volume" |}; cmd_exec := volume_exec |};
    {| cmd_doc_of := {| d_name := T "pause"; d_usage := []; d_info := T "pauses playback" |}; cmd_exec := playback_exec false |};
    {| cmd_doc_of := {| d_name := T "resume"; d_usage := []; d_info := T "resumes playback" |}; cmd_exec := playback_exec true |} ].

(** server_state.go: sendVolume, the first message of createClientHandler for a new client. *)
Definition new_client_volume (st : cstate) : f64 := st_volume st.

End Commands.

(* ------------------------------------------------------------------ *)
(** ** The registry *)

(** strings.Compare(a, b) < 0: bytewise order, which for valid UTF-8 is the order of code points *)
Fixpoint text_ltb (a b : text) : bool :=
  match a, b with
  | _, [] => false
  | [], _ :: _ => true
  | x :: a', y :: b' => if N.ltb x y then true else if N.eqb x y then text_ltb a' b' else false
  end.

(** ssh/command.go:18 (Less), as the order sort.Sort establishes *)
Definition name_le (c d : command) : Prop := text_ltb (cmd_name d) (cmd_name c) = false.

(** ssh/command.go:22-25 (RegisterCommand): sort.Sort gives some sorted permutation. *)
Inductive registered : list command -> list command -> Prop :=
| Reg_nil : registered [] []
| Reg_add cs reg c reg' :
    registered cs reg -> Permutation (reg ++ [c]) reg' -> StronglySorted name_le reg' ->
    registered (cs ++ [c]) reg'.

(** ssh/command.go:65-72 (commandByName) *)
Definition command_named (reg : list command) (name : text) : option command :=
  find (fun c => text_eqb (cmd_name c) name) reg.

(* ------------------------------------------------------------------ *)
(** ** The session *)

(** session_handler.go:113-121: what Readline can return: a line, the line typed so far with ErrInterrupt (Ctrl-C),
    io.EOF, another error. *)
Inductive input := Line (l : text) | Interrupt (l : text) | Eof | ReadError.

(** session_handler.go:102-104: strings.HasSuffix(msg, "\n") -> msg[:len(msg)-1] *)
Definition chomp (msg : text) : text :=
  if has_suffix msg [10%N] then removelast msg else msg.

(** session_handler.go:99-109 (execCommand): new state and what is printed *)
Definition exec_command (c : command) (args : list text) (st : cstate) : outcome (cstate * text) :=
  do '(msg, ok, st') <- cmd_exec c args st;
  if (ok : bool) then Ok (st', chomp msg ++ [10%N])
  else Ok (st', usage c ++ [10%N]).

(** session_handler.go:80-97 (handleLine): continue?, new state, what is printed *)
Definition handle_line (reg : list command) (line : text) (st : cstate) : outcome (bool * cstate * text) :=
  let cmd := parse_command line in
  match command_named reg (p_command cmd) with
  | Some c => do '(st', out) <- exec_command c (p_params cmd) st; Ok (true, st', out)
  | None =>
      if text_eqb (p_command cmd) (T "clear") then Ok (true, st, [27%N; 91%N; 72%N])
      else if text_eqb (p_command cmd) (T "exit") then Ok (false, st, [])
      else Ok (true, st, T "Unknown command '" ++ p_command cmd ++ T "'. Type 'help' for help." ++ [10%N])
  end.

(** session_handler.go:111-127 (readLoop) over the results of Readline; [true]: the session
    has ended (readLoop returned). *)
Fixpoint read_loop (reg : list command) (ins : list input) (st : cstate) : outcome (bool * cstate * text) :=
  let on_line line r :=
    do '(go_on, st1, out) <- handle_line reg line st;
    if (go_on : bool) then
      do '(ended, st2, out2) <- read_loop reg r st1; Ok (ended, st2, out ++ out2)
    else Ok (true, st1, out) in
  match ins with
  | [] => Ok (false, st, [])
  | Eof :: _ | ReadError :: _ => Ok (true, st, [])
  | Line l :: r => on_line l r
  | Interrupt l :: r => on_line l r          (* line 111: the branch is empty *)
  end.
