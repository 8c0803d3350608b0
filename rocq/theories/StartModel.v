(** The start of the server process (cmd/music-sync-server/main.go 71-109, comm/conn_handler.go
    33-47) and of its control shell (ssh/ssh.go 25-46, ssh/options.go), with everything that can
    go wrong in it.  How the settings come about is in CliModel, what handlers decide in
    AuthModel, how a users file is read in JsonModel. *)
From Verif Require Import GoBase GoUtf8 LoggingModel AuthModel JsonModel LifeModel CliModel.
Local Open Scope Z_scope.

(** What the operating system and the libraries say: [inl]: the text of an error.
    [stat]: os.Stat, true for a directory.  [contents]: os.Open and reading, ioutil.ReadFile (a
    file that opens but cannot be read is taken for one that cannot be opened).
    [json_error]: the error of a Decode that fails.  [private_key]: gossh.ParsePrivateKey.
    [listen bound a]: the error of net.Listen("tcp", a) while the process listens on [bound]. *)
Record world := {
  stat : text -> text + bool;
  contents : text -> text + bytes;
  json_error : bytes -> text;
  private_key : bytes -> text + text;
  listen : list text -> text -> option text
}.

(** What can be seen of the process: log calls, lines urfave/cli writes to standard error
    (HandleExitCoder), and the addresses it listens on. *)
Inductive event := Logged (level : Z) (msg : text) | Complains (line : text) | Listens (address : text).

(** util/file_utils.go 91-100 (CheckDir), 103-112 (CheckFile): the error *)
Definition check_dir (w : world) (p : text) : option text :=
  match stat w p with
  | inl e => Some (T "failed to access " ++ p ++ T ": " ++ e)
  | inr false => Some (p ++ T " is not a directory")
  | inr true => None
  end.
Definition check_file (w : world) (p : text) : option text :=
  match stat w p with
  | inl e => Some (T "failed to access " ++ p ++ T ": " ++ e)
  | inr true => Some (p ++ T " is directory")
  | inr false => None
  end.

(** conn_handler.go 33-47 (StartServer); the acceptor is started at the end *)
Definition start_server (w : world) (address : text) : list event * option text :=
  let starting := Logged LevelInfo (T "starting server at " ++ address) in
  match listen w [] address with
  | Some e => let m := T "failed to start server at " ++ address ++ T ": " ++ e in ([starting; Logged LevelFatal m], Some m)
  | None => ([starting; Listens address; Logged LevelInfo (T "server running at " ++ address)], None)
  end.

(** ssh.go 25-35 (ReadUsersFile) *)
Definition read_users_file (w : world) (filename : text) : text + list (bytes * user_auth) :=
  match contents w filename with
  | inl e => inl (T "failed to open users file (" ++ filename ++ T "): " ++ e)
  | inr b => match read_users (Some b) with
             | None => inl (T "failed to decode users file (" ++ filename ++ T "): " ++ json_error w b)
             | Some users => inr users
             end
  end.

(** cmd/music-sync-server/main.go 71-109 (run): the events and the exit code; [inr users]: it waits for the
    interrupt, and the control shell and the streaming have been started.  [Panic]: the
    division in setScheduleVars (63). *)
Definition server_run (w : world) (c : server_config) : outcome (list event * (Z + list (bytes * user_auth))) :=
  match check_dir w (sc_music_dir c) with
  | Some e => Ok ([Complains (T "invalid music dir: " ++ e)], inl 1)
  | None =>
      do _t <- chunk_time (sc_chunk_size c) (sc_sample_rate c);
      match start_server w (sc_listen c) with
      | (l, Some e) => Ok (l ++ [Complains e], inl 1)
      | (l, None) =>
          match read_users_file w (sc_users c) with
          | inl e => Ok (l ++ [Complains e], inl 1)
          | inr users => Ok (l, inr users)
          end
      end
  end.

Section Shell.
Variable key : Type.
Variable parse_public_key : text -> option key.
Variable marshal_key : key -> text.

(** options.go 16-25: what getHostKeyOption logs *)
Definition host_key_log (w : world) (path : text) : list event :=
  if text_eqb path [] then [Logged LevelWarn (T "no host key file provided, generating a new host key")]
  else match check_file w path with
       | Some e => [Logged LevelWarn (T "unable to access host key file, generating new host key: " ++ e)]
       | None => []
       end.
Definition file_ok (w : world) (path : text) : bool := match check_file w path with None => true | Some _ => false end.

(** gliderlabs/ssh ListenAndServe: the options are applied in turn, an error ends it.
    HostKeyFile reads and parses the file.  The second part of the state is the host key. *)
Definition set_option (w : world) (s : server key * option text) (o : option_ key) : text + (server key * option text) :=
  match o with
  | HostKeyFile _ p =>
      match contents w p with
      | inl e => inl e
      | inr b => match private_key w b with inl e => inl e | inr k => inr (apply_option key (fst s) o, Some k) end
      end
  | _ => inr (apply_option key (fst s) o, snd s)
  end.
Fixpoint set_options (w : world) (s : server key * option text) (os : list (option_ key)) : text + (server key * option text) :=
  match os with
  | [] => inr s
  | o :: r => match set_option w s o with inl e => inl e | inr s' => set_options w s' r end
  end.
(** gliderlabs/ssh Server.ListenAndServe: without an address ":22"; without a host key one is
    generated (host key [None] here) *)
Definition listen_and_serve (w : world) (bound : list text) (address : text) (os : list (option_ key)) : text + (server key * option text) :=
  match set_options w (new_server key [], None) os with
  | inl e => inl e
  | inr s => match listen w bound (match address with [] => T ":22" | _ => address end) with Some e => inl e | None => inr s end
  end.

(** ssh.go 39-46 (StartSSH), in a goroutine of its own: the events and the shell, if there is
    one.  ([None] after the last line: the goroutine has ended, nothing else has.) *)
Definition start_ssh (w : world) (bound : list text) (address path : text) (users : list (bytes * user_auth))
  : list event * option (server key * option text) :=
  let l := host_key_log w path ++ [Logged LevelInfo (T "starting ssh server at " ++ address)] in
  match listen_and_serve w bound address (ssh_options key parse_public_key marshal_key users (file_ok w) path) with
  | inl e => (l ++ [Logged LevelError (T "ssh server at " ++ address ++ T " stopped: " ++ e)], None)
  | inr s => (l, Some s)
  end.
(** the shell of a server that runs *)
Definition shell (w : world) (c : server_config) (users : list (bytes * user_auth)) : list event * option (server key * option text) :=
  start_ssh w [sc_listen c] (sc_ssh_listen c) (sc_host_key c) users.
End Shell.
