(** What a server needs, and what counts as saying what is missing. *)
From Verif Require Import GoBase GoUtf8 AuthModel JsonSpec CliModel StartModel.
Local Open Scope Z_scope.

Definition music_dir_ok (w : world) (c : server_config) : Prop := stat w (sc_music_dir c) = inr true.
Definition address_ok (w : world) (c : server_config) : Prop := listen w [] (sc_listen c) = None.
(** the users file is there and denotes [users] (JsonSpec) *)
Definition users_are (w : world) (c : server_config) (users : list (bytes * user_auth)) : Prop :=
  exists file v, contents w (sc_users c) = inr file /\ file_value file v /\ users_denote v users.
Definition users_ok (w : world) (c : server_config) : Prop := exists users, users_are w c users.

Definition mentions (line part : text) : Prop := exists a b, line = a ++ part ++ b.
(** Some line on standard error mentions it. *)
Definition told (l : list event) (part : text) : Prop := exists line, In (Complains line) l /\ mentions line part.

(** What the log of a start has to say. *)
Definition starting_line (c : server_config) : text := T "starting server at " ++ sc_listen c.
Definition running_line (c : server_config) : text := T "server running at " ++ sc_listen c.
Definition shell_starting_line (c : server_config) : text := T "starting ssh server at " ++ sc_ssh_listen c.

(** What is said about the host key: nothing if there is a file to take it from; else one warning, naming the file
    that cannot be used and, if it is not there, the error of the system. *)
Definition host_key_said (w : world) (c : server_config) (said : list event) : Prop :=
  (sc_host_key c = [] /\ said = [Logged 3 (T "no host key file provided, generating a new host key")])
  \/ (sc_host_key c <> [] /\ stat w (sc_host_key c) = inr false /\ said = [])
  \/ (sc_host_key c <> [] /\ exists line, said = [Logged 3 line] /\ mentions line (T "unable to access host key file") /\
        mentions line (sc_host_key c) /\
        (stat w (sc_host_key c) = inr true /\ mentions line (T "is directory")
         \/ exists e, stat w (sc_host_key c) = inl e /\ mentions line (T "failed to access") /\ mentions line e)).

(** The host key file is a file (not a directory) that holds the key [k]. *)
Definition is_file (w : world) (p : text) : Prop := p <> [] /\ stat w p = inr false.
Definition holds_key (w : world) (p : text) (k : text) : Prop :=
  exists b, contents w p = inr b /\ private_key w b = inr k.
(** the address of the shell can be listened on while the music port is in use *)
Definition shell_address_ok (w : world) (c : server_config) : Prop :=
  listen w [sc_listen c] (match sc_ssh_listen c with [] => T ":22" | _ => sc_ssh_listen c end) = None.
