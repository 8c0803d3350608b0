(** Model of ssh/options.go (who may log in to the control shell) and of the decision
    github.com/gliderlabs/ssh and golang.org/x/crypto/ssh take from the options. *)
From Verif Require Import GoBase.

(** ssh/ssh.go:16-19 (UserAuth); strings and []byte are byte lists *)
Record user_auth := { u_password : text; u_pubkey : text }.

Section Auth.
(** golang.org/x/crypto/ssh: parsed public keys, ParsePublicKey (None: error) and Marshal *)
Variable key : Type.
Variable parse_public_key : text -> option key.
Variable marshal_key : key -> text.

(** users map[string]UserAuth: the last entry of a name counts (ReadUsersFile, ssh/ssh.go:25-35,
    decodes a JSON object; a missing field is empty) *)
Definition lookup (users : list (text * user_auth)) (user : text) : option user_auth :=
  match find (fun e => text_eqb (fst e) user) (rev users) with
  | Some e => Some (snd e)
  | None => None
  end.

(** options.go:27-36 (createPasswordAuthOption): the handler *)
Definition password_handler (users : list (text * user_auth)) (user password : text) : bool :=
  match lookup users user with
  | Some auth => negb (text_eqb (u_password auth) []) && text_eqb (u_password auth) password
  | None => false
  end.

(** gliderlabs/ssh KeysEqual: equal marshalled forms *)
Definition keys_equal (a b : key) : bool := text_eqb (marshal_key a) (marshal_key b).

(** options.go:38-56 (createPublicKeyAuthOption): the handler *)
Definition public_key_handler (users : list (text * user_auth)) (user : text) (k : key) : bool :=
  match lookup users user with
  | None => false
  | Some auth =>
      if Nat.eqb (length (u_pubkey auth)) 0 then false
      else match parse_public_key (u_pubkey auth) with
           | None => false
           | Some auth_key => keys_equal k auth_key
           end
  end.

(** The options that matter: gliderlabs/ssh options set a field of the server. *)
Inductive option_ :=
| PasswordAuth (h : text -> text -> bool)
| PublicKeyAuth (h : text -> key -> bool)
| HostKeyFile (path : text).

(** options.go:16-25 (getHostKeyOption): [check_file] is util.CheckFile without error *)
Definition host_key_option (check_file : text -> bool) (path : text) : option option_ :=
  if text_eqb path [] then None
  else if check_file path then Some (HostKeyFile path) else None.

(** options.go:8-14 (getSSHOptions), 27, 38 *)
Definition ssh_options (users : list (text * user_auth)) (check_file : text -> bool) (path : text) : list option_ :=
  [PasswordAuth (password_handler users); PublicKeyAuth (public_key_handler users)] ++
  match host_key_option check_file path with Some o => [o] | None => [] end.

(** gliderlabs/ssh: the server built from the options *)
Record server := { sv_password : option (text -> text -> bool); sv_key : option (text -> key -> bool); sv_host_key : option text }.
(** gliderlabs/ssh options.go: each option of ssh/options.go:9-13 sets one field *)
Definition apply_option (s : server) (o : option_) : server :=
  match o with
  | PasswordAuth h => {| sv_password := Some h; sv_key := sv_key s; sv_host_key := sv_host_key s |}
  | PublicKeyAuth h => {| sv_password := sv_password s; sv_key := Some h; sv_host_key := sv_host_key s |}
  | HostKeyFile p => {| sv_password := sv_password s; sv_key := sv_key s; sv_host_key := Some p |}
  end.
(** gliderlabs/ssh ListenAndServe with the options, called at ssh/ssh.go:44 *)
Definition new_server (os : list option_) : server :=
  fold_left apply_option os {| sv_password := None; sv_key := None; sv_host_key := None |}.

(** What a client may try: no authentication, a password, or a public key of which it has
    proved (by a signature, checked by x/crypto/ssh) to hold the private key. *)
Inductive attempt := NoAuth | Password (p : text) | PublicKey (k : key).

(** gliderlabs/ssh server.go (config): without any handler no authentication is needed *)
Definition accepts (s : server) (user : text) (a : attempt) : bool :=
  match a with
  | NoAuth => match sv_password s, sv_key s with None, None => true | _, _ => false end
  | Password p => match sv_password s with Some h => h user p | None => false end
  | PublicKey k => match sv_key s with Some h => h user k | None => false end
  end.

(** A connection names a user in each attempt and gets a session with the first attempt
    accepted (x/crypto/ssh serverAuthenticate; the number of failed attempts it allows is left
    open).  ctx.User(), which the handlers ask for, is set when the first handler is called and
    then stays (gliderlabs/ssh context.go, applyConnMetadata): [ctx_user].  The result is the
    user of the session. *)
Fixpoint authenticate_from (s : server) (ctx_user : option text) (tries : list (text * attempt)) : option text :=
  match tries with
  | [] => None
  | (user, a) :: r =>
      let u := match ctx_user with Some u => u | None => user end in
      if accepts s u a then Some u
      else authenticate_from s (match a with NoAuth => ctx_user | _ => Some u end) r
  end.
(** a new connection to the server of ssh/ssh.go:39-46 *)
Definition authenticate (s : server) (tries : list (text * attempt)) : option text := authenticate_from s None tries.
End Auth.
