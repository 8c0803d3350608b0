(** Model of what the control shell logs: the handlers of ssh/options.go:27-56, the session of
    ssh/session_handler.go:20-25, 80-97, 111-142, and around them the authentication loop of
    golang.org/x/crypto/ssh (server.go, serverAuthenticate, with its cache of public keys) and
    gliderlabs/ssh (ctx.User() is fixed when the first handler of a connection is called).
    Not modelled: how many failed attempts x/crypto allows; readline.NewEx failing. *)
From Verif Require Import GoBase CommandsModel AuthModel ParserModel.

Section Audit.
(** x/crypto/ssh's parsed public keys, ParsePublicKey and Marshal (used at ssh/options.go:45, 50) *)
Variable key : Type.
Variable parse_public_key : text -> option key.
Variable marshal_key : key -> text.
(** the text of the error of ParsePublicKey *)
Variable parse_error : text -> text.
(** the users map, ssh/ssh.go:16-19, 28, handed to the handlers at ssh/options.go:27, 38 *)
Variable users : list (text * user_auth).

(** options.go:33, 42, 53: fmt.Sprintf with %s *)
Definition failed_msg (addr user : text) (how : text) : text :=
  T "failed ssh login attempt from " ++ addr ++ T " as " ++ user ++ T " using a " ++ how.
(** options.go:47 *)
Definition unreadable_msg (user err : text) : text := T "failed to parse ssh key for " ++ user ++ T ": " ++ err.
(** session_handler.go:133 *)
Definition new_msg (addr user : text) : text := T "new ssh connection from " ++ addr ++ T " as " ++ user.
(** session_handler.go:23 *)
Definition no_pty_msg (addr user : text) : text := T "no pty req from " ++ addr ++ T " as " ++ user.
(** session_handler.go:90, 116 *)
Definition closed_msg (addr user : text) : text := T "connection " ++ addr ++ T " as " ++ user ++ T " closed".
(** session_handler.go:119 *)
Definition error_msg (addr user err : text) : text := T "connection error from " ++ addr ++ T " as " ++ user ++ T ": " ++ err.

(** options.go:27-36 (createPasswordAuthOption): accepted?, what is logged (at level WARN) *)
Definition password_try (addr user password : text) : bool * list text :=
  match lookup users user with
  | Some auth => if negb (text_eqb (u_password auth) []) && text_eqb (u_password auth) password then (true, [])
                 else (false, [failed_msg addr user (T "password")])
  | None => (false, [failed_msg addr user (T "password")])
  end.
(** options.go:38-56 (createPublicKeyAuthOption) *)
Definition key_try (addr user : text) (k : key) : bool * list text :=
  match lookup users user with
  | None => (false, [failed_msg addr user (T "public key")])
  | Some auth =>
      if Nat.eqb (length (u_pubkey auth)) 0 then (false, [failed_msg addr user (T "public key")])
      else match parse_public_key (u_pubkey auth) with
           | None => (false, [unreadable_msg user (parse_error (u_pubkey auth))])
           | Some auth_key => if keys_equal key marshal_key k auth_key then (true, []) else (false, [failed_msg addr user (T "public key")])
           end
  end.

(** One request of the client: no method, a password, or a public key (its bytes) with a signature
    that is valid or not, or without one ([None]: would this key do?). *)
Inductive request := RNoAuth | RPassword (p : text) | RKey (data : text) (signature : option bool).
Record conn := { co_user : option text;                        (* ctx.User() *)
                 co_cache : list (text * text * bool) }.       (* user, key bytes, answer; at most 16 *)
Definition new_conn : conn := {| co_user := None; co_cache := [] |}.
Inductive answer := Going (c : conn) | LoggedIn (user : text) | Hangup.

(** x/crypto/ssh server.go, pubKeyCache.get (outside /repo; it decides how often ssh/options.go:39-55 runs) *)
Definition cached (c : conn) (user data : text) : option bool :=
  match find (fun e => text_eqb (fst (fst e)) user && text_eqb (snd (fst e)) data) (co_cache c) with Some e => Some (snd e) | None => None end.
(** One round of the loop of serverAuthenticate (x/crypto/ssh) around ssh/options.go:27-56: what is logged, and the answer. *)
Definition serve (addr : text) (c : conn) (user : text) (r : request) : list text * answer :=
  let u := match co_user c with Some u => u | None => user end in
  match r with
  | RNoAuth => ([], Going c)
  | RPassword p =>
      match password_try addr u p with
      | (true, m) => (m, LoggedIn u)
      | (false, m) => (m, Going {| co_user := Some u; co_cache := co_cache c |})
      end
  | RKey data signature =>
      match parse_public_key data with
      | None => ([], Hangup)
      | Some k =>
          let '(good, m, c1) :=
            match cached c user data with
            | Some b => (b, [], c)
            | None => let '(b, m) := key_try addr u k in
                      (b, m, {| co_user := Some u;
                                co_cache := if (length (co_cache c) <? 16)%nat then co_cache c ++ [(user, data, b)] else co_cache c |})
            end in
          match signature with
          | None => (m, Going c1)
          | Some false => (m, Hangup)
          | Some true => if (good : bool) then (m, LoggedIn u) else (m, Going c1)
          end
      end
  end.
(** no code in /repo: the requests of one connection one after the other *)
Fixpoint serve_all (addr : text) (c : conn) (rs : list (text * request)) : list text * answer :=
  match rs with
  | [] => ([], Going c)
  | (user, r) :: rest =>
      match serve addr c user r with
      | (m, Going c1) => let '(m2, a) := serve_all addr c1 rest in (m ++ m2, a)
      | (m, a) => (m, a)
      end
  end.
End Audit.

(** session_handler.go:111-127 and 80-97: what the loop logs (at level INFO); the inputs are as in
    CommandsModel, [err] is the text of a read error *)
Fixpoint loop_log (reg : list command) (addr user err : text) (ins : list input) (st : cstate) : outcome (list text) :=
  let on_line line r :=
    do '(go_on, st1, _) <- handle_line reg line st;
    if (go_on : bool) then loop_log reg addr user err r st1 else Ok [closed_msg addr user] in
  match ins with
  | [] => Ok []
  | Eof :: _ => Ok [closed_msg addr user]
  | ReadError :: _ => Ok [error_msg addr user err]
  | Line l :: r => on_line l r
  | Interrupt l :: r => on_line l r
  end.
(** session_handler.go:129-142 (sessionHandler), 20-25 *)
Definition session_log (reg : list command) (addr user err : text) (pty : bool) (ins : list input) (st : cstate) : outcome (list text) :=
  if pty then do m <- loop_log reg addr user err ins st; Ok (new_msg addr user :: m)
  else Ok [new_msg addr user; no_pty_msg addr user].
