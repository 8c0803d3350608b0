(** C111: the log of the control shell. *)
From Verif Require Import GoBase GoBaseFacts LoggingSpec CommandsModel AuthModel AuthSpec AuditModel AuditSpec AuditProofs.

Section AuditProps.
Variable key : Type.
Variable parse_public_key : text -> option key.
Variable marshal_key : key -> text.
Variable parse_error : text -> text.
Notation serve_all := (serve_all key parse_public_key marshal_key parse_error).
Notation authorised := (authorised key parse_public_key marshal_key).

(** Every password tried in vain is logged once, with the address and the user: in a connection that
    is not yet logged in there are as many such lines as passwords were tried. (Missing: connections
    that try several user names.) *)
Theorem C111_passwords_partial : forall users addr user rs msgs c,
  Forall (fun r => fst r = user) rs -> serve_all users addr new_conn rs = (msgs, Going c) ->
  times (says_failed addr user (T "password")) msgs = passwords rs.
Proof. intros users addr user rs msgs c F H. eapply serve_passwords; eauto. now left. Qed.

(** Every key that is not the user's is logged. (Missing: the address, if the key in the users file
    cannot be read.) *)
Theorem C111_keys_partial : forall users addr user rs msgs c data signature k,
  Forall (fun r => fst r = user) rs -> serve_all users addr new_conn rs = (msgs, Going c) ->
  In (user, RKey data signature) rs -> parse_public_key data = Some k ->
  authorised users user (PublicKey key k) \/
  In (says_failed addr user (T "public key")) msgs \/
  exists a, entry_of users user a /\ u_pubkey a <> [] /\ parse_public_key (u_pubkey a) = None /\ In (says_unreadable user (parse_error (u_pubkey a))) msgs.
Proof.
  intros users addr user rs msgs c data sg k F H I P.
  destruct (serve_keys key parse_public_key marshal_key parse_error users addr user rs new_conn [] msgs (Going c) F (or_introl eq_refl)) with (data := data) (sg := sg) (k := k) as [A|[L|(x & L & a & E1 & E2 & E3 & ->)]]; eauto.
  - intros v d b [].
  - right. right. exists a. auto.
Qed.

(** Somebody who gets it right leaves no failed attempt in the log. *)
Theorem C111_no_false_alarm : forall users addr user rs msgs answer,
  Forall (fun r => fst r = user /\
    match snd r with
    | RNoAuth => True
    | RPassword p => authorised users user (Password key p)
    | RKey data _ => forall k, parse_public_key data = Some k -> authorised users user (PublicKey key k)
    end) rs ->
  serve_all users addr new_conn rs = (msgs, answer) -> msgs = [].
Proof. intros users addr user rs msgs a F H. eapply (serve_quiet key parse_public_key marshal_key parse_error users); eauto. now left. Qed.
End AuditProps.

(** Every session is logged when it starts, and once when it ends; one without a terminal ends at
    once, which is logged too. *)
Theorem C111_sessions : forall reg addr user err pty ins st ended st' out,
  read_loop reg ins st = Ok (ended, st', out) ->
  exists m, session_log reg addr user err pty ins st = Ok (says_new addr user :: m) /\
    (pty = true -> ended = true -> m = [says_closed addr user] \/ m = [says_error addr user err]) /\
    (pty = true -> ended = false -> m = []) /\
    (pty = false -> m = [says_no_pty addr user]).
Proof.
  intros reg addr user err pty ins st ended st' out R. unfold session_log. destruct pty; [|eexists; repeat split; discriminate].
  destruct (loop_session reg addr user err ins st ended st' out R) as (m & L & E1 & E2).
  exists m. rewrite L. repeat split; auto. discriminate.
Qed.

(** The log can be read back: entry by entry, if no message contains a line break. *)
Theorem C111_readable_partial : forall es fs,
  Forall one_line es -> Forall one_line fs -> log_text es = log_text fs -> map readable es = map readable fs.
Proof. intros es fs. apply text_inj. Qed.

(** *** what the code does not keep *)
Definition no_key (_ : text) : option unit := None.
Definition any_key (_ : text) : option unit := Some tt.
Definition the_users : list (text * user_auth) := [(T "alice", {| u_password := T "secret"; u_pubkey := [] |})].
Definition key_users : list (text * user_auth) := [(T "alice", {| u_password := []; u_pubkey := T "k" |})].
Definition here : text := T "10.0.0.1:4000".
Definition failed_entry (date addr user : text) : entry :=
  {| e_sev := Warn; e_name := T "ssh"; e_date := date; e_msg := says_failed addr user (T "password") |}.

(** A user name may contain line breaks: somebody who cannot log in writes entries of his own. *)
Theorem C111_forged_refuted : forall users date their_date,
  (forall u a, In (u, a) users -> ~ In 10%N u) ->
  exists user c,
    serve_all unit no_key (fun _ => []) (fun _ => []) users here new_conn [(user, RPassword (T "x"))] = ([says_failed here user (T "password")], Going c) /\
    log_text [failed_entry date here user] = log_text [failed_entry date here (T "x"); failed_entry their_date (T "10.9.9.9:1") (T "bob")].
Proof.
  intros users date their_date NU.
  exists (T "x using a password" ++ [10%N] ++ T "[WRN] [ssh ] " ++ their_date ++ T ": failed ssh login attempt from 10.9.9.9:1 as bob"). eexists. split.
  - cbn [serve_all serve co_user new_conn]. unfold password_try. set (u := T "x using a password" ++ _). assert (L : lookup users u = None).
    { unfold lookup. destruct (find _ _) as [e|] eqn:F; [|reflexivity]. apply find_some in F as (I & E). apply in_rev in I. apply text_eqb_eq in E. destruct e as (n & a). cbn in E. subst n.
      exfalso. apply (NU u a I). unfold u. apply in_app_iff. right. now left. }
    rewrite L. reflexivity.
  - unfold log_text, failed_entry. cbn [map concat e_sev e_name e_date e_msg]. unfold log_line, says_failed. rewrite <- !app_assoc. rewrite app_nil_r. cbn. do 12 f_equal.
Qed.

(** All attempts of a connection are logged under the first name tried. *)
Theorem C111_names_refuted : exists c,
  serve_all unit no_key (fun _ => []) (fun _ => []) the_users here new_conn [(T "nobody", RPassword (T "x")); (T "alice", RPassword (T "1")); (T "alice", RPassword (T "2"))]
  = ([says_failed here (T "nobody") (T "password"); says_failed here (T "nobody") (T "password"); says_failed here (T "nobody") (T "password")], Going c).
Proof. eexists. vm_compute. reflexivity. Qed.

(** A key offered by somebody who does not have it is refused without a line. *)
Theorem C111_signature_refuted :
  serve_all unit any_key (fun _ => T "k") (fun _ => []) key_users here new_conn [(T "alice", RKey (T "k") None); (T "alice", RKey (T "k") (Some false))] = ([], Hangup).
Proof. vm_compute. reflexivity. Qed.

(** If the key in the users file cannot be read, the line does not say where the attempt came from. *)
Theorem C111_address_refuted : exists msgs c,
  serve_all unit (fun d => if text_eqb d (T "k") then None else Some tt) (fun _ => []) (fun _ => T "ssh: short read") key_users here new_conn [(T "alice", RKey (T "z") (Some true))] = (msgs, Going c) /\
  forall addr, serve_all unit (fun d => if text_eqb d (T "k") then None else Some tt) (fun _ => []) (fun _ => T "ssh: short read") key_users addr new_conn [(T "alice", RKey (T "z") (Some true))] = (msgs, Going c).
Proof. eexists _, _. split; [vm_compute; reflexivity|]. intros addr. reflexivity. Qed.

(** the hypotheses are met *)
Example C111_ex_passwords : exists msgs c, serve_all unit any_key (fun _ => T "k") (fun _ => []) the_users here new_conn
  [(T "alice", RNoAuth); (T "alice", RPassword (T "guess")); (T "alice", RKey (T "q") None); (T "alice", RPassword (T "Secret")); (T "alice", RKey (T "q") (Some true))] = (msgs, Going c) /\ length msgs = 3%nat.
Proof. eexists _, _. split; [vm_compute; reflexivity|]. reflexivity. Qed.
Example C111_ex_login : serve_all unit no_key (fun _ => []) (fun _ => []) the_users here new_conn [(T "alice", RNoAuth); (T "alice", RPassword (T "secret"))] = ([], LoggedIn (T "alice")).
Proof. vm_compute. reflexivity. Qed.
Example C111_ex_read : Forall one_line [failed_entry (T "2020-05-01 10:00:00.000") here (T "bob")].
Proof. repeat constructor. vm_compute. intuition discriminate. Qed.
Example C111_ex_session : forall st, session_log [] here (T "alice") [] true [Line (T "foo"); Interrupt (T "x"); Line (T "exit")] st = Ok [says_new here (T "alice"); says_closed here (T "alice")].
Proof. intros st. vm_compute. reflexivity. Qed.

Print Assumptions C111_passwords_partial.
Print Assumptions C111_keys_partial.
Print Assumptions C111_no_false_alarm.
Print Assumptions C111_sessions.
Print Assumptions C111_readable_partial.
Print Assumptions C111_forged_refuted.
Print Assumptions C111_names_refuted.
Print Assumptions C111_signature_refuted.
Print Assumptions C111_address_refuted.
