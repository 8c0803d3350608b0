(** C119: a server that cannot work says so and leaves. *)
From Verif Require Import GoBase GoBaseFacts GoUtf8 LoggingModel AuthModel AuthSpec AuthProps JsonModel JsonSpec JsonProps LifeModel CliModel StartModel StartSpec.
Local Open Scope Z_scope.

Lemma users_file_is w c users : read_users_file w (sc_users c) = inr users <-> users_are w c users.
Proof.
  unfold read_users_file, users_are. destruct (contents w (sc_users c)) as [e|b] eqn:E.
  - split; [discriminate|]. intros (file & v & H & _). discriminate H.
  - destruct (read_users (Some b)) as [us|] eqn:R.
    + split.
      * intros H. injection H as <-. apply C106_read in R. destruct R as (v & F & D). exists b, v. repeat split; assumption.
      * intros (file & v & H & F & D). injection H as <-. f_equal. assert (R' : read_users (Some b) = Some users) by (apply C106_read; eauto). congruence.
    + split; [discriminate|]. intros (file & v & H & F & D). injection H as <-.
      assert (R' : read_users (Some b) = Some users) by (apply C106_read; eauto). congruence.
Qed.
Lemma users_file_error w c : (exists e, read_users_file w (sc_users c) = inl e) <-> ~ users_ok w c.
Proof.
  split.
  - intros (e & H) (users & U). apply users_file_is in U. congruence.
  - intros H. destruct (read_users_file w (sc_users c)) as [e|users] eqn:E; [now exists e|]. exfalso. apply H. exists users. now apply users_file_is.
Qed.
Lemma users_error_names w f e : read_users_file w f = inl e -> mentions e f.
Proof.
  unfold read_users_file. destruct (contents w f) as [x|b]; intros H.
  - injection H as <-. exists (T "failed to open users file ("), (T "): " ++ x). reflexivity.
  - destruct (read_users (Some b)); [discriminate H|]. injection H as <-. exists (T "failed to decode users file ("), (T "): " ++ json_error w b). reflexivity.
Qed.

(** With a music directory, a free address and a users file the server stays, listens for
    clients and lets in those the users file names; without one of them it ends with code 1.
    (A sample rate of 0 crashes it: C90.) *)
Theorem C119_stays_or_leaves : forall (w : world) (c : server_config), sc_sample_rate c <> 0 ->
  (forall users, music_dir_ok w c /\ address_ok w c /\ users_are w c users <->
     exists l, server_run w c = Ok (l, inr users) /\ In (Listens (sc_listen c)) l /\ (forall line, ~ In (Complains line) l))
  /\ (~ (music_dir_ok w c /\ address_ok w c /\ users_ok w c) <-> exists l code, server_run w c = Ok (l, inl code))
  /\ (forall l code, server_run w c = Ok (l, inl code) -> code = 1).
Proof.
  intros w c Hr.
  assert (R : server_run w c = match check_dir w (sc_music_dir c) with
    | Some e => Ok ([Complains (T "invalid music dir: " ++ e)], inl 1)
    | None => match start_server w (sc_listen c) with
      | (l, Some e) => Ok (l ++ [Complains e], inl 1)
      | (l, None) => match read_users_file w (sc_users c) with inl e => Ok (l ++ [Complains e], inl 1) | inr users => Ok (l, inr users) end end end).
  { unfold server_run. destruct (check_dir w (sc_music_dir c)); [reflexivity|]. unfold chunk_time.
    replace (sc_sample_rate c =? 0) with false by (symmetry; now apply Z.eqb_neq). reflexivity. }
  rewrite R. clear R. unfold check_dir, start_server, music_dir_ok, address_ok, users_ok.
  destruct (stat w (sc_music_dir c)) as [e|[|]] eqn:ES; [| |].
  - split; [|split].
    + intros users. split; [intros (H & _); discriminate H|intros (l & H & _); discriminate H].
    + split; [intros _; eauto|intros _ (H & _); discriminate H].
    + intros l code H. injection H as _ <-. reflexivity.
  - destruct (listen w [] (sc_listen c)) as [e|] eqn:EL; cbn [app].
    + split; [|split].
      * intros users. split; [intros (_ & H & _); discriminate H|intros (l & H & _); discriminate H].
      * split; [intros _; eauto|intros _ (_ & H & _); discriminate H].
      * intros l code H. injection H as _ <-. reflexivity.
    + destruct (read_users_file w (sc_users c)) as [e|us] eqn:EU.
      * split; [|split].
        -- intros users. split; [intros (_ & _ & H); apply users_file_is in H; congruence|intros (l & H & _); discriminate H].
        -- split; [intros _; eauto|]. intros _ (_ & _ & users & H). apply users_file_is in H. congruence.
        -- intros l code H. injection H as _ <-. reflexivity.
      * split; [|split].
        -- intros users. split.
           ++ intros (_ & _ & H). apply users_file_is in H. rewrite EU in H. injection H as ->. eexists. split; [reflexivity|]. split; [right; now left|].
              intros line [H|[H|[H|H]]]; [discriminate H..|exact H].
           ++ intros (l & H & _). injection H as _ <-. split; [reflexivity|]. split; [reflexivity|]. now apply users_file_is.
        -- split; [|intros (l & code & H); discriminate H]. intros H. exfalso. apply H. split; [reflexivity|]. split; [reflexivity|].
           exists us. now apply users_file_is.
        -- intros l code H. discriminate H.
  - split; [|split].
    + intros users. split; [intros (H & _); discriminate H|intros (l & H & _); discriminate H].
    + split; [intros _; eauto|intros _ (H & _); discriminate H].
    + intros l code H. injection H as _ <-. reflexivity.
Qed.
Print Assumptions C119_stays_or_leaves.

(** Before it leaves it names on standard error what it could not use; without a music
    directory it has not opened a port. *)
Theorem C119_says_why : forall (w : world) (c : server_config) (l : list event) (code : Z),
  server_run w c = Ok (l, inl code) ->
  (~ music_dir_ok w c /\ told l (sc_music_dir c) /\ (forall a, ~ In (Listens a) l))
  \/ (music_dir_ok w c /\ ~ address_ok w c /\ told l (sc_listen c) /\ (forall a, ~ In (Listens a) l))
  \/ (music_dir_ok w c /\ address_ok w c /\ ~ users_ok w c /\ told l (sc_users c)).
Proof.
  intros w c l code H. unfold server_run in H. unfold music_dir_ok, address_ok.
  destruct (check_dir w (sc_music_dir c)) as [e|] eqn:ED.
  - left. injection H as <- _. unfold check_dir in ED.
    assert (M : mentions e (sc_music_dir c) /\ stat w (sc_music_dir c) <> inr true).
    { destruct (stat w (sc_music_dir c)) as [x|[|]]; [injection ED as <-|discriminate ED|injection ED as <-]; (split; [|discriminate]).
      - exists (T "failed to access "), (T ": " ++ x). reflexivity.
      - exists [], (T " is not a directory"). reflexivity. }
    destruct M as [(a & b & ->) M]. split; [exact M|]. split; [|intros x [X|[]]; discriminate X].
    eexists. split; [now left|]. exists (T "invalid music dir: " ++ a), b. rewrite <- app_assoc. reflexivity.
  - right. assert (stat w (sc_music_dir c) = inr true) as ES by (unfold check_dir in ED; destruct (stat w (sc_music_dir c)) as [x|[|]]; congruence).
    destruct (chunk_time (sc_chunk_size c) (sc_sample_rate c)) as [t|]; [|discriminate H]. cbn [obind] in H. unfold start_server in H.
    destruct (listen w [] (sc_listen c)) as [e|] eqn:EL.
    + left. injection H as <- _. split; [exact ES|]. split; [discriminate|]. split.
      * eexists. split; [right; right; now left|]. exists (T "failed to start server at "), (T ": " ++ e). reflexivity.
      * intros x [X|[X|[X|[]]]]; discriminate X.
    + right. destruct (read_users_file w (sc_users c)) as [e|us] eqn:EU; [|discriminate H]. injection H as <- _.
      split; [exact ES|]. split; [reflexivity|]. split; [apply users_file_error; eauto|].
      exists e. split; [cbn [app]; right; right; right; now left|]. now apply users_error_names in EU.
Qed.
Print Assumptions C119_says_why.

(** The log of a server that runs says that it starts and, once it listens, that it runs, with its address. *)
Theorem C119_running_says : forall (w : world) (c : server_config) (l : list event) users,
  server_run w c = Ok (l, inr users) ->
  l = [Logged 2 (starting_line c); Listens (sc_listen c); Logged 2 (running_line c)].
Proof.
  intros w c l users H. unfold server_run in H. destruct (check_dir w (sc_music_dir c)); [discriminate H|].
  destruct (chunk_time (sc_chunk_size c) (sc_sample_rate c)); [|discriminate H]. cbn [obind] in H. unfold start_server in H.
  destruct (listen w [] (sc_listen c)); [discriminate H|]. destruct (read_users_file w (sc_users c)); [discriminate H|].
  injection H as <- _. reflexivity.
Qed.
Print Assumptions C119_running_says.

Section Shell.
Variable key : Type.
Variable parse_public_key : text -> option key.
Variable marshal_key : key -> text.
Notation shell := (shell key parse_public_key marshal_key).

Lemma file_ok_is w p : file_ok w p = true <-> stat w p = inr false.
Proof. unfold file_ok, check_file. destruct (stat w p) as [e|[|]]; split; congruence. Qed.
Lemma shell_is w c users : snd (shell w c users) =
  (let auth := new_server key (ssh_options key parse_public_key marshal_key users (file_ok w) (sc_host_key c)) in
   if negb (text_eqb (sc_host_key c) []) && file_ok w (sc_host_key c) then
     match contents w (sc_host_key c) with
     | inl _ => None
     | inr b => match private_key w b with
                | inl _ => None
                | inr k => match listen w [sc_listen c] (match sc_ssh_listen c with [] => T ":22" | _ => sc_ssh_listen c end) with None => Some (auth, Some k) | Some _ => None end
                end
     end
   else match listen w [sc_listen c] (match sc_ssh_listen c with [] => T ":22" | _ => sc_ssh_listen c end) with None => Some (auth, None) | Some _ => None end)%bool.
Proof.
  unfold StartModel.shell, start_ssh, listen_and_serve, ssh_options, host_key_option. cbv zeta.
  destruct (text_eqb (sc_host_key c) []); cbn [negb andb app set_options set_option fst snd].
  - destruct (listen w _ _); reflexivity.
  - destruct (file_ok w (sc_host_key c)); cbn [app set_options set_option fst snd]; [|destruct (listen w _ _); reflexivity].
    destruct (contents w (sc_host_key c)) as [e|b]; [reflexivity|]. destruct (private_key w b) as [e|k]; [reflexivity|]. destruct (listen w _ _); reflexivity.
Qed.

(** The shell is there iff its address is free and the host key file, if it is a file, holds a
    key; it lets in whom AuthModel says for these users (C60), and its host key is the one of
    the file if there is one. *)
Theorem C119_shell_partial : forall w c users,
  ((exists s, snd (shell w c users) = Some s)
   <-> shell_address_ok w c /\ (is_file w (sc_host_key c) -> exists k, holds_key w (sc_host_key c) k))
  /\ (forall s k, snd (shell w c users) = Some (s, k) ->
        (forall user a, accepts key s user a = true <-> authorised key parse_public_key marshal_key users user a)
        /\ (is_file w (sc_host_key c) /\ (exists h, k = Some h /\ holds_key w (sc_host_key c) h)
            \/ ~ is_file w (sc_host_key c) /\ k = None)).
Proof.
  intros w c users. rewrite shell_is. cbv zeta. unfold shell_address_ok.
  set (serv := new_server key (ssh_options key parse_public_key marshal_key users (file_ok w) (sc_host_key c))).
  assert (A : forall user a, accepts key serv user a = true <-> authorised key parse_public_key marshal_key users user a) by (intros; apply C60_login).
  clearbody serv. set (free := listen w [sc_listen c] _). clearbody free.
  assert (F : (negb (text_eqb (sc_host_key c) []) && file_ok w (sc_host_key c))%bool = true <-> is_file w (sc_host_key c)).
  { rewrite andb_true_iff, negb_true_iff, file_ok_is. unfold is_file. rewrite <- (text_eqb_eq (sc_host_key c) []).
    destruct (text_eqb (sc_host_key c) []); intuition congruence. }
  destruct (negb (text_eqb (sc_host_key c) []) && file_ok w (sc_host_key c))%bool.
  - assert (I : is_file w (sc_host_key c)) by now apply F. unfold holds_key.
    destruct (contents w (sc_host_key c)) as [e|b]; [|destruct (private_key w b) as [e|k] eqn:EK].
    + split; [|discriminate]. split; [intros (s & H); discriminate H|]. intros (_ & H). destruct (H I) as (k & b & H1 & _). discriminate H1.
    + split; [|discriminate]. split; [intros (s & H); discriminate H|]. intros (_ & H). destruct (H I) as (k & b' & H1 & H2). congruence.
    + destruct free.
      * split; [|discriminate]. split; [intros (s & H); discriminate H|intros (H & _); discriminate H].
      * split; [split; [|eauto]; intros _; split; [reflexivity|]; intros _; exists k, b; split; [reflexivity|exact EK]|].
        intros s k' H. injection H as <- <-. split; [exact A|]. left. split; [exact I|]. exists k. split; [reflexivity|]. exists b. now split.
  - assert (I : ~ is_file w (sc_host_key c)) by (intros I; apply F in I; discriminate I). destruct free.
    + split; [|discriminate]. split; [intros (s & H); discriminate H|intros (H & _); discriminate H].
    + split; [split; [|eauto]; intros _; split; [reflexivity|]; intros X; contradiction|].
      intros s k' H. injection H as <- <-. split; [exact A|]. right. now split.
Qed.

(** The log of the shell: what there is to say about the host key, that it starts, with its address, and, iff it
    is not there, one error line with the address. *)
Theorem C119_shell_says : forall w c users,
  exists said rest, fst (shell w c users) = said ++ Logged 2 (shell_starting_line c) :: rest /\ host_key_said w c said /\
    match snd (shell w c users) with
    | Some _ => rest = []
    | None => exists line, rest = [Logged 4 line] /\ mentions line (T "ssh server at " ++ sc_ssh_listen c ++ T " stopped")
    end.
Proof.
  intros w c users. unfold StartModel.shell, start_ssh. exists (host_key_log w (sc_host_key c)).
  assert (HK : host_key_said w c (host_key_log w (sc_host_key c))).
  { unfold host_key_said, host_key_log. destruct (text_eqb (sc_host_key c) []) eqn:E.
    - left. apply text_eqb_eq in E. now split.
    - assert (N : sc_host_key c <> []) by (intros X; apply text_eqb_eq in X; congruence). right.
      unfold check_file. destruct (stat w (sc_host_key c)) as [e|[|]].
      + right. split; [exact N|]. eexists. split; [reflexivity|]. split; [|split].
        * exists [], (T ", generating new host key: failed to access " ++ sc_host_key c ++ T ": " ++ e). reflexivity.
        * exists (T "unable to access host key file, generating new host key: failed to access "), (T ": " ++ e). reflexivity.
        * right. exists e. split; [reflexivity|]. split.
          -- exists (T "unable to access host key file, generating new host key: "), (T " " ++ sc_host_key c ++ T ": " ++ e). reflexivity.
          -- exists (T "unable to access host key file, generating new host key: failed to access " ++ sc_host_key c ++ T ": "), [].
             rewrite app_nil_r, <- !app_assoc. reflexivity.
      + right. split; [exact N|]. eexists. split; [reflexivity|]. split; [|split].
        * exists [], (T ", generating new host key: " ++ sc_host_key c ++ T " is directory"). reflexivity.
        * exists (T "unable to access host key file, generating new host key: "), (T " is directory"). reflexivity.
        * left. split; [reflexivity|]. exists (T "unable to access host key file, generating new host key: " ++ sc_host_key c ++ T " "), [].
          rewrite app_nil_r, <- !app_assoc. reflexivity.
      + left. now repeat split. }
  destruct (listen_and_serve _ _ _ _ _) as [x|s]; cbn [fst snd].
  - exists [Logged 4 (T "ssh server at " ++ sc_ssh_listen c ++ T " stopped: " ++ x)]. split; [now rewrite <- app_assoc|]. split; [exact HK|].
    eexists. split; [reflexivity|]. exists [], (T ": " ++ x). cbn [app]. rewrite <- !app_assoc. reflexivity.
  - exists []. split; [reflexivity|]. split; [exact HK|reflexivity].
Qed.

(** But without a shell nobody can control the server, and it runs all the same: a host key
    file that is no key, or a shell address that is in use, costs a line in the log - none if
    errors are not logged. *)
Theorem C119_no_shell_refuted : forall w c,
  sc_sample_rate c <> 0 -> music_dir_ok w c -> address_ok w c -> users_ok w c ->
  is_file w (sc_host_key c) /\ (forall k, ~ holds_key w (sc_host_key c) k) \/ ~ shell_address_ok w c ->
  exists l users, server_run w c = Ok (l, inr users) /\ (forall line, ~ In (Complains line) l)
    /\ snd (shell w c users) = None
    /\ (forall e, In e (fst (shell w c users)) -> exists level msg, e = Logged level msg /\ level <= LevelError).
Proof.
  intros w c Hr H1 H2 (users & H3) H4. destruct (C119_stays_or_leaves w c Hr) as [S _]. destruct (proj1 (S users)) as (l & R & _ & N); [now repeat split|].
  exists l, users. split; [exact R|]. split; [exact N|]. split.
  - destruct (snd (shell w c users)) as [s|] eqn:E; [|reflexivity]. exfalso.
    destruct (C119_shell_partial w c users) as [I _]. destruct (proj1 I) as [I1 I2]; [rewrite E; eauto|].
    destruct H4 as [[F K]|A]; [|exact (A I1)]. destruct (I2 F) as (k & X). exact (K k X).
  - assert (W : forall e, In e (host_key_log w (sc_host_key c)) -> exists level msg, e = Logged level msg /\ level <= LevelError).
    { intros e. unfold host_key_log. destruct (text_eqb _ []); [|destruct (check_file _ _)].
      - intros [<-|[]]. eexists. eexists. split; [reflexivity|]. unfold LevelWarn, LevelError. lia.
      - intros [<-|[]]. eexists. eexists. split; [reflexivity|]. unfold LevelWarn, LevelError. lia.
      - intros []. }
    intros e. unfold StartModel.shell, start_ssh. destruct (listen_and_serve _ _ _ _ _) as [x|s]; cbn [fst].
    + rewrite !in_app_iff. intros [[H|[<-|[]]]|[<-|[]]]; [now apply W| |]; eexists; eexists; (split; [reflexivity|]); unfold LevelInfo, LevelError; lia.
    + rewrite in_app_iff. intros [H|[<-|[]]]; [now apply W|]. eexists. eexists. split; [reflexivity|]. unfold LevelInfo, LevelError; lia.
Qed.
End Shell.
Print Assumptions C119_shell_partial.
Print Assumptions C119_shell_says.
Print Assumptions C119_no_shell_refuted.

(** A world with a music directory, a users file and a file that is no key, in which an address
    in use cannot be used again; the configurations are those of command lines. *)
Definition ex_world : world := {|
  stat p := if text_eqb p (T "audio") then inr true
            else if text_eqb p (T "id_rsa") || text_eqb p (T "notes.txt") then inr false else inl (T "no such file");
  contents p := if text_eqb p (T "users.json") then inr (T "{}") else if text_eqb p (T "id_rsa") then inr (T "KEY")
                else if text_eqb p (T "notes.txt") then inr (T "hello") else inl (T "no such file");
  json_error _ := T "bad";
  private_key b := if text_eqb b (T "KEY") then inr (T "key") else inl (T "ssh: no key found");
  listen bound a := if existsb (text_eqb a) bound then Some (T "address already in use") else None |}%bool.
Definition ex_config (args : list text) : server_config :=
  match server_main args with Runs c => c | _ => server_action [] end.
Definition shell_is_there (c : server_config) : option (option text) :=
  match snd (shell text (fun b => Some b) (fun b => b) ex_world c []) with Some (_, k) => Some k | None => None end.
Definition ends_with (c : server_config) : option (list text) :=
  match server_run ex_world c with
  | Ok (l, inl _) => Some (flat_map (fun e => match e with Complains t => [t] | _ => [] end) l)
  | _ => None
  end.
Example C119_example :
  let c := ex_config in
  ends_with (c []) = None /\ shell_is_there (c []) = Some (Some (T "key"))
  /\ shell_is_there (c [T "-k"; T "nowhere"]) = Some None /\ shell_is_there (c [T "-k"; T "audio"]) = Some None
  /\ ends_with (c [T "-d"; T "x"]) = Some [T "invalid music dir: failed to access x: no such file"]
  /\ ends_with (c [T "-d"; T "id_rsa"]) = Some [T "invalid music dir: id_rsa is not a directory"]
  /\ ends_with (c [T "-u"; T "notes.txt"]) = Some [T "failed to decode users file (notes.txt): bad"]
  /\ ends_with (c [T "-u"; T "u"]) = Some [T "failed to open users file (u): no such file"]
  (* the two ways to be left without a shell *)
  /\ (ends_with (c [T "-k"; T "notes.txt"]) = None /\ shell_is_there (c [T "-k"; T "notes.txt"]) = None)
  /\ (ends_with (c [T "-p"; T "13334"]) = None /\ shell_is_there (c [T "-p"; T "13334"]) = None).
Proof. vm_compute. repeat split; reflexivity. Qed.
