(** C107: what a command line makes a program do.
    C108: the numbers and durations on it. *)
From Coq Require Import String.
From Verif Require Import GoBase GoBaseFacts GoFmt PlaylistModel NumberSpec FloatTextSpec FloatTextProofs CliModel CliSpec CliNumProofs CliDurationProofs CliProofs CliRunProofs.
Local Open Scope Z_scope.
Local Open Scope bool_scope.

(* ------------------------------------------------------------------ *)
(** ** Checks of the tables *)

Definition name_okb (n : text) : bool := match n with [] => false | c :: r => negb (c =? 45)%N && negb (c =? 61)%N && negb (existsb (N.eqb 61) r) end.
Lemma name_okb_ok n : name_okb n = true -> name_ok n.
Proof.
  destruct n as [|c r]; [discriminate|]. unfold name_okb. rewrite !andb_true_iff, !negb_true_iff. intros [[A B] D]. apply N.eqb_neq in A, B. cbn. repeat split; auto.
  intros I. apply not_true_iff_false in D. apply D. apply existsb_exists. exists 61%N. split; [exact I|reflexivity].
Qed.
Fixpoint nodupb (l : list text) : bool := match l with [] => true | n :: r => negb (existsb (text_eqb n) r) && nodupb r end.
Lemma nodupb_ok l : nodupb l = true -> NoDup l.
Proof.
  induction l as [|n l IH]; [constructor|]. cbn [nodupb]. rewrite andb_true_iff, negb_true_iff. intros [A B]. constructor; [|now apply IH].
  intros I. apply existsb_in in I. congruence.
Qed.
Definition validb (x : option_) : bool :=
  match o_kind x, o_default x with
  | KString, VText _ | KBool, VBool _ => true
  | KInt, VNumber z => (- 2 ^ 63 <=? z) && (z <? 2 ^ 63)
  | KUint, VNumber z => (0 <=? z) && (z <? 2 ^ 64)
  | KDuration, VNumber z => (- 2 ^ 63 <? z) && (z <? 2 ^ 63)
  | _, _ => false
  end.
Lemma validb_ok x : validb x = true -> valid (o_kind x) (o_default x).
Proof. unfold validb, valid. destruct (o_kind x), (o_default x); try discriminate; try (intros _; exact I); rewrite andb_true_iff; lia. Qed.

(** the tables of the code are those of the specification *)
Lemma server_table : map option_of (server_flags ++ [help_flag; version_flag]) = server_options. Proof. vm_compute. reflexivity. Qed.
Lemma player_table : map option_of (player_flags ++ [help_flag; version_flag]) = player_options. Proof. vm_compute. reflexivity. Qed.
Lemma infoer_table : map option_of (infoer_flags ++ [help_flag; version_flag]) = infoer_options. Proof. vm_compute. reflexivity. Qed.

Section Any.
  Context {C : Type} (flags : list cli_flag) (action : flag_set -> C) (o : list option_) (settings : (text -> value) -> C).
  Context (Tab : map option_of (flags ++ [help_flag; version_flag]) = o)
    (Reg : new_flag_set (flags ++ [help_flag; version_flag]) [] = Ok (table o))
    (OKb : forallb name_okb (names o) = true) (NDb : nodupb (names o) = true) (VDb : forallb validb o = true)
    (NEb : forallb (fun x => negb (length (o_forms x) =? 0)%nat) o = true)
    (Ih : In (opt KBool [T "help"; T "h"] (VBool false)) o) (Iv : In (opt KBool [T "version"; T "v"] (VBool false)) o)
    (Act : forall fs f, (forall x, In x o -> lookup fs (hd [] (o_forms x)) = Some (o_kind x, f (hd [] (o_forms x))) /\ valid (o_kind x) (f (hd [] (o_forms x)))) ->
      action fs = settings f).

  Lemma OK : Forall name_ok (names o).
  Proof. apply Forall_forall. intros n I. apply name_okb_ok. rewrite forallb_forall in OKb. now apply OKb. Qed.
  Lemma ND : NoDup (names o). Proof. now apply nodupb_ok. Qed.
  Lemma VD : forall x, In x o -> valid (o_kind x) (o_default x).
  Proof. intros x I. apply validb_ok. rewrite forallb_forall in VDb. now apply VDb. Qed.
  Lemma NE : forall x, In x o -> o_forms x <> [].
  Proof. intros x I E. rewrite forallb_forall in NEb. specialize (NEb x I). rewrite E in NEb. discriminate. Qed.

  Lemma any_proper args f extra : ~ completing args -> proper o args f extra -> exists fs, action fs = settings f /\
    valid KBool (f (T "help")) /\ valid KBool (f (T "version")) /\ app_run flags action args = asks action f extra fs.
  Proof.
    intros NC P. apply shell_complete_not in NC. pose proof OK as OK'. pose proof ND as ND'. pose proof VD as VD'. pose proof NE as NE'. rewrite <- Tab in *.
    destruct (proper_run flags action OK' ND' Reg VD' Ih Iv NE' args f extra NC P) as (fs & L & E). exists fs.
    split; [now apply Act|]. split; [exact (proj2 (L _ Ih))|]. split; [exact (proj2 (L _ Iv))|]. exact E.
  Qed.
  Lemma any_improper args : ~ completing args -> (forall f extra, ~ proper o args f extra) -> app_run flags action args = Refused.
  Proof.
    intros NC P. apply shell_complete_not in NC. pose proof OK as OK'. pose proof ND as ND'. pose proof VD as VD'. pose proof NE as NE'. rewrite <- Tab in *.
    now apply (improper_run flags action OK' ND' Reg VD' NE').
  Qed.
  Lemma any_completing args c : completing args -> app_run flags action args <> Runs c.
  Proof. intros H. rewrite <- Tab in *. now apply (completion_run flags action Reg). Qed.

  Lemma switch (f : text -> value) n : valid KBool (f n) -> match f n with VBool b => b | _ => false end = false -> f n = VBool false.
  Proof. destruct (f n) as [t|z|[|]]; cbn; try contradiction; try discriminate; reflexivity. Qed.

  (** excluded middle for command lines: the parser decides *)
  Lemma any_dec args : ~ completing args -> (exists f extra, proper o args f extra) \/ (forall f extra, ~ proper o args f extra).
  Proof.
    intros NC. apply shell_complete_not in NC. pose proof OK as OK'. pose proof ND as ND'. pose proof VD as VD'. pose proof NE as NE'. rewrite <- Tab in *.
    exact (proper_dec flags OK' ND' VD' NE' args).
  Qed.
  Lemma any_runs args c : app_run flags action args = Runs c <-> exists f extra, starts_with o args f extra /\ c = settings f.
  Proof.
    assert (CD : completing args \/ ~ completing args).
    { destruct (shell_complete_dec args) as [H|H]; [right; now apply shell_complete_not|left; exact H]. }
    split.
    - intros H. destruct CD as [Cm|NC]; [exfalso; exact (any_completing args c Cm H)|].
      destruct (any_dec args NC) as [(f & extra & P)|P]; [|rewrite (any_improper args NC P) in H; discriminate].
      destruct (any_proper args f extra NC P) as (fs & A & Vh & Vv & E). rewrite E in H. unfold asks in H.
      destruct (match f (T "help") with VBool b => b | _ => false end) eqn:Hh; [discriminate|].
      destruct (match f (T "version") with VBool b => b | _ => false end) eqn:Hv; [discriminate|].
      exists f, extra. split; [split; [exact P|]; split; [exact NC|]; split; [now apply switch|]; split; [now apply switch|]|].
      + intros r. split; intros ->; discriminate.
      + rewrite <- A. destruct extra as [|n r]; [congruence|]. destruct (text_eqb n (T "help") || text_eqb n (T "h")); [discriminate|congruence].
    - intros (f & extra & (P & NC & Oh & Ov & X) & ->). destruct (any_proper args f extra NC P) as (fs & A & _ & _ & E). rewrite E. unfold asks.
      unfold off in *. rewrite Oh, Ov, A. destruct extra as [|n r]; [reflexivity|].
      destruct (text_eqb n (T "help")) eqn:N1; [apply text_eqb_eq in N1 as ->; destruct (X r) as [Q _]; now destruct Q|].
      destruct (text_eqb n (T "h")) eqn:N2; [apply text_eqb_eq in N2 as ->; destruct (X r) as [_ Q]; now destruct Q|]. reflexivity.
  Qed.
  Lemma any_refuses args : ~ completing args -> app_run flags action args = Refused <-> forall f extra, ~ proper o args f extra.
  Proof.
    intros NC. split; [|now apply any_improper]. intros H f extra P. destruct (any_proper args f extra NC P) as (fs & _ & _ & _ & E). rewrite E in H. unfold asks in H.
    destruct (match f (T "help") with VBool b => b | _ => false end); [discriminate|]. destruct (match f (T "version") with VBool b => b | _ => false end); [discriminate|].
    destruct extra as [|n r]; [discriminate|]. destruct (_ || _); discriminate.
  Qed.
  Lemma any_asks args f extra : ~ completing args -> proper o args f extra ->
    (f (T "help") = VBool true -> app_run flags action args = Helps) /\
    (off f "help" -> f (T "version") = VBool true -> app_run flags action args = Versions).
  Proof.
    intros NC P. destruct (any_proper args f extra NC P) as (fs & _ & _ & _ & E). rewrite E. unfold asks, off. split; [now intros ->|now intros -> ->].
  Qed.
  (** two forms of an option *)
  Lemma any_two_forms args l extra : ~ completing args -> command_line o args l extra -> ~ one_form_each o l -> app_run flags action args = Refused.
  Proof.
    intros NC CL NOF. apply any_improper; [exact NC|]. intros f extra' (l' & CL' & OF' & _). pose proof OK as OK'. pose proof ND as ND'.
    pose proof (parse_complete o OK' _ _ _ CL (table o) [] (table_shape o ND')) as P1.
    pose proof (parse_complete o OK' _ _ _ CL' (table o) [] (table_shape o ND')) as P2. rewrite P1 in P2. injection P2 as _ E _.
    apply NOF. rewrite !app_nil_r in E. apply (f_equal (@rev _)) in E. rewrite !rev_involutive in E.
    intros x n m Ix In_ Im An Am. rewrite E in An, Am. exact (OF' x n m Ix In_ Im An Am).
  Qed.
  (** what follows an argument that is no option *)
  Lemma any_stray args f a rest : proper o args f [] -> plain_argument a -> a <> T "help" -> a <> T "h" -> ~ completing args -> ~ completing (args ++ a :: rest) ->
    app_run flags action (args ++ a :: rest) = app_run flags action args.
  Proof.
    intros (l & CL & OF & V) Pa Nh Nh' NC NC'.
    assert (CL' : command_line o (args ++ a :: rest) l (a :: rest)).
    { clear - CL Pa. remember [] as e eqn:E in CL. revert E. induction CL; intros E; subst; cbn [app]; try (constructor; auto; fail).
      - discriminate.
      - eapply line_joined; eauto.
      - eapply line_next; eauto. }
    destruct (any_proper args f [] NC (ex_intro _ l (conj CL (conj OF V)))) as (fs & A & _ & _ & E).
    destruct (any_proper _ f (a :: rest) NC' (ex_intro _ l (conj CL' (conj OF V)))) as (fs' & A' & _ & _ & E').
    rewrite E, E'. unfold asks. apply text_eqb_neq in Nh, Nh'. rewrite Nh, Nh'. cbn [orb]. rewrite A, A'. reflexivity.
  Qed.
End Any.

Definition holds (o : list option_) (fs : flag_set) (f : text -> value) : Prop :=
  forall x, In x o -> lookup fs (hd [] (o_forms x)) = Some (o_kind x, f (hd [] (o_forms x))) /\ valid (o_kind x) (f (hd [] (o_forms x))).
Ltac pick := unfold server_options, player_options, infoer_options, address_options, log_options, ask_options; cbn [map app In]; repeat ((left; reflexivity) || right).
Definition main_kind (o : list option_) (n : text) : option kind := option_map o_kind (find (fun x => text_eqb (hd [] (o_forms x)) n) o).
Lemma main_at o fs f n k : holds o fs f -> main_kind o n = Some k -> lookup fs n = Some (k, f n) /\ valid k (f n).
Proof.
  unfold main_kind. intros H M. destruct (find _ o) as [x|] eqn:F; [|discriminate]. injection M as <-. apply find_some in F as [I E].
  apply text_eqb_eq in E as <-. exact (H x I).
Qed.
Lemma text_at o fs f n : holds o fs f -> main_kind o n = Some KString -> ctx_string fs n = text_in (f n).
Proof. intros H M. destruct (main_at o fs f n _ H M) as [L V]. unfold ctx_string. rewrite L. destruct (f n); try contradiction. reflexivity. Qed.
Lemma number_at o fs f k n : holds o fs f -> main_kind o n = Some k -> k = KInt \/ k = KUint \/ k = KDuration -> ctx_number k fs n = number_in (f n).
Proof.
  intros H M K. destruct (main_at o fs f n _ H M) as [L V]. unfold ctx_number. rewrite L, (round_trip _ _ V).
  destruct K as [->|[->| ->]]; destruct (f n); try contradiction; reflexivity.
Qed.
Lemma logging_at o fs f : holds o fs f -> forallb (fun n => match main_kind o n with Some KString => true | _ => false end) (map LoggingModel.flag_key (LoggingModel.logging_flags ++ [T "logging"])) = true ->
  logging_of fs = log_levels f.
Proof.
  intros H B. rewrite forallb_forall in B. transitivity (map (fun n => text_in (f n)) (map LoggingModel.flag_key (LoggingModel.logging_flags ++ [T "logging"]))); [|reflexivity].
  unfold logging_of. rewrite map_map. apply map_ext_in. intros n I. apply (in_map LoggingModel.flag_key) in I. specialize (B _ I).
  destruct (main_kind o (LoggingModel.flag_key n)) as [k|] eqn:M; [|discriminate]. destruct k; try discriminate. exact (text_at o fs f _ H M).
Qed.
Lemma server_act fs f : holds server_options fs f -> server_action fs = server_settings f.
Proof.
  intros H. pose proof (fun n => text_at _ fs f (T n) H) as Te. pose proof (fun n k => number_at _ fs f k (T n) H) as Nu.
  unfold server_action, server_settings, str_of, int_of, dur_of, address, given, number, address_port.
  change (key listen_address_flag) with (T "address").
  change (key ssh_address_flag) with (T "ssh-address").
  change (key music_dir_flag) with (T "music-dir").
  change (key ssh_users_flag) with (T "users-file").
  change (key ssh_key_flag) with (T "host-key").
  change (key listen_port_flag) with (T "port").
  change (key ssh_port_flag) with (T "ssh-port").
  change (key sync_cycles_flag) with (T "time-sync-cycles").
  change (key chunk_size_flag) with (T "stream-chunk-size").
  change (key nan_break_flag) with (T "song-break-size").
  change (key sample_rate_flag) with (T "sample-rate").
  change (key sync_interval_flag) with (T "time-sync-interval").
  change (key sync_cycle_delay_flag) with (T "time-sync-cycle-delay").
  change (key start_delay_flag) with (T "stream-start-delay").
  change (key stream_delay_flag) with (T "stream-delay").
  rewrite (Te "address"%string eq_refl), (Te "ssh-address"%string eq_refl), (Te "music-dir"%string eq_refl), (Te "users-file"%string eq_refl), (Te "host-key"%string eq_refl).
  rewrite (Nu "port"%string KInt eq_refl (or_introl eq_refl)), (Nu "ssh-port"%string KInt eq_refl (or_introl eq_refl)), (Nu "time-sync-cycles"%string KInt eq_refl (or_introl eq_refl)), (Nu "stream-chunk-size"%string KInt eq_refl (or_introl eq_refl)), (Nu "song-break-size"%string KInt eq_refl (or_introl eq_refl)), (Nu "sample-rate"%string KInt eq_refl (or_introl eq_refl)), (Nu "time-sync-interval"%string KDuration eq_refl (or_intror (or_intror eq_refl))), (Nu "time-sync-cycle-delay"%string KDuration eq_refl (or_intror (or_intror eq_refl))), (Nu "stream-start-delay"%string KDuration eq_refl (or_intror (or_intror eq_refl))), (Nu "stream-delay"%string KDuration eq_refl (or_intror (or_intror eq_refl))).
  rewrite (logging_at _ fs f H eq_refl). reflexivity.
Qed.
Lemma player_act fs f : holds player_options fs f -> player_action fs = player_settings f.
Proof.
  intros H. pose proof (fun n => text_at _ fs f (T n) H) as Te. pose proof (fun n k => number_at _ fs f k (T n) H) as Nu.
  unfold player_action, player_settings, str_of, int_of, dur_of, address, given, number, address_port.
  change (key server_address_flag) with (T "address").
  change (key server_port_flag) with (T "port").
  change (key sample_rate_flag) with (T "sample-rate").
  rewrite (Te "address"%string eq_refl).
  rewrite (Nu "port"%string KInt eq_refl (or_introl eq_refl)), (Nu "sample-rate"%string KInt eq_refl (or_introl eq_refl)).
  rewrite (logging_at _ fs f H eq_refl). reflexivity.
Qed.
Lemma infoer_act fs f : holds infoer_options fs f -> infoer_action fs = infoer_settings f.
Proof.
  intros H. pose proof (fun n => text_at _ fs f (T n) H) as Te. pose proof (fun n k => number_at _ fs f k (T n) H) as Nu.
  unfold infoer_action, infoer_settings, str_of, int_of, dur_of, address, given, number, address_port.
  change (key server_address_flag) with (T "address").
  change (key server_port_flag) with (T "port").
  change (key sample_rate_flag) with (T "sample-rate").
  change (key history_flag) with (T "lyrics-history-size").
  rewrite (Te "address"%string eq_refl).
  rewrite (Nu "port"%string KInt eq_refl (or_introl eq_refl)), (Nu "sample-rate"%string KInt eq_refl (or_introl eq_refl)), (Nu "lyrics-history-size"%string KUint eq_refl (or_intror (or_introl eq_refl))).
  destruct (main_at _ fs f (T "lyrics-history-size") KUint H eq_refl) as [_ V]. f_equal.
  destruct (f (T "lyrics-history-size")) as [t|z|b]; try contradiction. cbn [number_in valid] in *.
  unfold wrap64. destruct (Z.ltb_spec z (2 ^ 63)); [rewrite Z.mod_small by lia; lia|].
  replace (z + 2 ^ 63) with (z - 2 ^ 63 + 1 * 2 ^ 64) by lia. rewrite Z.mod_add by lia. rewrite Z.mod_small by lia. lia.
Qed.
Lemma server_reg : new_flag_set (server_flags ++ [help_flag; version_flag]) [] = Ok (table server_options). Proof. vm_compute. reflexivity. Qed.
Lemma player_reg : new_flag_set (player_flags ++ [help_flag; version_flag]) [] = Ok (table player_options). Proof. vm_compute. reflexivity. Qed.
Lemma infoer_reg : new_flag_set (infoer_flags ++ [help_flag; version_flag]) [] = Ok (table infoer_options). Proof. vm_compute. reflexivity. Qed.

(* ------------------------------------------------------------------ *)
(** ** C107 *)

(** A program starts exactly with the command lines that are proper, with the settings they give. *)
Theorem C107_server_starts args c : server_main args = Runs c <-> exists f extra, starts_with server_options args f extra /\ c = server_settings f.
Proof. apply (any_runs server_flags server_action server_options server_settings server_table server_reg eq_refl eq_refl eq_refl eq_refl); [pick|pick|]. intros fs f H. now apply server_act. Qed.
Theorem C107_player_starts args c : player_main args = Runs c <-> exists f extra, starts_with player_options args f extra /\ c = player_settings f.
Proof. apply (any_runs player_flags player_action player_options player_settings player_table player_reg eq_refl eq_refl eq_refl eq_refl); [pick|pick|]. intros fs f H. now apply player_act. Qed.
Theorem C107_infoer_starts args c : infoer_main args = Runs c <-> exists f extra, starts_with infoer_options args f extra /\ c = infoer_settings f.
Proof. apply (any_runs infoer_flags infoer_action infoer_options infoer_settings infoer_table infoer_reg eq_refl eq_refl eq_refl eq_refl); [pick|pick|]. intros fs f H. now apply infoer_act. Qed.

(** Otherwise it prints the reason and its help, and ends with status 1: exactly if the command
    line is not proper. *)
Theorem C107_refused args : ~ completing args ->
  (server_main args = Refused <-> forall f extra, ~ proper server_options args f extra) /\
  (player_main args = Refused <-> forall f extra, ~ proper player_options args f extra) /\
  (infoer_main args = Refused <-> forall f extra, ~ proper infoer_options args f extra).
Proof.
  intros NC. split; [|split].
  - apply (any_refuses server_flags server_action server_options server_settings server_table server_reg eq_refl eq_refl eq_refl eq_refl); try pick; [|exact NC]. intros fs f H. now apply server_act.
  - apply (any_refuses player_flags player_action player_options player_settings player_table player_reg eq_refl eq_refl eq_refl eq_refl); try pick; [|exact NC]. intros fs f H. now apply player_act.
  - apply (any_refuses infoer_flags infoer_action infoer_options infoer_settings infoer_table infoer_reg eq_refl eq_refl eq_refl eq_refl); try pick; [|exact NC]. intros fs f H. now apply infoer_act.
Qed.

(** With --help it shows its help, with --version its version; with the request for completions
    it does not start. *)
Theorem C107_asked args f extra : ~ completing args ->
  (proper server_options args f extra -> (f (T "help") = VBool true -> server_main args = Helps) /\ (off f "help" -> f (T "version") = VBool true -> server_main args = Versions)) /\
  (proper player_options args f extra -> (f (T "help") = VBool true -> player_main args = Helps) /\ (off f "help" -> f (T "version") = VBool true -> player_main args = Versions)) /\
  (proper infoer_options args f extra -> (f (T "help") = VBool true -> infoer_main args = Helps) /\ (off f "help" -> f (T "version") = VBool true -> infoer_main args = Versions)).
Proof.
  intros NC. split; [|split]; intros P.
  - apply (any_asks server_flags server_action server_options server_settings server_table server_reg eq_refl eq_refl eq_refl eq_refl ltac:(pick) ltac:(pick) (fun fs f H => server_act fs f H) args f extra NC P).
  - apply (any_asks player_flags player_action player_options player_settings player_table player_reg eq_refl eq_refl eq_refl eq_refl ltac:(pick) ltac:(pick) (fun fs f H => player_act fs f H) args f extra NC P).
  - apply (any_asks infoer_flags infoer_action infoer_options infoer_settings infoer_table infoer_reg eq_refl eq_refl eq_refl eq_refl ltac:(pick) ltac:(pick) (fun fs f H => infoer_act fs f H) args f extra NC P).
Qed.

(** An option given in two of its forms (--port 1 -p 2) is refused. *)
Theorem C107_two_forms args l extra : ~ completing args ->
  (command_line server_options args l extra -> ~ one_form_each server_options l -> server_main args = Refused) /\
  (command_line player_options args l extra -> ~ one_form_each player_options l -> player_main args = Refused) /\
  (command_line infoer_options args l extra -> ~ one_form_each infoer_options l -> infoer_main args = Refused).
Proof.
  intros NC. split; [|split]; intros CL NO.
  - exact (any_two_forms server_flags server_action server_options server_settings server_table server_reg eq_refl eq_refl eq_refl eq_refl ltac:(pick) ltac:(pick) (fun fs f H => server_act fs f H) args l extra NC CL NO).
  - exact (any_two_forms player_flags player_action player_options player_settings player_table player_reg eq_refl eq_refl eq_refl eq_refl ltac:(pick) ltac:(pick) (fun fs f H => player_act fs f H) args l extra NC CL NO).
  - exact (any_two_forms infoer_flags infoer_action infoer_options infoer_settings infoer_table infoer_reg eq_refl eq_refl eq_refl eq_refl ltac:(pick) ltac:(pick) (fun fs f H => infoer_act fs f H) args l extra NC CL NO).
Qed.

(** Without options the server, the player and the info client use the same address and the
    same sample rate, and the server streams every four seconds. *)
Theorem C107_defaults : exists s p i, server_main [] = Runs s /\ player_main [] = Runs p /\ infoer_main [] = Runs i /\
  sc_listen s = T "127.0.0.1:13333" /\ cc_server p = sc_listen s /\ cc_server i = sc_listen s /\
  sc_sample_rate s = 44100 /\ cc_sample_rate p = sc_sample_rate s /\ cc_sample_rate i = sc_sample_rate s /\
  sc_ssh_listen s = T "127.0.0.1:13334" /\ sc_music_dir s = T "audio" /\ sc_users s = T "users.json" /\ sc_host_key s = T "id_rsa" /\
  sc_start_delay s = 5000000000 /\ sc_stream_delay s = 15000000000 /\ cc_history i = 5 /\
  LifeModel.server_fate_of {| LifeModel.f_chunk_size := sc_chunk_size s; LifeModel.f_sample_rate := sc_sample_rate s; LifeModel.f_nan_break := sc_nan_break s |} = LifeModel.StreamsEvery 4000000000.
Proof. do 3 eexists. repeat split; vm_compute; reflexivity. Qed.

(** Refuted: not everything on the command line is looked at.  What follows an argument that is
    no option is ignored without a word, whatever it is. *)
Theorem C107_stray_refuted args f a rest : proper server_options args f [] -> plain_argument a -> a <> T "help" -> a <> T "h" ->
  ~ completing args -> ~ completing (args ++ a :: rest) -> server_main (args ++ a :: rest) = server_main args.
Proof.
  exact (any_stray server_flags server_action server_options server_settings server_table server_reg eq_refl eq_refl eq_refl eq_refl ltac:(pick) ltac:(pick) (fun fs f H => server_act fs f H) args f a rest).
Qed.
(** Refuted: README.md names an option --host-key-file (there is none; it is --host-key) and the
    port 1333 for the clients (it is 13333). *)
Theorem C107_readme_refuted key : key <> T "--generate-bash-completion" ->
  server_main [T "--host-key-file"; key] = Refused /\ server_main [T "--host-key-file=" ++ key] = Refused /\
  exists p, player_main [] = Runs p /\ cc_server p <> T "127.0.0.1:1333".
Proof.
  intros NK. split; [|split].
  - unfold server_main, app_run, shell_complete. cbn [rev app]. destruct (text_eqb key completion_arg) eqn:E; [apply text_eqb_eq in E; now destruct NK|]. vm_compute. reflexivity.
  - unfold server_main, app_run, shell_complete. cbn [rev app]. destruct (text_eqb (T "--host-key-file=" ++ key) completion_arg) eqn:E; [apply text_eqb_eq in E; discriminate E|].
    vm_compute. reflexivity.
  - eexists. split; [vm_compute; reflexivity|]. vm_compute. discriminate.
Qed.

(** A command line that asks for completions starts no program, whatever else is on it. *)
Theorem C107_completing args : completing args ->
  (forall c, server_main args <> Runs c) /\ (forall c, player_main args <> Runs c) /\ (forall c, infoer_main args <> Runs c).
Proof.
  intros Cm. split; [|split]; intros c.
  - exact (any_completing server_flags server_action server_options server_settings server_table server_reg eq_refl eq_refl eq_refl eq_refl ltac:(pick) ltac:(pick) (fun fs f H => server_act fs f H) args c Cm).
  - exact (any_completing player_flags player_action player_options player_settings player_table player_reg eq_refl eq_refl eq_refl eq_refl ltac:(pick) ltac:(pick) (fun fs f H => player_act fs f H) args c Cm).
  - exact (any_completing infoer_flags infoer_action infoer_options infoer_settings infoer_table infoer_reg eq_refl eq_refl eq_refl eq_refl ltac:(pick) ltac:(pick) (fun fs f H => infoer_act fs f H) args c Cm).
Qed.

(** No command line makes a program panic while it reads it. *)
Lemma app_no_panic {C} (flags : list cli_flag) (action : flag_set -> C) fs args : new_flag_set (flags ++ [help_flag; version_flag]) [] = Ok fs -> app_run flags action args <> CliPanic.
Proof.
  intros R. unfold app_run. destruct (shell_complete args) as [c a]. rewrite R. destruct (parse a fs []) as [[[ok fs1] actual] rest].
  destruct (normalize _ _ _); [|discriminate]. cbv zeta. destruct (c && _); [discriminate|]. destruct (negb ok && _); [discriminate|].
  destruct (existsb _ _); [discriminate|]. destruct (existsb _ _); [discriminate|]. destruct (match rest with [] => false | n :: _ => _ end); discriminate.
Qed.
Theorem C107_no_panic args : server_main args <> CliPanic /\ player_main args <> CliPanic /\ infoer_main args <> CliPanic.
Proof.
  split; [|split].
  - exact (app_no_panic _ _ _ _ server_reg).
  - exact (app_no_panic _ _ _ _ player_reg).
  - exact (app_no_panic _ _ _ _ infoer_reg).
Qed.

(** The addresses.  The text a program listens on or connects to is taken apart (by package net)
    into the host and the port that were given. *)
Lemma has_in x s : has x s = true <-> In x s.
Proof.
  unfold has. rewrite existsb_exists. split; [intros (y & I & E); apply N.eqb_eq in E as ->; exact I|]. intros I. exists x. split; [exact I|apply N.eqb_refl].
Qed.
Lemma has_not x s : ~ In x s -> has x s = false.
Proof. intros H. apply not_true_iff_false. now rewrite has_in. Qed.
Lemma last_colon_app h p : ~ In 58%N p -> last_colon (h ++ 58%N :: p) = Some (h, p).
Proof.
  intros H. assert (E : last_colon p = None).
  { clear - H. induction p as [|c p IH]; [reflexivity|]. cbn [last_colon]. rewrite IH by (intros I; apply H; now right).
    destruct (N.eqb_spec c 58) as [->|]; [|reflexivity]. exfalso. apply H. now left. }
  induction h as [|c h IH]; cbn [app last_colon]; [now rewrite E|now rewrite IH].
Qed.
Lemma itoa_chars z c : In c (itoa z) -> c = 45%N \/ decimal_digit c.
Proof.
  destruct (Z.leb_spec 0 z) as [L|L].
  - intros I. right. destruct (itoa_digits z L) as (F & _). rewrite Forall_forall in F. now apply F.
  - replace (itoa z) with (45%N :: itoa (- z)); [|now destruct z]. intros [<-|I]; [now left|]. right.
    destruct (itoa_digits (- z) ltac:(lia)) as (F & _). rewrite Forall_forall in F. now apply F.
Qed.
Lemma itoa_clean z x : In x [58; 91; 93]%N -> ~ In x (itoa z).
Proof. intros I J. apply itoa_chars in J. unfold decimal_digit in J. cbn in I. lia. Qed.
Lemma first_byte_app x h r : ~ In x h -> first_byte x (h ++ x :: r) = Some (h, r).
Proof.
  induction h as [|c h IH]; intros H; cbn [app first_byte]; [now rewrite N.eqb_refl|].
  destruct (N.eqb_spec c x) as [->|]; [exfalso; apply H; now left|]. rewrite IH; [reflexivity|]. intros I. apply H. now right.
Qed.
(** 58 is the colon, 91 and 93 are the square brackets *)
Definition plain_host (h : text) : Prop := forall x, In x [58; 91; 93]%N -> ~ In x h.
Theorem C107_address_partial f host port : let h := given f host in let p := itoa (number f port) in
  (plain_host h -> split_host_port (address f host port) = Some (h, p)) /\
  (forall h', h = T "[" ++ h' ++ T "]" -> ~ In 91%N h' -> ~ In 93%N h' -> split_host_port (address f host port) = Some (h', p)).
Proof.
  cbv zeta. unfold address. set (h := given f host). set (p := itoa (number f port)).
  pose proof (itoa_clean (number f port)) as Cl. fold p in Cl. change (T ":") with [58%N].
  pose proof (Cl 58%N ltac:(cbn; auto)) as C1. pose proof (Cl 91%N ltac:(cbn; auto)) as C2. pose proof (Cl 93%N ltac:(cbn; auto)) as C3. split.
  - intros P. unfold split_host_port. cbn [app]. rewrite last_colon_app by exact C1.
    pose proof (P 58%N ltac:(cbn; auto)) as P1. pose proof (P 91%N ltac:(cbn; auto)) as P2. pose proof (P 93%N ltac:(cbn; auto)) as P3.
    rewrite (has_not 58 h P1). rewrite (has_not 91 (h ++ 58%N :: p)), (has_not 93 (h ++ 58%N :: p)); [|intros I; apply in_app_or in I as [I|[I|I]]; [tauto|discriminate|tauto]..].
    destruct h as [|c h']; cbn [app]; [reflexivity|]. destruct (N.eqb_spec c 91) as [->|]; [exfalso; apply P2; now left|reflexivity].
  - intros h' E H1 H3. rewrite E. change (T "[") with [91%N]. change (T "]") with [93%N].
    change ([58%N] ++ p) with (58%N :: p). unfold split_host_port. rewrite last_colon_app by exact C1. cbn [app]. rewrite N.eqb_refl.
    rewrite <- app_assoc. cbn [app]. rewrite (first_byte_app 93 h' (58%N :: p) H3). rewrite N.eqb_refl, Nat.eqb_refl. cbn [andb].
    rewrite (has_not 91); [|intros I; apply in_app_or in I as [I|[I|[I|I]]]; [tauto|discriminate|discriminate|tauto]].
    rewrite (has_not 93); [reflexivity|]. intros [I|I]; [discriminate|tauto].
Qed.
(** Refuted: an IPv6 address given as it is usually written (::1) makes no address at all: the
    program ends when it tries to listen or to connect. *)
Theorem C107_ipv6_refuted f host port : In 58%N (given f host) -> hd 0%N (given f host) <> 91%N -> split_host_port (address f host port) = None.
Proof.
  unfold address. intros I H. change (T ":") with [58%N]. unfold split_host_port. cbn [app]. rewrite last_colon_app by (apply itoa_clean; cbn; auto).
  apply has_in in I. rewrite I. destruct (given f host) as [|c r]; [discriminate|]. cbn [app hd] in *. destruct (N.eqb_spec c 91); [contradiction|reflexivity].
Qed.

(** Examples *)
Example C107_ex_server : exists c, server_main (map T ["--port"; "8000"; "-d=/srv/music"; "--stream-delay"; "1m30s"; "-p"; "9000"]%string) = Refused /\
  server_main (map T ["--port"; "8000"; "-d=/srv/music"; "--stream-delay"; "1m30s"; "-port=9000"]%string) = Runs c /\
  sc_listen c = T "127.0.0.1:9000" /\ sc_music_dir c = T "/srv/music" /\ sc_stream_delay c = 90000000000 /\ sc_start_delay c = 5000000000.
Proof. eexists. repeat split; vm_compute; reflexivity. Qed.
Example C107_ex_stray : plain_argument (T "dir") /\ server_main (map T ["--port"; "1"; "dir"; "--port"; "2"]%string) = server_main (map T ["--port"; "1"]%string).
Proof. split; [right; right; discriminate|vm_compute; reflexivity]. Qed.
Example C107_ex_asked : server_main (map T ["-h"]%string) = Helps /\ player_main (map T ["--version"]%string) = Versions /\
  infoer_main (map T ["--lyrics-history-size"; "-1"]%string) = Refused /\ player_main (map T ["--port"]%string) = Refused.
Proof. repeat split; vm_compute; reflexivity. Qed.
Example C107_ex_address : split_host_port (T "127.0.0.1:13333") = Some (T "127.0.0.1", T "13333") /\ split_host_port (T "[::1]:13333") = Some (T "::1", T "13333") /\
  split_host_port (T "::1:13333") = None.
Proof. repeat split; vm_compute; reflexivity. Qed.

(* ------------------------------------------------------------------ *)
(** ** C108 *)

(** The numbers: exactly the integers in the notation of Go, and the naturals for the size of
    the history. *)
Theorem C108_integer t z : parse_int64 t = Some z <-> integer t z.
Proof. exact (integer_spec t z). Qed.
Theorem C108_natural t n : parse_uint64 t = Some n <-> natural t n.
Proof. exact (natural_spec t n). Qed.
(** A decimal number without a zero in front is read as written. *)
Theorem C108_plain_number_partial t : t <> [] -> Forall decimal_digit t -> (t = T "0" \/ hd 0%N t <> 48%N) -> value_of t < 2 ^ 63 ->
  parse_int64 t = Some (value_of t) /\ parse_int64 (T "-" ++ t) = Some (- value_of t) /\ parse_uint64 t = Some (value_of t).
Proof.
  intros NE F H B. assert (M : magnitude t (value_of t)).
  { destruct H as [->|H]; [exact mag_zero|]. destruct (decimal_digits_of t NE F) as (ds & D & <-). now constructor. }
  pose proof (CliDurProofs.value_bound t F) as V. rewrite integer_spec, integer_spec, natural_spec. split; [|split].
  - exists [], false, t, (value_of t). repeat split; auto; try lia. now left.
  - exists (T "-"), true, t, (value_of t). repeat split; auto; lia.
  - split; [exact M|lia].
Qed.
(** Refuted: with a zero in front it is read in base eight. *)
Theorem C108_octal_refuted : parse_int64 (T "010") = Some 8 /\ value_of (T "010") = 10 /\ parse_int64 (T "08080") = None.
Proof. repeat split; vm_compute; reflexivity. Qed.
(** What is written in decimal is read back. *)
Theorem C108_number_round_trip z : (- 2 ^ 63 <= z < 2 ^ 63 -> parse_int64 (itoa z) = Some z) /\ (0 <= z < 2 ^ 64 -> parse_uint64 (itoa z) = Some z).
Proof. split; [exact (int_round_trip z)|exact (uint_round_trip z)]. Qed.

(** Durations: exactly the duration texts that fit are read, each amount exactly if its decimals
    are finer units of nanoseconds (10^k divides the unit), otherwise to within 1.02 nanoseconds. *)
Theorem C108_durations_read t neg l : duration_text t neg l -> exists rs, Forall2 reads_amount l rs /\
  let sum := fold_right Z.add 0 rs in parse_duration t = if sum <? 2 ^ 63 then Some (if neg then - sum else sum) else None.
Proof. exact (durations_read t neg l). Qed.
Theorem C108_durations_only t z : parse_duration t = Some z -> exists neg l, duration_text t neg l.
Proof. exact (durations_only t z). Qed.
(** What Go writes for a duration is read back as that duration. *)
Theorem C108_duration_round_trip d : - 2 ^ 63 < d < 2 ^ 63 -> parse_duration (duration_string d) = Some d.
Proof. exact (duration_round_trip d). Qed.
(** A number without a unit is no duration, except 0. *)
Lemma amounts_unit r l : amounts r l -> exists c, In c r /\ ~ decimal_digit c.
Proof.
  assert (U : forall w u, In (w, u) units -> exists c, In c w /\ ~ decimal_digit c).
  { intros w u I. unfold decimal_digit. cbn in I.
    repeat (destruct I as [I|I]; [injection I as <- _; first [exists 115%N; split; [cbn; auto; fail|lia] | exists 109%N; split; [cbn; auto; fail|lia] | exists 104%N; split; [cbn; auto; fail|lia]]|]). destruct I. }
  destruct 1 as [t n k w u A I|t n k w u r l A I R]; destruct (U w u I) as (c & Ic & D); exists c; split; auto; rewrite !in_app_iff; auto.
Qed.
Theorem C108_needs_unit t : Forall decimal_digit t -> t <> T "0" -> parse_duration t = None /\ parse_duration (T "-" ++ t) = None.
Proof.
  intros F N0. assert (G : forall sg s, sign s sg -> forall z, parse_duration (s ++ t) <> Some z).
  { intros sg s Sg z H. apply durations_only in H as (neg & l & sg' & r & E & Sg' & C).
    assert (Er : r = t).
    { assert (Dr : forall c r', r = c :: r' -> c <> 43%N /\ c <> 45%N).
      { apply starts_no_sign. destruct C as [[-> _]|C]; [right; split; discriminate|now apply (amounts_starts r l)]. }
      assert (Dt : forall c r', t = c :: r' -> c <> 43%N /\ c <> 45%N).
      { intros c r' ->. inversion F as [|? ? D _]; subst. unfold decimal_digit in D. lia. }
      pose proof (strip_sign_app s sg t Sg Dt) as X. rewrite E, (strip_sign_app sg' neg r Sg' Dr) in X. congruence. }
    subst r. destruct C as [[C _]|C]; [now destruct N0|]. destruct (amounts_unit t l C) as (c & I & D). rewrite Forall_forall in F. now apply D, F. }
  split.
  - destruct (parse_duration t) eqn:P; [|reflexivity]. exfalso. exact (G false [] ltac:(now left) _ P).
  - destruct (parse_duration (T "-" ++ t)) eqn:P; [|reflexivity]. exfalso. exact (G true (T "-") ltac:(reflexivity) _ P).
Qed.
Example C108_ex : map parse_duration (map T ["1h30m"; "1.5s"; "-250ms"; "0.3333333333333333333h"; "0"; "5"; "s"; "1e3s"; "2562048h"; ".5s"]%string) =
  [Some 5400000000000; Some 1500000000; Some (-250000000); Some 1200000000000; Some 0; None; None; None; None; Some 500000000].
Proof. vm_compute. reflexivity. Qed.
Example C108_ex_text : exists l, duration_text (T "1h30m") false l /\ l = [(1, 0, 3600000000000); (30, 0, 60000000000)].
Proof.
  eexists. split; [|reflexivity]. exists [], (T "1h30m"). split; [reflexivity|]. split; [now left|right].
  change (T "1h30m") with (T "1" ++ T "h" ++ T "30m"). apply amounts_more.
  - exists (T "1"), []. repeat split; auto; try discriminate. repeat constructor; vm_compute; discriminate.
  - cbn; auto 10.
  - change (T "30m") with (T "30" ++ T "m"). apply amounts_one.
    + exists (T "30"), []. repeat split; auto; try discriminate. repeat constructor; vm_compute; discriminate.
    + cbn; auto 10.
Qed.
Example C108_ex_numbers : parse_int64 (T "0x1F") = Some 31 /\ parse_int64 (T "1_000") = Some 1000 /\ parse_int64 (T "9223372036854775808") = None /\ parse_int64 (T "1.5") = None /\
  parse_int64 (T "-9223372036854775808") = Some (- 2 ^ 63) /\ parse_uint64 (T "-1") = None.
Proof. repeat split; vm_compute; reflexivity. Qed.

Print Assumptions C107_server_starts.
Print Assumptions C107_player_starts.
Print Assumptions C107_infoer_starts.
Print Assumptions C107_refused.
Print Assumptions C107_asked.
Print Assumptions C107_two_forms.
Print Assumptions C107_defaults.
Print Assumptions C107_stray_refuted.
Print Assumptions C107_readme_refuted.
Print Assumptions C107_completing.
Print Assumptions C107_no_panic.
Print Assumptions C107_address_partial.
Print Assumptions C107_ipv6_refuted.
Print Assumptions C108_integer.
Print Assumptions C108_natural.
Print Assumptions C108_plain_number_partial.
Print Assumptions C108_octal_refuted.
Print Assumptions C108_number_round_trip.
Print Assumptions C108_durations_read.
Print Assumptions C108_durations_only.
Print Assumptions C108_duration_round_trip.
Print Assumptions C108_needs_unit.
