(** Properties C47, C48: TAB completion. *)
From Verif Require Import GoBase GoBaseFacts GoUtf8 ParserModel ParserSpec ParserProofs ParserUnparseProofs.
From Verif Require Import CompleterModel CompleterSpec CompleterProofs.
Local Open Scope N_scope.

(* ------------------------------------------------------------------ *)
(** ** C47: completion extends what was typed *)

(** Completing an argument: the completions are, in order, one for each of the options of the
    (first) command of that name that start with the typed word; appended to the line,
    each gives a line that runs the typed command with the typed arguments and the
    option (when the option is one that can be written at all). *)
Theorem C47_arguments : forall reg name args last,
  sound_word name -> Forall (fun p => p <> [] /\ sound_word p) args -> typing_word last ->
  let line := typed (name :: args) last in
  let offered := match find (fun c => text_eqb (c_name c) name) reg with
                 | None => []
                 | Some c => filter (starts_with last) (options c last (zlen args))
                 end in
  exists completions,
    do_complete reg line (zlen line) = Ok (completions, zlen line) /\
    Forall2 (fun o comp => o <> [] -> sound_word o ->
               parse_command (line ++ comp) = {| p_command := name; p_params := args ++ [o] |})
            offered completions.
Proof.
  intros reg name args last Hn Ha HL line offered.
  unfold line. rewrite do_complete_args by assumption.
  unfold command_by_name, offered. destruct (find _ reg) as [c|]; [|exists []; split; [reflexivity|constructor]].
  set (line' := typed (name :: args) last).
  set (opts := options c last (zlen args)).
  set (g := fun o => skipn (length line') (unparsed_option name args o)).
  exists (map g (filter_by_prefix opts last)).
  assert (P : forall o, has_prefix o last = true -> unparsed_option name args o = line' ++ g o).
  { intros o Ho. unfold g. destruct (option_extends name args last o Ho) as (r & _ & ->).
    fold line'. now rewrite skipn_app, skipn_all, Nat.sub_diag. }
  split.
  - rewrite (omap_ok _ g); [reflexivity|].
    intros o Ho. apply filter_In in Ho as [_ Ho]. rewrite (P o Ho). apply slice_from_app.
  - unfold filter_by_prefix, starts_with.
    assert (A : forall o, In o (filter (fun e => has_prefix e last) opts) -> has_prefix o last = true)
      by (intros o Ho; now apply filter_In in Ho).
    induction (filter (fun e => has_prefix e last) opts) as [|o os IH]; constructor.
    + intros Ne So. rewrite <- P by (apply A; now left).
      unfold unparsed_option. apply roundtrip_iff. cbn [p_command p_params].
      split; [exact Hn|]. apply Forall_app. split; [exact Ha|]. constructor; auto.
    + apply IH. intros; apply A; now right.
Qed.

(** Completing a command name: the completions are, in order, one for `clear`, `exit` and each
    registered command whose name starts with what was typed, and complete the line to
    the name and a blank; running the completed line runs that command without
    arguments. *)
Theorem C47_commands : forall reg w,
  Forall (fun c => c < 0x80) w -> tight w -> ~ In blank w -> ~ In backslash w ->
  exists completions,
    do_complete reg w (zlen w) = Ok (completions, zlen w) /\
    Forall2 (fun name comp => w ++ comp = name ++ [blank] /\
               (sound_word name -> ~ In blank name ->
                parse_command (w ++ comp) = {| p_command := name; p_params := [] |}))
            (filter (starts_with w) ([T "clear"; T "exit"] ++ map c_name reg)) completions.
Proof.
  intros reg w Hw Ht Hb Hs.
  rewrite do_complete_command; auto.
  2: { eapply Forall_impl; [|exact Hw]. cbv beta. intros; lia. }
  unfold filter_by_prefix, command_names, starts_with.
  set (names := filter (fun e => has_prefix e w) ([T "clear"; T "exit"] ++ map c_name reg)).
  assert (A : forall n, In n names -> exists r, n = w ++ r).
  { intros n Hn. apply filter_In in Hn as [_ Hn]. now apply has_prefix_spec. }
  clearbody names.
  exists (map (fun n => skipn (length w) n ++ [32]) names). split.
  - rewrite (omap_ok _ (fun n => skipn (length w) n ++ [32])); [reflexivity|].
    intros n Hn. destruct (A n Hn) as [r ->]. unfold runes_of_bytes_from.
    replace (zlen w <? 0)%Z with false by (symmetry; apply Z.ltb_ge, zlen_nonneg).
    unfold zlen. rewrite Nat2Z.id, <- app_assoc, bytes_from_ascii by exact Hw.
    now rewrite skipn_app, skipn_all, Nat.sub_diag.
  - induction names as [|n ns IH]; constructor.
    + destruct (A n (or_introl eq_refl)) as [r ->].
      rewrite skipn_app, skipn_all, Nat.sub_diag. cbn [skipn app].
      rewrite app_assoc. split; [reflexivity|]. intros So Nb.
      change ((w ++ r) ++ [32]) with ((w ++ r) ++ escape_spaces [] ++ [32]) at 1.
      replace ((w ++ r) ++ escape_spaces [] ++ [32]) with (unparse {| p_command := w ++ r; p_params := [] |}).
      * apply roundtrip_iff. cbn. auto.
      * unfold unparse. cbn [p_params p_command escape_spaces flat_map app]. f_equal.
        clear -Nb. unfold blank in Nb. induction (w ++ r) as [|c l IH]; [reflexivity|].
        cbn [flat_map escape_spaces]. rewrite eqb_false by (intros ->; apply Nb; now left).
        cbn [app]. f_equal. apply IH. intro; apply Nb; now right.
    + apply IH. intros; apply A; now right.
Qed.

(** With command names in ASCII, as all those of the server are, nothing is offered for a typed word with
    another character in it. *)
Theorem C47_other_characters : forall reg w,
  Forall (fun c => c < 0xC0) w -> tight w -> ~ In blank w -> ~ In backslash w ->
  Forall (fun name => Forall (fun c => c < 0x80) name) (map c_name reg) -> Exists (fun c => 0x80 <= c) w ->
  do_complete reg w (zlen w) = Ok ([], zlen w).
Proof.
  intros reg w Hw Ht Hb Hs Hr He. rewrite do_complete_command by auto.
  replace (filter_by_prefix (command_names reg) w) with (@nil text); [reflexivity|]. symmetry. unfold filter_by_prefix.
  assert (A : Forall (fun name => Forall (fun c => c < 0x80) name) (command_names reg)).
  { unfold command_names. constructor; [repeat constructor|]. constructor; [repeat constructor|]. exact Hr. }
  induction (command_names reg) as [|n ns IH]; [reflexivity|]. cbn [filter]. inversion A as [|x y An Ans]; subst.
  destruct (has_prefix n w) eqn:P; [|now apply IH]. exfalso. apply has_prefix_spec in P as (r & ->).
  apply Exists_exists in He as (c & Ic & Hc). rewrite Forall_forall in An. specialize (An c). rewrite in_app_iff in An.
  specialize (An (or_introl Ic)). lia.
Qed.

(** But for a command whose name begins with another character the completion is not a continuation of
    what was typed: the name is cut at a number of bytes, the word typed has that number of characters. *)
Theorem C47_wide_names_refuted : forall c rest f, 0xA1 <= c -> c < 0xC0 ->
  let reg := [ {| c_name := c :: rest; c_options_func := f |} ] in
  let completion := 0xFFFD :: rest ++ [blank] in
  do_complete reg [c] 1 = Ok ([completion], 1%Z) /\ [c] ++ completion <> (c :: rest) ++ [blank].
Proof.
  intros c rest f H1 H2 reg completion. split.
  - rewrite do_complete_command.
    + replace (filter_by_prefix (command_names reg) [c]) with [c :: rest].
      * cbn [omap]. unfold runes_of_bytes_from. change ((1 <? 0)%Z) with false. change (Z.to_nat 1) with 1%nat. cbv iota.
        cbn [app bytes_from]. unfold utf8_encode_rune. replace (c <? 0x80) with false by (symmetry; apply N.ltb_ge; lia).
        replace (c <? 0x800) with true by (symmetry; apply N.ltb_lt; lia). reflexivity.
      * unfold reg, command_names, filter_by_prefix. cbn [map c_name app filter]. 
        assert (Q : forall x y l, x <> y -> has_prefix (x :: l) [y] = false).
        { intros x y l N. destruct (has_prefix (x :: l) [y]) eqn:P; [|reflexivity]. apply has_prefix_spec in P as (r & E). injection E as E _. congruence. }
        change (T "clear") with ([99; 108; 101; 97; 114]). change (T "exit") with ([101; 120; 105; 116]).
        rewrite (Q 99), (Q 101) by lia. replace (has_prefix (c :: rest) [c]) with true; [reflexivity|].
        symmetry. apply has_prefix_spec. exists rest. reflexivity.
    + constructor; [exact H2|constructor].
    + split; intros x r E.
      * injection E as <- <-. unfold white. lia.
      * destruct r as [|y [|z r]]; [injection E as <-; unfold white; lia|discriminate E|discriminate E].
    + intros [X|[]]. lia.
    + intros [X|[]]. lia.
  - unfold completion. intros E. apply (f_equal (@length N)) in E. rewrite !app_length in E. cbn [length] in E. rewrite !app_length in E. cbn [length] in E. lia.
Qed.

(** On the server as installed `help` is completed with the names `help` explains. *)
Theorem C47_help_offered : forall ls_opts last, typing_word last ->
  let line := typed [T "help"] last in
  exists completions,
    do_complete (ssh_registry ls_opts) line (zlen line) = Ok (completions, zlen line) /\
    Forall2 (fun name comp => parse_command (line ++ comp) = {| p_command := T "help"; p_params := [name] |})
            (filter (starts_with last) [T "clear"; T "exit"; T "help"; T "ls"]) completions.
Proof.
  intros ls_opts last HL line.
  assert (S : forall w, parse_command (unparse {| p_command := w; p_params := [] |}) = {| p_command := w; p_params := [] |} -> sound_word w)
    by (intros w R; apply roundtrip_iff in R as [R _]; exact R).
  assert (Names : Forall (fun n => n <> [] /\ sound_word n) [T "clear"; T "exit"; T "help"; T "ls"])
    by (repeat (constructor; [split; [discriminate|apply S; vm_compute; reflexivity]|]); constructor).
  destruct (C47_arguments (ssh_registry ls_opts) (T "help") [] last) as (cs & E & F);
    [apply S; vm_compute; reflexivity|constructor|exact HL|].
  exists cs. split; [exact E|]. change (find (fun c => text_eqb (c_name c) (T "help")) (ssh_registry ls_opts))
    with (Some {| c_name := T "help"; c_options_func := Some (help_options [T "help"; T "ls"]) |}) in F.
  cbv beta iota in F. unfold options in F. cbn [c_options_func] in F. change (zlen []) with 0%Z in F.
  unfold help_options in F. change (negb (0 =? 0)%Z) with false in F. cbv iota in F.
  assert (G : filter (starts_with last) ([T "clear"; T "exit"] ++ filter (fun n => has_prefix n last) [T "help"; T "ls"])
              = filter (starts_with last) [T "clear"; T "exit"; T "help"; T "ls"]).
  { change [T "clear"; T "exit"; T "help"; T "ls"] with ([T "clear"; T "exit"] ++ [T "help"; T "ls"]). rewrite !filter_app. f_equal.
    unfold starts_with. generalize [T "help"; T "ls"]. intros l. induction l as [|n l IH]; [reflexivity|]. cbn [filter].
    destruct (has_prefix n last) eqn:P; [cbn [filter]; rewrite P; now f_equal|exact IH]. }
  rewrite G in F. clear G E.
  assert (I : Forall (fun n => n <> [] /\ sound_word n) (filter (starts_with last) [T "clear"; T "exit"; T "help"; T "ls"])).
  { apply Forall_forall. intros n In_. apply filter_In in In_ as [In_ _]. rewrite Forall_forall in Names. now apply Names. }
  revert F I. generalize (filter (starts_with last) [T "clear"; T "exit"; T "help"; T "ls"]). intros l F I.
  induction F as [|n c l cs H F IH]; constructor.
  - inversion I as [|x y [N1 N2] _]; subst. exact (H N1 N2).
  - apply IH. now inversion I.
Qed.

(** "queue my\ " cannot be completed this way, "queue my\ so" can. *)
Definition demo_registry : list reg_command :=
  [ {| c_name := T "queue"; c_options_func := Some (fun _ arg => if (arg =? 0)%Z then [T "my song.mp3"; T "my soul.mp3"; T "other.mp3"] else []) |} ].

Example C47_nonvacuous_help :
  do_complete (ssh_registry (fun _ _ => [])) (typed [T "help"] []) 5 = Ok ([T "clear "; T "exit "; T "help "; T "ls "], 5%Z) /\
  do_complete demo_registry [0xB5] 1 = Ok ([], 1%Z) /\
  do_complete [ {| c_name := 0xB5 :: T "s"; c_options_func := None |} ] [0xB5] 1 = Ok ([0xFFFD :: T "s "], 1%Z).
Proof. repeat split; vm_compute; reflexivity. Qed.
Example C47_nonvacuous :
  typed [T "queue"] (T "my so") = T "queue my\ so" /\
  do_complete demo_registry (T "queue my\ so") 12 = Ok ([T "ng.mp3 "; T "ul.mp3 "], 12%Z) /\
  do_complete demo_registry (T "q") 1 = Ok ([T "ueue "], 1%Z) /\
  sound_word (T "queue") /\ typing_word (T "my so") /\ sound_word (T "my song.mp3").
Proof.
  split; [reflexivity|]. split; [vm_compute; reflexivity|]. split; [vm_compute; reflexivity|].
  assert (S : sound_word (T "queue") /\ sound_word (T "my song.mp3")).
  { assert (R : parse_command (unparse {| p_command := T "queue"; p_params := [T "my song.mp3"] |})
                = {| p_command := T "queue"; p_params := [T "my song.mp3"] |}) by (vm_compute; reflexivity).
    apply roundtrip_iff in R as [A B]. split; [exact A|]. inversion B; subst. tauto. }
  split; [apply S|]. split; [|apply S].
  assert (R : parse_command (unparse {| p_command := T "my so"; p_params := [] |})
              = {| p_command := T "my so"; p_params := [] |}) by (vm_compute; reflexivity).
  apply roundtrip_iff in R as [(A & B & C) _]. cbn [p_command] in *.
  split; [exact A|]. split; [exact B|].
  intros a c r E. destruct (C a (c :: r) E) as (d & q & [= <- <-] & D). exact D.
Qed.

(* ------------------------------------------------------------------ *)
(** ** C48: completion never crashes the server *)

(** No panic on a line typed with single blanks, wherever in it the cursor stands; the word
    being typed and the command name may be anything in the sense above. *)
Theorem C48_typed_lines_partial : forall reg name args last pos,
  sound_word name -> Forall (fun p => p <> [] /\ sound_word p) args -> typing_word last ->
  (0 <= pos <= zlen (typed (name :: args) last))%Z ->
  exists r, do_complete reg (typed (name :: args) last) pos = Ok r.
Proof.
  intros reg name args last pos Hn Ha HL Hp.
  rewrite do_complete_args by assumption.
  destruct (command_by_name reg name) as [c|]; [|eauto].
  destruct (omap _ _) as [l|] eqn:E; [cbn; eauto|exfalso].
  apply omap_panic in E as (o & Ho & F).
  apply filter_In in Ho as [_ Ho].
  destruct (option_extends name args last o Ho) as (r & _ & U). rewrite U in F.
  destruct (slice_from_ok (typed (name :: args) last ++ escape_spaces r ++ [32]) pos) as [q Q].
  - rewrite zlen_app. pose proof (zlen_nonneg (escape_spaces r ++ [32])). lia.
  - congruence.
Qed.

(** The same for a command name being typed. *)
Theorem C48_typed_names_partial : forall reg w pos,
  Forall (fun c => c < 0xC0) w -> tight w -> ~ In blank w -> ~ In backslash w ->
  (0 <= pos <= zlen w)%Z ->
  exists r, do_complete reg w pos = Ok r.
Proof.
  intros reg w pos Hw Ht Hb Hs Hp. rewrite do_complete_command by assumption.
  destruct (omap _ _) as [l|] eqn:E; [cbn; eauto|exfalso].
  apply omap_panic in E as (n & Hn & F). apply filter_In in Hn as [_ Hn].
  apply has_prefix_spec in Hn as [r ->]. unfold runes_of_bytes_from in F.
  replace (pos <? 0)%Z with false in F by (symmetry; apply Z.ltb_ge; lia).
  destruct (bytes_from_total ((w ++ r) ++ [32]) (Z.to_nat pos)) as [q Q].
  - pose proof (utf8_len ((w ++ r) ++ [32])) as L. rewrite !app_length in L. unfold zlen in Hp. lia.
  - congruence.
Qed.

(** A known command name followed by [k] blanks: TAB crashes the server exactly when one of the
    options offered is shorter than the run of blanks. *)
Theorem C48_blanks_refuted : forall reg name c k,
  name <> [] -> sound_word name -> ~ In backslash name -> ~ In blank name ->
  find (fun c => text_eqb (c_name c) name) reg = Some c ->
  let line := name ++ repeat blank (S k) in
  (do_complete reg line (zlen line) = Panic <->
   exists o, In o (options c [] 0) /\ (length (quoted o) + 1 < k)%nat).
Proof.
  intros reg name c k Ne (S1 & S2 & _) Nb Nk Hc line.
  assert (R : read line = spelled (name :: repeat [] (S k))).
  { unfold line. clear -Nb Nk. unfold backslash, blank in *.
    assert (RB : forall k, read (repeat 32 k) = spelled (repeat [] (S k))).
    { clear. induction k as [|k IH]; [reflexivity|].
      change (repeat 32 (S k)) with (32 :: repeat 32 k).
      change (read (32 :: repeat 32 k)) with (Sep :: read (repeat 32 k)). rewrite IH.
      change (repeat [] (S (S k))) with (@nil N :: repeat [] (S k)). reflexivity. }
    induction name as [|x n IH].
    - cbn [app]. rewrite RB. reflexivity.
    - cbn [app]. rewrite read_plain.
      + rewrite IH by (intro; first [apply Nk; now right | apply Nb; now right]). reflexivity.
      + intros ->. apply Nb. now left.
      + intros ->. apply Nk. now left. }
  assert (P : parse_command line = {| p_command := name; p_params := [] |}).
  { destruct (parse_command_reads line) as (v & vs & E & ->). apply reads_fun in E. rewrite R in E.
    apply spelled_inj in E; [|discriminate|discriminate]. injection E as <- <-.
    rewrite map_delivered_id by exact S1. apply trim_space_tight in S2. rewrite S2. f_equal.
    assert (F : forall n, filter nonempty (repeat ([] : text) n) = [])
      by (induction n as [|n IHn]; [reflexivity|exact IHn]).
    specialize (F (S k)). cbn [repeat] in F. rewrite F. reflexivity. }
  assert (L : last line 0 = 32).
  { unfold line. rewrite last_app_ne by discriminate. change (S k) with (1 + k)%nat.
    clear. induction k as [|k IH]; [reflexivity|]. change (repeat blank (1 + S k)) with (blank :: repeat blank (1 + k)).
    exact IH. }
  unfold do_complete. rewrite L, P. change (32 =? 32) with true. cbv zeta. cbv iota.
  cbn [p_params p_command app]. unfold command_arg_options_with_prefix, command_by_name.
  cbn [p_command p_params]. rewrite Hc.
  change (zlen [[]] - 1)%Z with 0%Z. cbn [slice_get nth_error obind Z.to_nat Z.ltb Z.compare].
  assert (Fil : forall l, filter_by_prefix l [] = l).
  { intro l. apply filter_all. apply Forall_forall. reflexivity. }
  rewrite Fil.
  assert (W : forall o, slice_from (unparse (with_last_param {| p_command := name; p_params := [[]] |} o)) (zlen line) = Panic
    <-> (length (quoted o) + 1 < k)%nat).
  { intro o. change (with_last_param {| p_command := name; p_params := [[]] |} o)
      with {| p_command := name; p_params := [] ++ [o] |}.
    fold (unparsed_option name [] o). rewrite unparsed_option_eq. unfold slice_from.
    assert (E1 : escape_spaces name = name).
    { clear -Nk. unfold blank in Nk. induction name as [|x n IH]; [reflexivity|].
      rewrite escape_cons. rewrite (eqb_false x 32) by (intros ->; apply Nk; now left). cbn [app].
      f_equal. apply IH. intro; apply Nk; now right. }
    assert (E2 : zlen (laid_out [name] ++ escape_spaces o ++ [32]) = (zlen name + Z.of_nat (length (quoted o)) + 2)%Z).
    { unfold laid_out. cbn [flat_map]. rewrite E1, app_nil_r. unfold zlen.
      rewrite !app_length. change (quoted o) with (escape_spaces o). cbn [length]. lia. }
    assert (E3 : zlen line = (zlen name + Z.of_nat k + 1)%Z).
    { unfold line, zlen. rewrite app_length, repeat_length. lia. }
    rewrite E2, E3. pose proof (zlen_nonneg name).
    replace (zlen name + Z.of_nat k + 1 <? 0)%Z with false by (symmetry; apply Z.ltb_ge; lia).
    cbn [orb].
    destruct (zlen name + Z.of_nat (length (quoted o)) + 2 <? zlen name + Z.of_nat k + 1)%Z eqn:X;
      [apply Z.ltb_lt in X|apply Z.ltb_ge in X]; split; intro; try reflexivity; try discriminate; try lia. }
  destruct (omap _ _) as [l|] eqn:E; cbn [obind].
  - split; [discriminate|]. intros (o & Ho & K). exfalso.
    apply W in K.
    assert (@Ok (list text) l = Panic) by (rewrite <- E; apply omap_panic; eauto). discriminate.
  - split; [|reflexivity]. intros _. apply omap_panic in E as (o & Ho & K). exists o. split; [exact Ho|].
    now apply W.
Qed.

(** Every line, every cursor position: TAB crashes the server exactly when one of the names or
    options offered, completed and written out as [typed] says, is shorter than the position
    of the cursor.  A name being typed (no arguments, the line does not end in a blank) is
    measured in bytes, the line with an option in characters. *)
Theorem C48_crash_exact_partial : forall reg line pos, (0 <= pos)%Z ->
  let cmd := parse_command line in
  let at_blank := N.eqb (last line 0) blank in
  do_complete reg line pos = Panic <->
    (p_params cmd = [] /\ at_blank = false /\
       exists n, In n ([T "clear"; T "exit"] ++ map c_name reg) /\ starts_with (p_command cmd) n = true /\
         (zlen (utf8_encode (n ++ [blank])) < pos)%Z)
    \/ (exists before last c o,
         (if at_blank then before = p_params cmd /\ last = [] else p_params cmd = before ++ [last]) /\
         find (fun c => text_eqb (c_name c) (p_command cmd)) reg = Some c /\
         In o (options c last (zlen before)) /\ starts_with last o = true /\
         (zlen (typed (p_command cmd :: before ++ [o]) []) < pos)%Z).
Proof.
  intros reg line pos Hp cmd at_blank.
  assert (U : forall before o, unparse {| p_command := p_command cmd; p_params := before ++ [o] |}
                = typed (p_command cmd :: before ++ [o]) []).
  { intros before o. rewrite unparse_laid_out, typed_laid_out. cbn [p_command p_params escape_spaces flat_map].
    now rewrite app_nil_r. }
  assert (A : forall before last, 
    (do l <- command_arg_options_with_prefix reg {| p_command := p_command cmd; p_params := before ++ [last] |} pos; Ok (l, pos)) = Panic
    <-> exists c o, find (fun c => text_eqb (c_name c) (p_command cmd)) reg = Some c /\
         In o (options c last (zlen before)) /\ starts_with last o = true /\
         (zlen (typed (p_command cmd :: before ++ [o]) []) < pos)%Z).
  { intros before last. unfold command_arg_options_with_prefix, command_by_name. cbn [p_command p_params].
    destruct (find _ reg) as [c|]; cbn [obind].
    2: { split; [discriminate|]. intros (c & o & E & _). discriminate. }
    rewrite slice_get_last. cbn [obind].
    replace (zlen (before ++ [last]) - 1)%Z with (zlen before) by (rewrite zlen_app, zlen_cons, zlen_nil; lia).
    rewrite (obind_panic _ (fun l => (l, pos))), omap_panic. split.
    - intros (o & Ho & F). apply filter_In in Ho as [Ho Hs]. rewrite with_last, U in F.
      apply slice_from_panic in F; [|exact Hp]. exists c, o. auto.
    - intros (c' & o & [= <-] & Ho & Hs & L). exists o. split; [apply filter_In; auto|].
      rewrite with_last, U. now apply slice_from_panic. }
  unfold do_complete. fold cmd. fold blank. fold at_blank. cbv zeta.
  destruct at_blank eqn:B.
  - cbn [p_params]. destruct (p_params cmd ++ [[]]) as [|p ps] eqn:E; [destruct (p_params cmd); discriminate|].
    rewrite <- E, A. split.
    + intros (c & o & H). right. exists (p_params cmd), [], c, o. tauto.
    + intros [(_ & H & _)|(before & last & c & o & [-> ->] & H)]; [discriminate|]. eauto.
  - destruct (p_params cmd) as [|p ps] eqn:E.
    + rewrite (obind_panic _ (fun l => (l, pos))). unfold commands_with_prefix. rewrite omap_panic. split.
      * intros (n & Hn & F). apply filter_In in Hn as [Hn Hs]. apply runes_of_bytes_panic in F; [|exact Hp].
        left. split; [reflexivity|]. split; [reflexivity|]. exists n. auto.
      * intros [(_ & _ & n & Hn & Hs & L)|(before & last & c & o & H & _)].
        -- exists n. split; [apply filter_In; auto|]. now apply runes_of_bytes_panic.
        -- destruct before; discriminate.
    + destruct (@exists_last _ (p :: ps)) as (before & last & E2); [discriminate|].
      rewrite E2 in E.
      assert (C : cmd = {| p_command := p_command cmd; p_params := before ++ [last] |})
        by (rewrite <- E; now destruct cmd).
      rewrite C at 1. rewrite A, E2. split.
      * intros (c & o & H). right. exists before, last, c, o. tauto.
      * intros [(H & _)|(b2 & l2 & c & o & H & H2)]; [destruct before; discriminate|].
        apply app_inj_tail in H as [<- <-]. eauto.
Qed.

(** On a freshly installed server: `help`, eight blanks, TAB. *)
Theorem C48_help_refuted : forall ls_opts,
  do_complete (ssh_registry ls_opts) (T "help        ") 12 = Panic.
Proof. intro. vm_compute. reflexivity. Qed.

Example C48_nonvacuous :
  sound_word (T "help") /\ typing_word (T "ex") /\
  do_complete (ssh_registry (fun _ _ => [])) (T "help ex") 7 = Ok ([T "it "], 7%Z).
Proof.
  assert (R : parse_command (unparse {| p_command := T "help"; p_params := [T "ex"] |})
              = {| p_command := T "help"; p_params := [T "ex"] |}) by (vm_compute; reflexivity).
  apply roundtrip_iff in R as [A B]. cbn [p_command p_params] in *. inversion B as [|? ? [_ (C1 & C2 & C3)] _]; subst.
  split; [exact A|]. split; [|vm_compute; reflexivity].
  split; [exact C1|]. split; [exact C2|].
  intros a c r E. destruct (C3 a (c :: r) E) as (d & q & [= <- <-] & D). exact D.
Qed.

Print Assumptions C47_arguments.
Print Assumptions C47_commands.
Print Assumptions C47_other_characters.
Print Assumptions C47_wide_names_refuted.
Print Assumptions C47_help_offered.
Print Assumptions C48_typed_lines_partial.
Print Assumptions C48_typed_names_partial.
Print Assumptions C48_blanks_refuted.
Print Assumptions C48_crash_exact_partial.
Print Assumptions C48_help_refuted.
