(** C114: every line means what Shell.g4 says, and the generated parser reads it that way. *)
From Verif Require Import GoBase GoUtf8 ParserModel ParserSpec GrammarModel GrammarSpec GrammarProofs GrammarLexProofs.
Local Open Scope N_scope.

(** The lexer's table: every code point is one token - a backslash, a space, or anything else. *)
Theorem C114_tokens : forall s ts, code_points s ->
  (lexes s ts <->
   Forall2 (fun c t => (c = 92 /\ t = ESC) \/ (c = 32 /\ t = SPACE) \/ (c <> 92 /\ c <> 32 /\ t = NORMAL c)) s ts).
Proof.
  intros s ts F. split.
  - intros H. rewrite (lexes_sound _ _ H F). clear. induction s as [|c s IH]; cbn [map]; constructor; [|exact IH].
    unfold lex_rune. destruct (N.eqb_spec c 92); [auto|]. destruct (N.eqb_spec c 32); auto 6.
  - intros H. assert (E : ts = map lex_rune s); [|rewrite E; now apply lexes_complete]. clear F.
    induction H as [|c t s ts [(-> & ->)|[(-> & ->)|(A & B & ->)]] _ IH]; cbn [map]; f_equal; auto.
    unfold lex_rune. destruct (N.eqb_spec c 92); [tauto|]. destruct (N.eqb_spec c 32); tauto.
Qed.

(** Shell.g4 gives every line exactly one reading, and no part of the line is lost in it. *)
Theorem C114_grammar : forall s, code_points s ->
  exists command params, shell_line s command params /\ s = put_together command params /\
    forall command' params', shell_line s command' params' -> command' = command /\ params' = params.
Proof.
  intros s _. eexists _, _. split; [apply line_tree_spec|]. split; [apply shell_line_whole, line_tree_spec|].
  intros c ps. apply shell_line_unique, line_tree_spec.
Qed.

(** The generated lexer and parser always come to an end with that reading: there are runs, and
    every run, whatever the runtime's prediction looks at, ends without a syntax error, with every token
    used, and with the tree of Shell.g4's reading. *)
Theorem C114_parser : forall s command params, code_points s -> shell_line s command params ->
  (exists ts r, lexes s ts /\ line_run ts r) /\
  forall ts r, lexes s ts -> line_run ts r ->
    exists tree, r = Parsed tree [] /\
      map (map tok_rune) (t_command tree) = command /\ map (map (map tok_rune)) (t_parameters tree) = params.
Proof.
  intros s c ps F Sh. split.
  - exists (map lex_rune s). eexists. split; [now apply lexes_complete|]. apply line_spec. reflexivity.
  - intros ts r Lx Rn. rewrite (lexes_sound _ _ Lx F) in Rn. apply line_spec in Rn. subst r. eexists. split; [reflexivity|].
    apply (shell_line_unique _ _ _ _ _ Sh). apply line_tree_spec.
Qed.

(** So what C44-C48 say about parsing is said about the generated parser: the command of a line
    is what the listener makes of the tree the generated parser builds. *)
Theorem C114_command : forall s ts r, code_points s -> lexes s ts -> line_run ts r ->
  exists tree, r = Parsed tree [] /\ parse_command s = walk tree.
Proof.
  intros s ts r F Lx Rn. rewrite (lexes_sound _ _ Lx F) in Rn. apply line_spec in Rn. subst r. eexists. split; reflexivity.
Qed.

(** A line with every form of character, an empty parameter and a blank at the end:
    [a\\ \b  \ c\ ] *)
Definition sample : text := [97; 92; 92; 32; 92; 98; 32; 32; 92; 32; 99; 92; 32].
Example C114_nonvacuous :
  code_points sample /\
  shell_line sample [[97]; [92; 92]] [[[92]; [98]]; []; [[92; 32]; [99]; [92; 32]]] /\
  (exists ts r, lexes sample ts /\ line_run ts r) /\
  parse_command sample = {| p_command := [97; 92]; p_params := [[92; 98]; [99]] |}.
Proof.
  assert (F : code_points sample) by (unfold code_points, sample; repeat constructor; lia).
  pose proof (line_tree_spec sample) as Sh. vm_compute in Sh. split; [exact F|]. split; [exact Sh|].
  split; [exact (proj1 (C114_parser _ _ _ F Sh))|]. vm_compute. reflexivity.
Qed.
(** Both tables can be read, to their last word. *)
Example C114_tables_read : deserialize serialized_lexer_atn <> None /\ deserialize parser_atn <> None.
Proof. split; vm_compute; intros H; discriminate H. Qed.

Print Assumptions C114_tokens.
Print Assumptions C114_grammar.
Print Assumptions C114_parser.
Print Assumptions C114_command.
