(** Model of the parser generated from ssh/parser/Shell.g4: ssh/parser/shell_parser/shell_lexer.go
    and shell_parser.go, with the two tables ("ATNs") they contain word by word.  The antlr
    runtime that interprets the tables (github.com/antlr/antlr4, not in /repo) is modelled after
    its published format and algorithm: reading the table, the lexer's longest match, Sync, and
    adaptive prediction. *)
From Verif Require Import GoBase GoUtf8 ParserModel.
Local Open Scope N_scope.

(* ------------------------------------------------------------------ *)
(** ** The tables *)

(** shell_lexer.go:16-23 (serializedLexerAtn) *)
Definition serialized_lexer_atn : list N :=
  [3; 24715; 42794; 33075; 47597; 16764; 15335; 30598; 22884; 2; 5; 15; 8; 1; 4; 2; 9; 2; 4; 3; 9; 3;
   4; 4; 9; 4; 3; 2; 3; 2; 3; 3; 3; 3; 3; 4; 3; 4; 2; 2; 5; 3; 3; 5; 4; 7; 5; 3; 2; 2; 2; 14; 2; 3; 3;
   2; 2; 2; 2; 5; 3; 2; 2; 2; 2; 7; 3; 2; 2; 2; 3; 9; 3; 2; 2; 2; 5; 11; 3; 2; 2; 2; 7; 13; 3; 2; 2; 2;
   9; 10; 7; 94; 2; 2; 10; 4; 3; 2; 2; 2; 11; 12; 7; 34; 2; 2; 12; 6; 3; 2; 2; 2; 13; 14; 11; 2; 2; 2;
   14; 8; 3; 2; 2; 2; 3; 2; 2].

(** shell_parser.go:17-35 (parserATN) *)
Definition parser_atn : list N :=
  [3; 24715; 42794; 33075; 47597; 16764; 15335; 30598; 22884; 3; 5; 43; 4; 2; 9; 2; 4; 3; 9; 3; 4; 4;
   9; 4; 4; 5; 9; 5; 4; 6; 9; 6; 4; 7; 9; 7; 3; 2; 3; 2; 3; 2; 7; 2; 18; 10; 2; 12; 2; 14; 2; 21; 11;
   2; 3; 3; 3; 3; 3; 4; 3; 4; 3; 5; 3; 5; 3; 6; 7; 6; 30; 10; 6; 12; 6; 14; 6; 33; 11; 6; 3; 7; 3; 7;
   3; 7; 3; 7; 3; 7; 3; 7; 5; 7; 41; 10; 7; 3; 7; 2; 2; 8; 2; 4; 6; 8; 10; 12; 2; 2; 2; 41; 2; 14; 3;
   2; 2; 2; 4; 22; 3; 2; 2; 2; 6; 24; 3; 2; 2; 2; 8; 26; 3; 2; 2; 2; 10; 31; 3; 2; 2; 2; 12; 40; 3; 2;
   2; 2; 14; 19; 5; 4; 3; 2; 15; 16; 7; 4; 2; 2; 16; 18; 5; 6; 4; 2; 17; 15; 3; 2; 2; 2; 18; 21; 3; 2;
   2; 2; 19; 17; 3; 2; 2; 2; 19; 20; 3; 2; 2; 2; 20; 3; 3; 2; 2; 2; 21; 19; 3; 2; 2; 2; 22; 23; 5; 8;
   5; 2; 23; 5; 3; 2; 2; 2; 24; 25; 5; 8; 5; 2; 25; 7; 3; 2; 2; 2; 26; 27; 5; 10; 6; 2; 27; 9; 3; 2; 2;
   2; 28; 30; 5; 12; 7; 2; 29; 28; 3; 2; 2; 2; 30; 33; 3; 2; 2; 2; 31; 29; 3; 2; 2; 2; 31; 32; 3; 2; 2;
   2; 32; 11; 3; 2; 2; 2; 33; 31; 3; 2; 2; 2; 34; 41; 7; 5; 2; 2; 35; 36; 7; 3; 2; 2; 36; 41; 7; 4; 2;
   2; 37; 38; 7; 3; 2; 2; 38; 41; 7; 3; 2; 2; 39; 41; 7; 3; 2; 2; 40; 34; 3; 2; 2; 2; 40; 35; 3; 2; 2;
   2; 40; 37; 3; 2; 2; 2; 40; 39; 3; 2; 2; 2; 41; 13; 3; 2; 2; 2; 5; 19; 31; 40].

(* ------------------------------------------------------------------ *)
(** ** Reading a table *)

(** State types and transition types of the format that occur here. *)
Definition ty_block_start : N := 3.
(** antlr ATNStateStarBlockStart (outside /repo; the numbers stand in shell_parser.go:17-35) *)
Definition ty_star_block_start : N := 5.
(** antlr ATNStateRuleStop *)
Definition ty_rule_stop : N := 7.
(** antlr ATNStateLoopEnd *)
Definition ty_loop_end : N := 12.
(** antlr TransitionEPSILON *)
Definition tr_epsilon : N := 1.
(** antlr TransitionRULE *)
Definition tr_rule : N := 3.
(** antlr TransitionATOM *)
Definition tr_atom : N := 5.
(** antlr TransitionWILDCARD *)
Definition tr_wildcard : N := 9.

(** A state: its type and the rule it belongs to. *)
Record state : Type := { s_type : N; s_rule : N }.
(** A transition.  A rule transition enters the state [e_arg1] (the start of rule [e_arg2]) and
    comes back to [e_dst]; an atom transition reads the symbol [e_arg1]. *)
Record edge : Type := { e_src : N; e_dst : N; e_type : N; e_arg1 : N; e_arg2 : N }.
(** [a_rules]: start state and, for a lexer, token type of each rule *)
Record atn : Type := {
  a_states : list state;
  a_rules : list (N * N);
  a_modes : list N;
  a_edges : list edge;
  a_decisions : list N
}.

(** reading the table from its front (antlr ATNDeserializer: pos is advanced) *)
Definition reader (A : Type) : Type := list N -> option (A * list N).
(** reading nothing *)
Definition ret {A} (x : A) : reader A := fun d => Some (x, d).
(** reading one thing after another *)
Definition bind {A B} (r : reader A) (f : A -> reader B) : reader B :=
  fun d => match r d with None => None | Some (x, d') => f x d' end.
Notation "'let!' x ':=' r 'in' k" := (bind r (fun x => k)) (at level 200, x pattern, right associativity).
(** antlr ATNDeserializer.readInt *)
Definition word : reader N := fun d => match d with [] => None | x :: r => Some (x, r) end.
(** antlr ATNDeserializer: panic *)
Definition fail {A} : reader A := fun _ => None.
(** the loops of antlr ATNDeserializer *)
Fixpoint times {A} (n : nat) (r : reader A) : reader (list A) :=
  match n with
  | O => ret []
  | S m => let! x := r in let! l := times m r in ret (x :: l)
  end.
(** a count and that many items *)
Definition counted {A} (r : reader A) : reader (list A) := let! n := word in times (N.to_nat n) r.

(** A loop end names its loop back state, a block start its end: the format has one more word
    for these, which only serves checks. *)
Definition read_state : reader state :=
  let! t := word in
  let! r := word in
  if (t =? ty_loop_end) || (t =? ty_block_start) || (t =? ty_star_block_start) || (t =? 4)
  then let! _ := word in ret {| s_type := t; s_rule := r |}
  else ret {| s_type := t; s_rule := r |}.
(** antlr ATNDeserializer.readRules: one entry *)
Definition read_rule (lexer : bool) : reader (N * N) :=
  let! s := word in
  if lexer then let! t := word in ret (s, t) else ret (s, 0).
(** antlr ATNDeserializer.readEdges: one entry *)
Definition read_edge : reader edge :=
  let! s := word in let! d := word in let! t := word in
  let! x := word in let! y := word in let! _ := word in
  ret {| e_src := s; e_dst := d; e_type := t; e_arg1 := x; e_arg2 := y |}.

(** The identifier 59627784-3BE5-417A-B9EB-8131A7286089 of the format *)
Definition format_uuid : list N := [0x6089; 0xa728; 0x8131; 0xb9eb; 0x417a; 0x3be5; 0x7784; 0x5962].

(** ATNDeserializer.DeserializeFromUInt16.  Tables with symbol sets or lexer actions are not
    read: these have none. *)
Definition read_atn : reader atn :=
  let! version := word in
  let! uuid := times 8 word in
  if negb (version =? 3) || negb (text_eqb uuid format_uuid) then fail else
  let! grammar := word in
  let! _ := word in
  let! states := counted read_state in
  let! _ := counted word in
  let! _ := counted word in
  let! rules := counted (read_rule (grammar =? 0)) in
  let! modes := counted word in
  let! sets := word in
  let! sets32 := word in
  if negb (sets =? 0) || negb (sets32 =? 0) then fail else
  let! edges := counted read_edge in
  let! decisions := counted word in
  let! actions := (if grammar =? 0 then word else ret 0) in
  if negb (actions =? 0) then fail else
  ret {| a_states := states; a_rules := rules; a_modes := modes; a_edges := edges; a_decisions := decisions |}.

(** All words but the first are stored two higher, modulo 2^16; nothing may be left over. *)
Definition deserialize (table : list N) : option atn :=
  match table with
  | [] => None
  | v :: r =>
      match read_atn (v :: map (fun x => (x + 65534) mod 65536) r) with
      | Some (a, []) => Some a
      | _ => None
      end
  end.

Definition no_atn : atn := {| a_states := []; a_rules := []; a_modes := []; a_edges := []; a_decisions := [] |}.
(** shell_lexer.go:25-26 and shell_parser.go:36-37 *)
Definition lexer_table : atn := match deserialize serialized_lexer_atn with Some a => a | None => no_atn end.
Definition parser_table : atn := match deserialize parser_atn with Some a => a | None => no_atn end.

(* ------------------------------------------------------------------ *)
(** ** Walking through a table *)

(** Where one is, and the states to come back to from the rules entered.  With [wild] the calls
    below the stack are unknown: a rule may return to wherever it is called from. *)
Definition config : Type := N * list N.

(** the transitions of a state (antlr BaseATNState.GetTransitions) *)
Definition edges_from (a : atn) (s : N) : list edge := filter (fun e => e_src e =? s) (a_edges a).
(** antlr ATN.states[s] *)
Definition state_at (a : atn) (s : N) : option state := nth_error (a_states a) (N.to_nat s).
(** antlr: the state is a RuleStopState *)
Definition is_stop (a : atn) (s : N) : bool :=
  match state_at a s with Some st => s_type st =? ty_rule_stop | None => false end.
(** antlr BaseATNState.GetRuleIndex *)
Definition rule_at (a : atn) (s : N) : N := match state_at a s with Some st => s_rule st | None => 65535 end.

(** the states after the calls of the rule *)
Definition followers (a : atn) (rule : N) : list N :=
  map e_dst (filter (fun e => (e_type e =? tr_rule) && (e_arg2 e =? rule)) (a_edges a)).

(** antlr closure: one step that reads nothing *)
Definition eps_succ (a : atn) (wild : bool) (c : config) : list config :=
  let '(s, k) := c in
  if is_stop a s then
    match k with
    | r :: k' => [(r, k')]
    | [] => if wild then map (fun r => (r, [])) (followers a (rule_at a s)) else []
    end
  else flat_map (fun e => if e_type e =? tr_epsilon then [(e_dst e, k)]
                          else if e_type e =? tr_rule then [(e_arg1 e, e_dst e :: k)]
                          else []) (edges_from a s).

(** A wildcard matches every code point (up to 0x10FFFF, the largest there is). *)
Definition reads (e : edge) (t : N) : bool :=
  ((e_type e =? tr_atom) && (e_arg1 e =? t)) || ((e_type e =? tr_wildcard) && (t <=? 0x10FFFF)).
Definition tok_succ (a : atn) (t : N) (c : config) : list config :=
  let '(s, k) := c in
  map (fun e => (e_dst e, k)) (filter (fun e => reads e t) (edges_from a s)).

(** antlr closure and reach together: reading a list of token types leads from one configuration to another *)
Inductive walks (a : atn) (wild : bool) : config -> list N -> config -> Prop :=
| W_here c : walks a wild c [] c
| W_eps c c1 u c' : In c1 (eps_succ a wild c) -> walks a wild c1 u c' -> walks a wild c u c'
| W_tok c t c1 u c' : In c1 (tok_succ a t c) -> walks a wild c1 u c' -> walks a wild c (t :: u) c'.

(* ------------------------------------------------------------------ *)
(** ** The lexer *)

(** shell_lexer.go:63-79: the interpreter starts at the state of mode 0, whose transitions lead to
    the rules in the order of the grammar.  Rule number [r] matches [w]. *)
Definition lexer_start : N := nth 0 (a_modes lexer_table) 65535.
Definition rule_start (r : nat) : option N :=
  match nth_error (edges_from lexer_table lexer_start) r with Some e => Some (e_dst e) | None => None end.
Definition rule_matches (r : nat) (w : text) : Prop :=
  exists s e, rule_start r = Some s /\ walks lexer_table false (s, []) w (e, []) /\
    is_stop lexer_table e = true /\ rule_at lexer_table e = rule_at lexer_table s.
Definition token_type (r : nat) : N := snd (nth r (a_rules lexer_table) (0, 0)).

(** The next token of the input: its type and length.  The longest match counts, and of the rules
    that match it the first. *)
Definition next_token (input : text) (ty : N) (n : nat) : Prop :=
  (0 < n <= length input)%nat /\
  exists r, ty = token_type r /\ rule_matches r (firstn n input) /\
    (forall r' m, (n < m <= length input)%nat -> ~ rule_matches r' (firstn m input)) /\
    (forall r', (r' < r)%nat -> ~ rule_matches r' (firstn n input)).

(** shell_lexer.go:82-86 and shell_parser.go:76-81: the token types; a token with its text.  The
    tokens of this grammar have one code point. *)
Definition as_token (ty : N) (w : text) : option tok :=
  match w with
  | [r] => if ty =? 1 then Some ESC else if ty =? 2 then Some SPACE else if ty =? 3 then Some (NORMAL r) else None
  | _ => None
  end.

(** parser.go:10-16 (getParser): the token stream of a line *)
Inductive lexes : text -> list tok -> Prop :=
| Lex_end : lexes [] []
| Lex_token input ty n t ts : next_token input ty n -> as_token ty (firstn n input) = Some t ->
    lexes (skipn n input) ts -> lexes input (t :: ts).

(* ------------------------------------------------------------------ *)
(** ** What the generated parser asks the runtime *)

(** shell_parser.go:78-80: the types of the tokens *)
Definition tok_type (t : tok) : N := match t with ESC => 1 | SPACE => 2 | NORMAL _ => 3 end.

(** LA(1): [None] at the end of the input *)
Definition look (ts : list tok) : option N := match ts with [] => None | t :: _ => Some (tok_type t) end.

(** DefaultErrorStrategy.Sync in state [s]: nothing is reported if the next token can come next,
    or if the rule may end here. *)
Definition in_sync (s : N) (ts : list tok) : Prop :=
  (exists e, walks parser_table false (s, []) [] (e, []) /\ is_stop parser_table e = true /\
             rule_at parser_table e = rule_at parser_table s) \/
  (exists t c, look ts = Some t /\ walks parser_table false (s, []) [] c /\ tok_succ parser_table t c <> []).

(** ParserATNSimulator.AdaptivePredict for decision [d].  The alternatives are the transitions of
    the decision's state, numbered from 1.  They are followed in parallel over more and more of the
    input, first with unknown calls below ([wild]), then if need be with the actual ones [k]
    (the states to return to).  It stops when one alternative is left, or when two have become
    the same (they will stay the same); at the end of the input only those count that can end
    there.  The smallest alternative left is taken. *)
Definition alternative (d i : nat) : option N :=
  match nth_error (edges_from parser_table (nth d (a_decisions parser_table) 65535)) (i - 1) with
  | Some e => if (0 <? i)%nat then Some (e_dst e) else None
  | None => None
  end.
Definition along (wild : bool) (k : list N) (d i : nat) (u : list N) (c : config) : Prop :=
  exists s, alternative d i = Some s /\ walks parser_table wild (s, if wild then [] else k) u c.
Definition viable wild k d i u : Prop := exists c, along wild k d i u c.
Definition may_end wild k d i u : Prop :=
  exists c, along wild k d i u c /\ is_stop parser_table (fst c) = true /\ eps_succ parser_table wild c = [].

(** antlr AdaptivePredict: alternative [i] is the one chosen *)
Inductive predicts (wild : bool) (k : list N) (d : nat) (ts : list tok) (i : nat) : Prop :=
| P_alone n : (0 < n <= length ts)%nat -> viable wild k d i (firstn n (map tok_type ts)) ->
    (forall j, viable wild k d j (firstn n (map tok_type ts)) -> j = i) -> predicts wild k d ts i
| P_same n j1 j2 c : (0 < n <= length ts)%nat -> viable wild k d i (firstn n (map tok_type ts)) ->
    (forall j, viable wild k d j (firstn n (map tok_type ts)) -> (i <= j)%nat) ->
    j1 <> j2 -> along wild k d j1 (firstn n (map tok_type ts)) c -> along wild k d j2 (firstn n (map tok_type ts)) c ->
    predicts wild k d ts i
| P_end : may_end wild k d i (map tok_type ts) ->
    (forall j, may_end wild k d j (map tok_type ts) -> (i <= j)%nat) -> predicts wild k d ts i.
(** no alternative is left: a syntax error *)
Definition no_viable (wild : bool) (k : list N) (d : nat) (ts : list tok) : Prop :=
  (exists n, (0 < n <= length ts)%nat /\ forall i, ~ viable wild k d i (firstn n (map tok_type ts))) \/
  (forall i, ~ may_end wild k d i (map tok_type ts)).

(* ------------------------------------------------------------------ *)
(** ** The generated rule functions *)

(** What a rule function leaves: its part of the tree and the tokens not read, or a syntax error
    (reported on standard error; what the recovery does then is not modelled). *)
Inductive result (A : Type) : Type := Parsed (x : A) (rest : list tok) | SyntaxError.
Arguments Parsed {A}. Arguments SyntaxError {A}.
(** one rule method calling another (shell_parser.go): a syntax error goes on as one *)
Definition also {A B} (r : result A) (f : A -> list tok -> result B) : result B :=
  match r with Parsed x ts => f x ts | SyntaxError => SyntaxError end.

(** BaseParser.Match *)
Definition match_token (ty : N) (ts : list tok) : result tok :=
  match ts with
  | t :: r => if tok_type t =? ty then Parsed t r else SyntaxError
  | [] => SyntaxError
  end.

(** A rule function called after SetState([s]) knows its caller by [s]: the state to return to is
    the target of the transition at [s] (invokingState, NewXContext). *)
Definition called_at (s : N) (k : list N) : list N :=
  match edges_from parser_table s with e :: _ => e_dst e :: k | [] => k end.

(** shell_parser.go:744-785: the alternatives of Character *)
Definition character_alt (i : nat) (ts : list tok) : result (list tok) :=
  match i with
  | 1%nat => also (match_token 3 ts) (fun t r => Parsed [t] r)
  | 2%nat => also (match_token 1 ts) (fun t r => also (match_token 2 r) (fun t2 r2 => Parsed [t; t2] r2))
  | 3%nat => also (match_token 1 ts) (fun t r => also (match_token 1 r) (fun t2 r2 => Parsed [t; t2] r2))
  | 4%nat => also (match_token 1 ts) (fun t r => Parsed [t] r)
  | _ => Parsed [] ts
  end.

(** shell_parser.go:726-788 (Character), called with the states [k] to return to *)
Inductive character_run (k : list N) (ts : list tok) : result (list tok) -> Prop :=
| Chr_sync : ~ in_sync 38 ts -> character_run k ts SyntaxError
| Chr_none wild : in_sync 38 ts -> no_viable wild k 2 ts -> character_run k ts SyntaxError
| Chr_alt wild i : in_sync 38 ts -> predicts wild k 2 ts i -> character_run k ts (character_alt i ts).

(** shell_parser.go:612-650 (RawString): [s] is the state of the last SetState *)
Inductive raw_run (k : list N) : N -> list tok -> result (list (list tok)) -> Prop :=
| Raw_sync s ts : ~ in_sync s ts -> raw_run k s ts SyntaxError
| Raw_stop s ts : in_sync s ts -> look ts <> Some 1 -> look ts <> Some 3 -> raw_run k s ts (Parsed [] ts)
| Raw_bad s ts : in_sync s ts -> look ts = Some 1 \/ look ts = Some 3 ->
    character_run (called_at 26 k) ts SyntaxError -> raw_run k s ts SyntaxError
| Raw_more s ts c rest r : in_sync s ts -> look ts = Some 1 \/ look ts = Some 3 ->
    character_run (called_at 26 k) ts (Parsed c rest) -> raw_run k 31 rest r ->
    raw_run k s ts (also r (fun cs ts' => Parsed (c :: cs) ts')).

(** shell_parser.go:502-529 (CommandString), 308-335 (Command), 405-432 (Parameter) *)
Definition command_string_run (k : list N) (ts : list tok) := raw_run (called_at 24 k) 29 ts.
Definition command_run (k : list N) (ts : list tok) := command_string_run (called_at 20 k) ts.
Definition parameter_run (k : list N) (ts : list tok) := command_string_run (called_at 22 k) ts.

(** shell_parser.go:213-237: the loop of Line *)
Inductive parameters_run : N -> list tok -> result (list (list (list tok))) -> Prop :=
| Par_sync s ts : ~ in_sync s ts -> parameters_run s ts SyntaxError
| Par_stop s ts : in_sync s ts -> look ts <> Some 2 -> parameters_run s ts (Parsed [] ts)
| Par_match s ts : in_sync s ts -> look ts = Some 2 -> match_token 2 ts = SyntaxError -> parameters_run s ts SyntaxError
| Par_bad s ts t ts1 : in_sync s ts -> look ts = Some 2 -> match_token 2 ts = Parsed t ts1 ->
    parameter_run (called_at 14 []) ts1 SyntaxError -> parameters_run s ts SyntaxError
| Par_more s ts t ts1 p rest r : in_sync s ts -> look ts = Some 2 -> match_token 2 ts = Parsed t ts1 ->
    parameter_run (called_at 14 []) ts1 (Parsed p rest) -> parameters_run 19 rest r ->
    parameters_run s ts (also r (fun ps ts' => Parsed (p :: ps) ts')).

(** shell_parser.go:192-238 (Line) *)
Inductive line_run (ts : list tok) : result line_tree -> Prop :=
| Line_bad : command_run (called_at 12 []) ts SyntaxError -> line_run ts SyntaxError
| Line_tree c rest r : command_run (called_at 12 []) ts (Parsed c rest) -> parameters_run 17 rest r ->
    line_run ts (also r (fun ps ts' => Parsed {| t_command := c; t_parameters := ps |} ts')).
