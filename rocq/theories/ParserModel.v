(** Model of ssh/parser/parser.go and of the grammar ssh/parser/Shell.g4 (with the code
    generated from it in ssh/parser/shell_parser/shell_parser.go).

    Strings are lists of code points: [antlr.NewInputStream] converts the line to
    []rune, and every string the parser builds is valid UTF-8. *)
From Verif Require Import GoBase GoUtf8.
Local Open Scope N_scope.

(* ------------------------------------------------------------------ *)
(** ** Lexer *)

(** Shell.g4:16-18: every code point is one token, the first matching rule wins. *)
Inductive tok := ESC | SPACE | NORMAL (r : rune).

(** ssh/parser/Shell.g4 16-18 on one code point *)
Definition lex_rune (r : rune) : tok :=
  if r =? 92 then ESC else if r =? 32 then SPACE else NORMAL r.

(** the text of a token *)
Definition tok_rune (t : tok) : rune :=
  match t with ESC => 92 | SPACE => 32 | NORMAL r => r end.

(* ------------------------------------------------------------------ *)
(** ** Parser *)

(** Shell.g4:11-13 (rawString, character); shell_parser.go: RawString loops while the
    next token is ESCAPE_CHARACTER or NORMAL_CHARACTER; Character picks its alternative
    by adaptive prediction.  Every continuation of the input is viable for every
    alternative that matches the next two tokens, so the prediction resolves to the
    smallest alternative number: [ESC SPACE] before [ESC ESC] before [ESC].
    A character is the list of its tokens. *)
Fixpoint raw_string (ts : list tok) : list (list tok) * list tok :=
  match ts with
  | NORMAL r :: t => let '(cs, rest) := raw_string t in ([NORMAL r] :: cs, rest)
  | ESC :: SPACE :: t => let '(cs, rest) := raw_string t in ([ESC; SPACE] :: cs, rest)
  | ESC :: ESC :: t => let '(cs, rest) := raw_string t in ([ESC; ESC] :: cs, rest)
  | ESC :: t => let '(cs, rest) := raw_string t in ([ESC] :: cs, rest)
  | _ => ([], ts)
  end.

(** The loop of shell_parser.go:Line: [(SPACE parameter)*].  Each round consumes a token;
    [fuel] is the number of tokens. *)
Fixpoint parameters_loop (fuel : nat) (ts : list tok) : list (list (list tok)) :=
  match fuel, ts with
  | S f, SPACE :: t => let '(p, rest) := raw_string t in p :: parameters_loop f rest
  | _, _ => []
  end.

(** The parse tree of a line: Shell.g4 3-9 *)
Record line_tree := { t_command : list (list tok); t_parameters : list (list (list tok)) }.

(** Shell.g4:3-9 (line, command, parameter, commandString) *)
Definition parse_line (ts : list tok) : line_tree :=
  let '(c, rest) := raw_string ts in
  {| t_command := c; t_parameters := parameters_loop (length ts) rest |}.

(* ------------------------------------------------------------------ *)
(** ** Listener *)

(** parser.go:19-22 (ParsedCommand) *)
Record parsed_command := { p_command : text; p_params : list text }.

(** parser.go:64-68 (ExitCharacter): indexing the string gives its last *byte*; string(b)
    is the string of the code point b. *)
Definition exit_character (current : text) (chr : list tok) : text :=
  let b := utf8_encode (map tok_rune chr) in
  match rev b with
  | [] => current
  | x :: _ => current ++ [x]
  end.

(** parser.go:60-62, 70-72 (EnterCommandString, ExitCommandString) around one
    commandString: the string stored.  The map commandStrings is keyed by the index of
    the first token of the commandString and is read (ExitCommand, ExitParameter)
    directly after it was written for the same node, so it is not modelled. *)
Definition command_string (chrs : list (list tok)) : text :=
  fold_left exit_character chrs [].

(** parser.go:74-80 (ExitCommand) *)
Definition exit_command (c : parsed_command) (str : text) : parsed_command :=
  {| p_command := str; p_params := p_params c |}.

(** parser.go:82-91 (ExitParameter) *)
Definition exit_parameter (c : parsed_command) (str : text) : parsed_command :=
  match str with
  | [] => c
  | _ => {| p_command := p_command c; p_params := p_params c ++ [str] |}
  end.

(** unicode.IsSpace *)
Definition is_space (r : rune) : bool :=
  (between 9 13 r || (r =? 32) || (r =? 0x85) || (r =? 0xA0) || (r =? 0x1680)
   || between 0x2000 0x200A r || (r =? 0x2028) || (r =? 0x2029) || (r =? 0x202F)
   || (r =? 0x205F) || (r =? 0x3000))%bool.

(** strings.TrimSpace, at the front (used by ssh/parser/parser.go 92-98) *)
Fixpoint trim_left (t : text) : text :=
  match t with
  | [] => []
  | c :: r => if is_space c then trim_left r else t
  end.

(** strings.TrimSpace *)
Definition trim_space (t : text) : text := rev (trim_left (rev (trim_left t))).

(** parser.go:93-98 (ExitLine) *)
Definition exit_line (c : parsed_command) : parsed_command :=
  {| p_command := trim_space (p_command c); p_params := map trim_space (p_params c) |}.

(** antlr.ParseTreeWalkerDefault.Walk with the listener on the tree, parser.go:53-58
    (newShellListener) for the start. *)
Definition walk (t : line_tree) : parsed_command :=
  let c0 := {| p_command := []; p_params := [] |} in
  let c1 := exit_command c0 (command_string (t_command t)) in
  let c2 := fold_left (fun c p => exit_parameter c (command_string p)) (t_parameters t) c1 in
  exit_line c2.

(** parser.go:38-44 (ParseCommand) *)
Definition parse_command (line : text) : parsed_command := walk (parse_line (map lex_rune line)).

(* ------------------------------------------------------------------ *)
(** ** Unparse *)

(** strings.Replace(s, " ", "\\ ", -1) *)
Definition escape_spaces (s : text) : text := flat_map (fun c => if c =? 32 then [92; 32] else [c]) s.

(** parser.go:25-35 (Unparse) *)
Definition unparse (c : parsed_command) : text :=
  match p_params c with
  | [] => escape_spaces (p_command c) ++ [32]
  | _ => escape_spaces (p_command c) ++ [32] ++ join [32] (map escape_spaces (p_params c)) ++ [32]
  end.
