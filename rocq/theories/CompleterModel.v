(** Model of ssh/auto_completer.go and of the command registry of ssh/command.go. *)
From Verif Require Import GoBase GoUtf8 ParserModel.
Local Open Scope Z_scope.

(** ssh/command.go:28-38 (Command), without the parts not used by the completer: the name and
    OptionsFunc, which may be nil. *)
Record reg_command := { c_name : text; c_options_func : option (text -> Z -> list text) }.

(** ssh/command.go:46-51 (Options) *)
Definition options (c : reg_command) (prefix : text) (arg : Z) : list text :=
  match c_options_func c with
  | None => []
  | Some f => f prefix arg
  end.

(** ssh/command.go:65-72 (commandByName): the first one with that name. *)
Definition command_by_name (reg : list reg_command) (name : text) : option reg_command :=
  find (fun c => text_eqb (c_name c) name) reg.

(** auto_completer.go:33-39 (commandNames) *)
Definition command_names (reg : list reg_command) : list text :=
  [T "clear"; T "exit"] ++ map c_name reg.

(** auto_completer.go:64-72 (filterByPrefix) *)
Definition filter_by_prefix (l : list text) (prefix : text) : list text :=
  filter (fun e => has_prefix e prefix) l.

(** []rune(s[pos:]) for a valid UTF-8 string [s] given by its code points: [pos] counts
    bytes; cutting inside a character leaves continuation bytes, each of which decodes
    to U+FFFD. *)
Fixpoint bytes_from (s : text) (pos : nat) : outcome text :=
  match pos with
  | O => Ok s
  | _ =>
      match s with
      | [] => Panic
      | c :: r =>
          let w := length (utf8_encode_rune c) in
          if Nat.leb w pos then bytes_from r (pos - w)
          else Ok (repeat 0xFFFD%N (w - pos) ++ r)
      end
  end.

(** auto_completer.go:44 and 57: slicing panics for a negative index or one behind the end *)
Definition runes_of_bytes_from (s : text) (pos : Z) : outcome text :=
  if pos <? 0 then Panic else bytes_from s (Z.to_nat pos).

(** the loops of auto_completer.go:42-46 and 55-58; a panic in one turn ends them *)
Fixpoint omap {A B} (f : A -> outcome B) (l : list A) : outcome (list B) :=
  match l with
  | [] => Ok []
  | a :: r => do b <- f a; do bs <- omap f r; Ok (b :: bs)
  end.

(** auto_completer.go:41-48 (commandsWithPrefix): one more for each name with the prefix *)
Definition commands_with_prefix (reg : list reg_command) (cmd : parsed_command) (pos : Z) : outcome (list text) :=
  omap (fun c => runes_of_bytes_from (c ++ [32%N]) pos)
       (filter_by_prefix (command_names reg) (p_command cmd)).

(** cmd.Parameters[argNum] = o with argNum = len-1 *)
Definition with_last_param (cmd : parsed_command) (o : text) : parsed_command :=
  {| p_command := p_command cmd; p_params := removelast (p_params cmd) ++ [o] |}.

(** auto_completer.go:50-62 (commandArgOptionsWithPrefix) *)
Definition command_arg_options_with_prefix (reg : list reg_command) (cmd : parsed_command) (pos : Z)
  : outcome (list text) :=
  match command_by_name reg (p_command cmd) with
  | None => Ok []
  | Some c =>
      let arg_num := zlen (p_params cmd) - 1 in
      do arg <- slice_get (p_params cmd) arg_num;
      omap (fun o => slice_from (unparse (with_last_param cmd o)) pos)
           (filter_by_prefix (options c arg arg_num) arg)
  end.

(** auto_completer.go:10-31 (Do): line and cursor position; the result is the list of
    completions and the length returned. *)
Definition do_complete (reg : list reg_command) (line : text) (pos : Z) : outcome (list text * Z) :=
  let last_char := last line 0%N in
  let cmd0 := parse_command line in
  let cmd := if (last_char =? 32)%N
             then {| p_command := p_command cmd0; p_params := p_params cmd0 ++ [[]] |}
             else cmd0 in
  do new_line <-
    (match p_params cmd with
     | [] => if (last_char =? 32)%N then command_arg_options_with_prefix reg cmd pos
             else commands_with_prefix reg cmd pos
     | _ => command_arg_options_with_prefix reg cmd pos
     end);
  Ok (new_line, pos).

(** ssh/command.go:111-122 (OptionsFunc of helpCommand, reading the registry) *)
Definition help_options (reg_names : list text) (prefix : text) (arg : Z) : list text :=
  if negb (arg =? 0) then []
  else [T "clear"; T "exit"] ++ filter (fun n => has_prefix n prefix) reg_names.

(** The commands of ssh alone, ssh/command.go:74-158: help and ls (ls has its own options, here
    given by the sub directories [dirs] offered). *)
Definition ssh_registry (ls_opts : text -> Z -> list text) : list reg_command :=
  [ {| c_name := T "help"; c_options_func := Some (help_options [T "help"; T "ls"]) |};
    {| c_name := T "ls"; c_options_func := Some ls_opts |} ].
