(** What a user of the control shell expects, stated without the command loop. *)
From Verif Require Import GoBase PlaylistModel ParserModel ParserSpec CommandsModel.
Local Open Scope Z_scope.

(** [line] asks for the command [name] with the arguments [args]. *)
Definition asks_for (line name : text) (args : list text) : Prop :=
  exists w ws, reads line (spelled (w :: ws)) /\ trimmed w name /\ Forall2 trimmed (filter nonempty ws) args.

(** Text printed for a message: it always ends with exactly the newline it has or, if it has
    none, one that is added. *)
Definition printed (msg out : text) : Prop :=
  (exists m, msg = m ++ [10%N] /\ out = msg) \/
  ((forall m, msg <> m ++ [10%N]) /\ out = msg ++ [10%N]).

(** One line of a session: [means l name args] tells what the line asks for, [known] is the set of
    commands; the line runs at most the one command it names. *)
Inductive line_does (known : list command) : text -> list text -> cstate -> bool -> cstate -> text -> Prop :=
| L_run c name args st st' msg out :
    In c known -> cmd_name c = name ->
    cmd_exec c args st = Ok (msg, true, st') -> printed msg out ->
    line_does known name args st true st' out
| L_usage c name args st st' msg :
    In c known -> cmd_name c = name ->
    cmd_exec c args st = Ok (msg, false, st') ->
    line_does known name args st true st' (usage c ++ [10%N])
| L_clear args st :
    (forall c, In c known -> cmd_name c <> T "clear") ->
    line_does known (T "clear") args st true st [27%N; 91%N; 72%N]
| L_exit args st :
    (forall c, In c known -> cmd_name c <> T "exit") ->
    line_does known (T "exit") args st false st []
| L_unknown name args st :
    (forall c, In c known -> cmd_name c <> name) -> name <> T "clear" -> name <> T "exit" ->
    line_does known name args st true st
      (T "Unknown command '" ++ name ++ T "'. Type 'help' for help." ++ [10%N]).

(** A session: lines are handled one after the other, each exactly once, until `exit`, end of
    input or an error; the flag tells whether the session has ended. *)
Inductive session (known : list command) (means : text -> text -> list text -> Prop)
  : list input -> cstate -> bool -> cstate -> text -> Prop :=
| Se_waiting st : session known means [] st false st []
| Se_eof r st : session known means (Eof :: r) st true st []
| Se_error r st : session known means (ReadError :: r) st true st []
| Se_line l name args r st st1 out1 e st2 out2 :
    means l name args -> line_does known name args st true st1 out1 ->
    session known means r st1 e st2 out2 ->
    session known means (Line l :: r) st e st2 (out1 ++ out2)
| Se_exit l name args r st st1 out1 :
    means l name args -> line_does known name args st false st1 out1 ->
    session known means (Line l :: r) st true st1 out1.

Definition no_interrupt (ins : list input) : Prop := Forall (fun i => forall l, i <> Interrupt l) ins.

(** Pressing Enter where Ctrl-C was pressed. *)
Definition entered (i : input) : input := match i with Interrupt l => Line l | _ => i end.

(** Dictionary order of names *)
Inductive dict_before : text -> text -> Prop :=
| DB_shorter p c r : dict_before p (p ++ c :: r)
| DB_letter p c d r r' : (c < d)%N -> dict_before (p ++ c :: r) (p ++ d :: r').

(** Lines of a text *)
Definition one_per_line (l : list text) : text :=
  match l with [] => [] | x :: r => x ++ flat_map (fun y => 10%N :: y) r end.

(** How many arguments a usage text says a command must get, and how many more it may get: words are
    mandatory, groups in square brackets optional. *)
Fixpoint usage_arguments (inside word : bool) (u : text) : nat * nat :=
  match u with
  | [] => (0, 0)%nat
  | c :: r =>
      if N.eqb c 91 then let '(m, o) := usage_arguments true false r in (m, S o)
      else if N.eqb c 93 then usage_arguments false false r
      else if inside then usage_arguments true false r
      else if N.eqb c 32 then usage_arguments false false r
      else if word then usage_arguments false true r
      else let '(m, o) := usage_arguments false true r in (S m, o)
  end.
Definition must_get (u : text) : nat := fst (usage_arguments false false u).
Definition may_get (u : text) : nat := must_get u + snd (usage_arguments false false u).
