(** What ssh/parser/Shell.g4 says about a line of text (code points; 92 is the backslash, 32 the
    space), with antlr's rules for what the grammar leaves open: repetitions take as much as they
    can, and where several alternatives fit the first one in the file is taken. *)
From Verif Require Import GoBase.
Local Open Scope N_scope.

(** character: NORMAL_CHARACTER | ESCAPE_CHARACTER SPACE | ESCAPE_CHARACTER ESCAPE_CHARACTER
    | ESCAPE_CHARACTER; *)
Inductive form : nat -> text -> Prop :=
| form_normal r : r <> 92 -> r <> 32 -> form 1 [r]
| form_space : form 2 [92; 32]
| form_escape : form 3 [92; 92]
| form_lone : form 4 [92].

Definition fits (i : nat) (s : text) : Prop := exists w tail, form i w /\ s = w ++ tail.

(** rawString: character*;   [raw s cs rest]: [s] begins with the characters [cs], [rest] is left *)
Inductive raw : text -> list text -> text -> Prop :=
| raw_end s : (forall i, ~ fits i s) -> raw s [] s
| raw_character i w s cs rest : form i w -> (forall j, (j < i)%nat -> ~ fits j (w ++ s)) ->
    raw s cs rest -> raw (w ++ s) (w :: cs) rest.

(** (SPACE parameter)* to the end of the line *)
Inductive parameters : text -> list (list text) -> Prop :=
| parameters_end : parameters [] []
| parameters_more s p rest ps : raw s p rest -> parameters rest ps -> parameters (32 :: s) (p :: ps).

(** line: command (SPACE parameter)*; *)
Definition shell_line (s : text) (command : list text) (params : list (list text)) : Prop :=
  exists rest, raw s command rest /\ parameters rest params.

(** Unicode's code points: what a Go string of runes holds *)
Definition code_points (s : text) : Prop := Forall (fun c => c <= 0x10FFFF) s.

(** the line put together again from its parts *)
Definition put_together (command : list text) (params : list (list text)) : text :=
  concat command ++ concat (map (fun p => 32 :: concat p) params).
