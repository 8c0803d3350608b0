(** What a log line looks like and what level names there are, as a user is told. *)
From Verif Require Import GoBase.
Local Open Scope Z_scope.

(** The six levels a message can have, with the names used for them. *)
Inductive severity := Trace | Debug | Info | Warn | Error | Fatal.
Definition rank (s : severity) : Z :=
  match s with Trace => 0 | Debug => 1 | Info => 2 | Warn => 3 | Error => 4 | Fatal => 5 end.
Definition short (s : severity) : text :=
  match s with
  | Trace => T "TRC" | Debug => T "DBG" | Info => T "INF" | Warn => T "WRN" | Error => T "ERR" | Fatal => T "FTL"
  end.
(** what can be given to a logging flag *)
Definition spelled (s : severity) : list text :=
  match s with
  | Trace => [T "trace"; T "trc"] | Debug => [T "debug"; T "dbg"] | Info => [T "info"; T "inf"]
  | Warn => [T "warn"; T "wrn"] | Error => [T "error"; T "err"] | Fatal => [T "fatal"; T "ftl"]
  end.

(** a name cut or padded to four bytes *)
Definition four (name : text) : text := firstn 4 (name ++ T "    ").

Definition log_line (s : severity) (name date msg : text) : text :=
  T "[" ++ short s ++ T "] [" ++ four name ++ T "] " ++ date ++ T ": " ++ msg ++ [10%N].

(** The cutoff of a logger: what was last set for its name, otherwise the default.  [levels]
    holds the settings, newest first. *)
Definition has_cutoff (levels : list (text * Z)) (default : Z) (name : text) (c : Z) : Prop :=
  (exists newer older, levels = newer ++ (name, c) :: older /\ ~ In name (map fst newer)) \/
  (~ In name (map fst levels) /\ c = default).
