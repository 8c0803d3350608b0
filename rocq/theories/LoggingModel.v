(** Model of logging/logger.go, logging/level.go, logging/cutoff.go and of the logging flags
    of cmd/flags.go.  Strings are byte lists here (Go strings); literals are ASCII. *)
From Verif Require Import GoBase.
Local Open Scope Z_scope.

(* ------------------------------------------------------------------ *)
(** ** Levels *)

(** level.go:12-20: a level is an int *)
Definition LevelTrace : Z := 0.
Definition LevelDebug : Z := 1.
Definition LevelInfo : Z := 2.
Definition LevelWarn : Z := 3.
Definition LevelError : Z := 4.
Definition LevelFatal : Z := 5.
Definition LevelOff : Z := 6.

(** level.go:43-46 (LevelName) *)
Record level_name := { n_full : text; n_short : text }.

(** level.go:33-40 (LevelNames): a map from level to names, as a list of its entries *)
Definition level_names : list (Z * level_name) :=
  [ (LevelTrace, {| n_full := T "TRACE"; n_short := T "TRC" |});
    (LevelDebug, {| n_full := T "DEBUG"; n_short := T "DBG" |});
    (LevelInfo,  {| n_full := T "INFO";  n_short := T "INF" |});
    (LevelWarn,  {| n_full := T "WARN";  n_short := T "WRN" |});
    (LevelError, {| n_full := T "ERROR"; n_short := T "ERR" |});
    (LevelFatal, {| n_full := T "FATAL"; n_short := T "FTL" |}) ].

(** Reading a missing key of the map gives the zero value: empty names. *)
Definition names_of (l : Z) : level_name :=
  match find (fun e => Z.eqb (fst e) l) level_names with
  | Some e => snd e
  | None => {| n_full := []; n_short := [] |}
  end.

(** level.go:23-30 (FullName, ShortName) *)
Definition full_name (l : Z) : text := n_full (names_of l).
Definition short_name (l : Z) : text := n_short (names_of l).

(** level.go:48-50 (shouldLog) *)
Definition should_log (level cutoff : Z) : bool := cutoff <=? level.

(** unicode.ToLower on ASCII; [other] is what it does above ASCII. *)
Definition lower_rune (other : rune -> rune) (c : rune) : rune :=
  if (c <? 128)%N then (if (65 <=? c)%N && (c <=? 90)%N then (c + 32)%N else c)%bool else other c.
(** strings.ToLower, on code points *)
Definition to_lower (other : rune -> rune) (s : text) : text := map (lower_rune other) s.

(** level.go:53-61 (LevelByName).  The loop ranges over a map: [order] is the order in which
    its entries come, which changes from call to call. *)
Definition level_by_name (other : rune -> rune) (order : list (Z * level_name)) (name : text) : Z :=
  let name := to_lower other name in
  match find (fun e => text_eqb (to_lower other (n_full (snd e))) name
                       || text_eqb (to_lower other (n_short (snd e))) name)%bool order with
  | Some e => fst e
  | None => LevelOff
  end.

(* ------------------------------------------------------------------ *)
(** ** Cutoffs *)

(** cutoff.go:4-7: CutoffLevels (newest assignment first) and DefaultCutoffLevel *)
Record cutoffs := { k_levels : list (text * Z); k_default : Z }.
Definition initial_cutoffs : cutoffs := {| k_levels := []; k_default := LevelInfo |}.

(** cutoff.go:9-14 (cutoffLevel) *)
Definition cutoff_level (k : cutoffs) (name : text) : Z :=
  match find (fun e => text_eqb (fst e) name) (k_levels k) with
  | Some e => snd e
  | None => k_default k
  end.

(* ------------------------------------------------------------------ *)
(** ** Loggers *)

(** strings.NewReplacer(pairs...).Replace(s): at each position the first pair (in argument
    order) whose old string occurs there is used; the text put in is not looked at again.
    All old strings here are non-empty.  [fuel]: the length of [s] is enough. *)
Fixpoint replace (fuel : nat) (pairs : list (text * text)) (s : text) : text :=
  match fuel with
  | O => s
  | S f =>
      match s with
      | [] => []
      | c :: r =>
          match find (fun p => has_prefix s (fst p)) pairs with
          | Some p => snd p ++ replace f pairs (skipn (length (fst p)) s)
          | None => c :: replace f pairs r
          end
      end
  end.

(** logger.go:19 *)
Definition format : text := T "[{lvl}] [{name}] {date}: {message}".

(** Where a line goes: logging/logger.go 28-44 *)
Inductive stream := Stdout | Stderr.

(** logger.go:28-44 (GetLogger): the writes of one call of the logger called [name] when
    DateProvider returns [date]; fmt.Fprintln is one write. *)
Definition log_call (k : cutoffs) (name date msg : text) (level : Z) : outcome (list (stream * text)) :=
  do print_name <- slice_to (name ++ T "    ") 4;
  if negb (should_log level (cutoff_level k name)) then Ok []
  else
    let m := replace (length format)
               [ (T "{lvl}", short_name level); (T "{level}", full_name level);
                 (T "{name}", print_name); (T "{date}", date); (T "{message}", msg); (T "{msg}", msg) ] format in
    Ok [ (if level <? LevelWarn then Stdout else Stderr, m ++ [10%N]) ].

(* ------------------------------------------------------------------ *)
(** ** Flags *)

(** flags.go:46-52, 66-77: the names of the logging flags (newLoggingFlag; the field logName
    is never set) *)
Definition flag_name (name : text) : text := name ++ T "-logging".
Definition logging_flags : list text := map flag_name [T "comm"; T "play"; T "shed"; T "ssh"; T "time"].

(** strings.Split(s, ",")[0] *)
Fixpoint before_comma (s : text) : text :=
  match s with
  | [] => []
  | c :: r => if (c =? 44)%N then [] else c :: before_comma r
  end.
(** flags.go:230-232 (FlagKey) *)
Definition flag_key (name : text) : text := before_comma name.

(** flags.go:80-93 (HandleLoggingFlags): [given] is ctx.String; [by_name] log.LevelByName *)
Definition handle_logging_flags (by_name : text -> Z) (given : text -> text) (k : cutoffs) : cutoffs :=
  let levels := fold_left (fun l f => match given (flag_key f) with
                                      | [] => l
                                      | v => (f, by_name v) :: l
                                      end) logging_flags (k_levels k) in
  {| k_levels := levels;
     k_default := match given (T "logging") with [] => k_default k | v => by_name v end |}.

(** The names the packages give their loggers: comm/log.go:5, playback/playback.go:29,
    schedule/schedule.go:9, ssh/ssh.go:21, timing/timing.go:11. *)
Definition logger_names : list text := [T "comm"; T "play"; T "shed"; T "ssh"; T "time"].
