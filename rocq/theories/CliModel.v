(** Model of the command lines of the three programs: cmd/flags.go, the run functions of
    cmd/music-sync-server/main.go, cmd/music-sync-player/main.go and
    cmd/music-sync-infoer/main.go, and what they rest on: urfave/cli v1.22.4 (go.mod:20),
    the packages flag, strconv and time of Go 1.14.  Texts are bytes (os.Args). *)
From Verif Require Import GoBase GoFmt PlaylistModel PcmModel GoFloat FloatTextModel LoggingModel LifeModel.
Local Open Scope Z_scope.
Local Open Scope bool_scope.

(* ------------------------------------------------------------------ *)
(** ** Integers: strconv.ParseInt(s, 0, 64) and ParseUint(s, 0, 64), atoi.go *)

(** the value of a digit or letter as a digit *)
Definition alnum_val (c : N) : option Z :=
  match dec_val c with
  | Some d => Some d
  | None => if (97 <=? lower c)%N && (lower c <=? 122)%N then Some (Z.of_N (lower c) - 87) else None
  end.
(** the loop of strconv.ParseUint, atoi.go (outside /repo; reached from the flags of cmd/flags.go:118, 131, 151, 176, 189, 208, 215, 222) *)
Fixpoint uint_digits (base : Z) (s : text) (n : Z) : option Z :=
  match s with
  | [] => Some n
  | c :: r =>
      if (c =? 95)%N then uint_digits base r n
      else match alnum_val c with
           | Some d => if d <? base then uint_digits base r (n * base + d) else None
           | None => None
           end
  end.
(** the base prefix *)
Definition base_prefix (s : text) : Z * text :=
  match s with
  | c :: r =>
      if (c =? 48)%N then
        match r with
        | x :: y :: r' =>
            if (lower x =? 98)%N then (2, y :: r')
            else if (lower x =? 111)%N then (8, y :: r')
            else if (lower x =? 120)%N then (16, y :: r')
            else (8, r)
        | _ => (8, r)
        end
      else (10, s)
  | [] => (10, [])
  end.
(** ParseUint without the limit of the range (a result out of range is an error as well, and
    every error is one to the callers) *)
Definition parse_uint (s : text) : option Z :=
  match s with
  | [] => None
  | _ => let '(base, ds) := base_prefix s in
         match uint_digits base ds 0 with
         | Some n => if existsb (N.eqb 95) ds && negb (under_ok s) then None else Some n
         | None => None
         end
  end.
(** strconv.ParseUint(s, 0, 64), atoi.go *)
Definition parse_uint64 (s : text) : option Z :=
  match parse_uint s with Some n => if n <? 2 ^ 64 then Some n else None | None => None end.
(** strconv.ParseInt(s, 0, 64), atoi.go *)
Definition parse_int64 (s : text) : option Z :=
  match s with
  | [] => None
  | _ => let '(neg, r) := strip_sign s in
         match parse_uint64 r with
         | Some n => if neg then (if n <=? 2 ^ 63 then Some (- n) else None)
                     else (if n <? 2 ^ 63 then Some n else None)
         | None => None
         end
  end.

(** strconv.ParseBool *)
Definition parse_bool (s : text) : option bool :=
  if existsb (text_eqb s) [T "1"; T "t"; T "T"; T "true"; T "TRUE"; T "True"] then Some true
  else if existsb (text_eqb s) [T "0"; T "f"; T "F"; T "false"; T "FALSE"; T "False"] then Some false
  else None.

(* ------------------------------------------------------------------ *)
(** ** Durations: time.ParseDuration and Duration.String, time/format.go and time/time.go *)

(** 1<<63 - 1, time/format.go leadingInt *)
Definition max_int64 : Z := 2 ^ 63 - 1.

(** leadingInt; [None] is errLeadingInt (overflow) *)
Fixpoint leading_int (s : text) (x : Z) : option (Z * text) :=
  match s with
  | [] => Some (x, [])
  | c :: r =>
      match dec_val c with
      | None => Some (x, s)
      | Some d =>
          if max_int64 / 10 <? x then None
          else let y := wrap64 (x * 10 + d) in
               if y <? 0 then None else leading_int r y
      end
  end.
(** leadingFraction: digits that would overflow are skipped; the scale is a power of ten,
    as a float *)
Definition float_1 : f64 := 0x3FF0000000000000%N.
(** the 10 of leadingFraction (time/format.go) *)
Definition float_ten : f64 := 0x4024000000000000%N.
Fixpoint leading_fraction (s : text) (x : Z) (scale : f64) (overflow : bool) : Z * f64 * text :=
  match s with
  | [] => (x, scale, [])
  | c :: r =>
      match dec_val c with
      | None => (x, scale, s)
      | Some d =>
          if overflow then leading_fraction r x scale true
          else if max_int64 / 10 <? x then leading_fraction r x scale true
          else let y := wrap64 (x * 10 + d) in
               if y <? 0 then leading_fraction r x scale true
               else leading_fraction r y (fmul scale float_ten) false
      end
  end.
(** the unit: everything up to the next digit or point *)
Fixpoint unit_text (s : text) : text * text :=
  match s with
  | [] => ([], [])
  | c :: r =>
      if (c =? 46)%N || match dec_val c with Some _ => true | None => false end then ([], s)
      else let '(u, r') := unit_text r in (c :: u, r')
  end.
(** unitMap; the micro sign (C2 B5) and the Greek letter mu (CE BC) in UTF-8 *)
Definition unit_map (u : text) : option Z :=
  if text_eqb u (T "ns") then Some 1
  else if text_eqb u (T "us") || text_eqb u [0xC2; 0xB5; 115]%N || text_eqb u [0xCE; 0xBC; 115]%N then Some 1000
  else if text_eqb u (T "ms") then Some 1000000
  else if text_eqb u (T "s") then Some 1000000000
  else if text_eqb u (T "m") then Some 60000000000
  else if text_eqb u (T "h") then Some 3600000000000
  else None.
(** unit / scale, two floats; the scale may have become infinite *)
Definition unit_quotient (unit : Z) (scale : f64) : f64 :=
  if is_inf scale then 0%N else fdiv (f_of_int unit) scale.
(** int64 of a float64 that is not negative and in range *)
Definition to_int64 (x : f64) : Z := f_mag x / f_one.

(** one turn of the loop: the value of the component and the rest *)
Definition duration_part (s : text) : option (Z * text) :=
  match s with
  | [] => None
  | c :: _ =>
      if negb ((c =? 46)%N || match dec_val c with Some _ => true | None => false end) then None else
      match leading_int s 0 with
      | None => None
      | Some (v, s1) =>
          let pre := negb (length s1 =? length s)%nat in
          let '(f, scale, post, s2) :=
            match s1 with
            | p :: r => if (p =? 46)%N
                        then let '(f, scale, s2) := leading_fraction r 0 float_1 false in
                             (f, scale, negb (length s2 =? length r)%nat, s2)
                        else (0, float_1, false, s1)
            | [] => (0, float_1, false, s1)
            end in
          if negb pre && negb post then None else
          let '(u, s3) := unit_text s2 in
          match u with
          | [] => None
          | _ =>
              match unit_map u with
              | None => None
              | Some unit =>
                  if max_int64 / unit <? v then None
                  else
                    let v' := v * unit in
                    let v'' := if 0 <? f then wrap64 (v' + to_int64 (fmul (f_of_int f) (unit_quotient unit scale))) else v' in
                    if v'' <? 0 then None else Some (v'', s3)
              end
          end
      end
  end.
(** the loop of time.ParseDuration (time/format.go); the fuel is the length of the text *)
Fixpoint duration_loop (fuel : nat) (s : text) (d : Z) : option Z :=
  match s with
  | [] => Some d
  | _ =>
      match fuel with
      | O => None
      | S fuel =>
          match duration_part s with
          | None => None
          | Some (v, r) => let d' := wrap64 (d + v) in if d' <? 0 then None else duration_loop fuel r d'
          end
      end
  end.
(** time.ParseDuration (time/format.go; the flags of cmd/flags.go:170, 182, 195, 201) *)
Definition parse_duration (t : text) : option Z :=
  let '(neg, s) := strip_sign t in
  if text_eqb s (T "0") then Some 0
  else match s with
       | [] => None
       | _ => match duration_loop (length s) s 0 with
              | Some d => Some (if neg then - d else d)
              | None => None
              end
       end.

(** fmtFrac: the lowest [prec] digits behind a point, without trailing zeros, and the rest of
    the number *)
Fixpoint fmt_frac (prec : nat) (v : Z) (print : bool) (buf : text) : text * Z :=
  match prec with
  | O => (if print then 46%N :: buf else buf, v)
  | S p =>
      let digit := v mod 10 in
      let print := print || negb (digit =? 0) in
      fmt_frac p (v / 10) print (if print then Z.to_N (digit + 48) :: buf else buf)
  end.
(** Duration.String *)
Definition duration_string (d : Z) : text :=
  let u := Z.abs d in
  let s :=
    if u <? 1000000000 then
      if u =? 0 then T "0s"
      else let '(prec, unit) := if u <? 1000 then (0%nat, T "ns")
                                else if u <? 1000000 then (3%nat, [0xC2; 0xB5; 115]%N)
                                else (6%nat, T "ms") in
           let '(frac, v) := fmt_frac prec u false unit in itoa v ++ frac
    else
      let '(frac, secs) := fmt_frac 9 u false (T "s") in
      let s1 := itoa (secs mod 60) ++ frac in
      let mins := secs / 60 in
      if 0 <? mins then
        let s2 := itoa (mins mod 60) ++ T "m" ++ s1 in
        let hours := mins / 60 in
        if 0 <? hours then itoa hours ++ T "h" ++ s2 else s2
      else s1 in
  if (d <? 0) then 45%N :: s else s.

(* ------------------------------------------------------------------ *)
(** ** The flag set: package flag, flag.go *)

(** the kinds of cli flags used in cmd/flags.go:110-227 (cli adds KBool itself for help and version) *)
Inductive kind := KString | KInt | KUint | KDuration | KBool.
(** the values such a flag can hold (package flag, flag.go) *)
Inductive value := VText (t : text) | VNumber (z : Z) | VBool (b : bool).

(** Value.Set: stringValue, intValue, uintValue, durationValue, boolValue *)
Definition set_value (k : kind) (t : text) : option value :=
  match k with
  | KString => Some (VText t)
  | KInt => option_map VNumber (parse_int64 t)
  | KUint => option_map VNumber (parse_uint64 t)
  | KDuration => option_map VNumber (parse_duration t)
  | KBool => option_map VBool (parse_bool t)
  end.
(** Value.String *)
Definition value_string (k : kind) (v : value) : text :=
  match v with
  | VText t => t
  | VNumber z => match k with KDuration => duration_string z | _ => itoa z end
  | VBool b => if b then T "true" else T "false"
  end.

(** A defined flag: its kind and its present value.  FlagSet.formal is a map from names. *)
Definition flag_set := list (text * (kind * value)).
(** FlagSet.formal[name], flag.go *)
Fixpoint lookup (fs : flag_set) (name : text) : option (kind * value) :=
  match fs with
  | [] => None
  | (n, e) :: r => if text_eqb n name then Some e else lookup r name
  end.
(** Value.Set through FlagSet.formal[name], flag.go *)
Fixpoint store (fs : flag_set) (name : text) (v : value) : flag_set :=
  match fs with
  | [] => []
  | (n, (k, old)) :: r => if text_eqb n name then (n, (k, v)) :: r else (n, (k, old)) :: store r name v
  end.

(** the name and the value of an argument -name=value or --name=value without its dashes: the
    name ends before the first = that is not its first character *)
Fixpoint split_equals (s : text) : text * option text :=
  match s with
  | [] => ([], None)
  | c :: r => if (c =? 61)%N then ([], Some r) else let '(n, v) := split_equals r in (c :: n, v)
  end.
(** the same, after the first character (flag.go parseOne: the search for = starts behind it) *)
Definition name_value (s : text) : text * option text :=
  match s with
  | [] => ([], None)
  | c :: r => let '(n, v) := split_equals r in (c :: n, v)
  end.

(** Parse and parseOne: the flags as set, the names set so far (FlagSet.actual) and the
    arguments that are left, or [false] if there was an error; flags set before the error
    stay set *)
Fixpoint parse (args : list text) (fs : flag_set) (actual : list text) : bool * flag_set * list text * list text :=
  match args with
  | [] => (true, fs, actual, [])
  | s :: rest =>
      match s with
      | c :: c2 :: r =>
          if negb (c =? 45)%N then (true, fs, actual, args)
          else
            let dashes2 := (c2 =? 45)%N in
            if dashes2 && match r with [] => true | _ => false end then (true, fs, actual, rest)
            else
              let name := if dashes2 then r else c2 :: r in
              match name with
              | [] => (false, fs, actual, args)
              | n0 :: _ =>
                  if (n0 =? 45)%N || (n0 =? 61)%N then (false, fs, actual, args)
                  else
                    let '(n, v) := name_value name in
                    match lookup fs n with
                    | None => (false, fs, actual, rest)
                    | Some (k, _) =>
                        match k with
                        | KBool =>
                            match set_value KBool (match v with Some t => t | None => T "true" end) with
                            | Some x => parse rest (store fs n x) (n :: actual)
                            | None => (false, fs, actual, rest)
                            end
                        | _ =>
                            match v with
                            | Some t =>
                                match set_value k t with
                                | Some x => parse rest (store fs n x) (n :: actual)
                                | None => (false, fs, actual, rest)
                                end
                            | None =>
                                match rest with
                                | [] => (false, fs, actual, rest)
                                | t :: rest' =>
                                    match set_value k t with
                                    | Some x => parse rest' (store fs n x) (n :: actual)
                                    | None => (false, fs, actual, rest')
                                    end
                                end
                            end
                        end
                    end
              end
      | _ => (true, fs, actual, args)
      end
  end.

(* ------------------------------------------------------------------ *)
(** ** urfave/cli *)

(** A cli.Flag: Name (all the forms, separated by commas) and Value *)
Record cli_flag := { fl_name : text; fl_kind : kind; fl_value : value }.

(** strings.Split(s, ","), strings.Trim(s, " ") *)
Fixpoint split_comma (s : text) : list text :=
  match s with
  | [] => [[]]
  | c :: r =>
      if (c =? 44)%N then [] :: split_comma r
      else match split_comma r with w :: ws => (c :: w) :: ws | [] => [[c]] end
  end.
(** strings.TrimLeft(s, " ") (strings.go) *)
Fixpoint trim_left (s : text) : text := match s with c :: r => if (c =? 32)%N then trim_left r else s | [] => [] end.
(** strings.Trim(s, " ") (strings.go) *)
Definition trim (s : text) : text := rev (trim_left (rev (trim_left s))).
(** flag.go eachName *)
Definition forms (name : text) : list text := map trim (split_comma name).

(** flag.go flagSet, Flag.Apply: each form of a flag becomes a flag of its own; FlagSet.Var
    panics if a name is defined twice *)
Fixpoint define (names : list text) (e : kind * value) (fs : flag_set) : outcome flag_set :=
  match names with
  | [] => Ok fs
  | n :: r => match lookup fs n with Some _ => Panic | None => define r e (fs ++ [(n, e)]) end
  end.
(** cli's flag.go flagSet: all flags of cmd/music-sync-*/main.go one after the other *)
Fixpoint new_flag_set (flags : list cli_flag) (fs : flag_set) : outcome flag_set :=
  match flags with
  | [] => Ok fs
  | f :: r => do fs' <- define (forms (fl_name f)) (fl_kind f, fl_value f) fs; new_flag_set r fs'
  end.

(** flag.go copyFlag: Set with the other form's String; an error is ignored (it cannot occur:
    the String of a value is read back as that value) *)
Definition copy_flag (fs : flag_set) (from to : text) : flag_set :=
  match lookup fs from, lookup fs to with
  | Some (k, v), Some (k', _) =>
      match set_value k' (value_string k v) with Some x => store fs to x | None => fs end
  | _, _ => fs
  end.
(** flag.go normalizeFlags; [None] is the error "Cannot use two forms of the same flag" *)
Definition normalize_one (actual : list text) (fs : flag_set) (f : cli_flag) : option flag_set :=
  let parts := forms (fl_name f) in
  let is_set n := existsb (text_eqb n) actual in
  match parts with
  | [_] => Some fs
  | _ =>
      match filter is_set parts with
      | [] => Some fs
      | [n] => Some (fold_left (fun fs m => if is_set m then fs else copy_flag fs n m) parts fs)
      | _ => None
      end
  end.
(** cli's flag.go normalizeFlags: one flag after the other *)
Fixpoint normalize (actual : list text) (flags : list cli_flag) (fs : flag_set) : option flag_set :=
  match flags with
  | [] => Some fs
  | f :: r => match normalize_one actual fs f with Some fs' => normalize actual r fs' | None => None end
  end.

(** context.go Context.String, .Int, .Uint, .Duration, .Bool: the flag's String parsed again *)
Definition ctx_string (fs : flag_set) (name : text) : text :=
  match lookup fs name with Some (k, v) => value_string k v | None => [] end.
(** cli's context.go: Context.Int, Uint and Duration *)
Definition ctx_number (k : kind) (fs : flag_set) (name : text) : Z :=
  match lookup fs name with
  | Some (k', v) => match set_value k (value_string k' v) with Some (VNumber z) => z | _ => 0 end
  | None => 0
  end.
(** cli's context.go: Context.Bool *)
Definition ctx_bool (fs : flag_set) (name : text) : bool :=
  match lookup fs name with
  | Some (k, v) => match parse_bool (value_string k v) with Some b => b | None => false end
  | None => false
  end.

(** What becomes of a program: it runs with its configuration; it prints an error and the
    help, and exits with status 1; it shows its help or version and exits with status 0; it
    runs the command help; it prints words for the completion in bash. *)
Inductive fate (C : Type) :=
| Runs (c : C) | Refused | Helps | Versions | HelpCommand (args : list text) | Completes | CliPanic.
Arguments Runs {C}. Arguments Refused {C}. Arguments Helps {C}. Arguments Versions {C}.
Arguments HelpCommand {C}. Arguments Completes {C}. Arguments CliPanic {C}.

(** cli's flag.go HelpFlag *)
Definition help_flag : cli_flag := {| fl_name := T "help, h"; fl_kind := KBool; fl_value := VBool false |}.
(** cli's flag.go VersionFlag *)
Definition version_flag : cli_flag := {| fl_name := T "version, v"; fl_kind := KBool; fl_value := VBool false |}.
(** cli's flag.go BashCompletionFlag with its dashes *)
Definition completion_arg : text := T "--generate-bash-completion".

(** help.go checkShellCompleteFlag; flags.go:105 (EnableBashCompletion) *)
Definition shell_complete (args : list text) : bool * list text :=
  match rev args with
  | [] => (false, args)
  | l :: r => if text_eqb l completion_arg then (true, rev r) else (false, args)
  end.

(** app.go App.Setup and App.Run, for a program with the flags [flags] and the Action
    [action]; [args] is os.Args without the name of the program. *)
Definition app_run {C} (flags : list cli_flag) (action : flag_set -> C) (args : list text) : fate C :=
  let all := flags ++ [help_flag; version_flag] in
  let '(complete, args) := shell_complete args in
  match new_flag_set all [] with
  | Panic => CliPanic
  | Ok fs0 =>
      let '(ok, fs1, actual, rest) := parse args fs0 [] in
      match normalize actual all fs1 with
      | None => Refused
      | Some fs =>
          let command := match rest with n :: _ => text_eqb n (T "help") || text_eqb n (T "h") | [] => false end in
          if complete && negb command then Completes
          else if negb ok && negb complete then Refused
          else if existsb (ctx_bool fs) (forms (fl_name help_flag)) then Helps
          else if existsb (ctx_bool fs) (forms (fl_name version_flag)) then Versions
          else if command then HelpCommand (tl rest)
          else Runs (action fs)
      end
  end.

(* ------------------------------------------------------------------ *)
(** ** The flags: cmd/flags.go:14-36, 40-77, 110-227 *)

(** time.Second in nanoseconds (cmd/flags.go:27-33) *)
Definition seconds : Z := 1000000000.
(** cli.StringFlag with its Name and Value (cmd/flags.go:112; the Usage is left out) *)
Definition StringFlag name v := {| fl_name := name; fl_kind := KString; fl_value := VText v |}.
(** cli.IntFlag (cmd/flags.go:118) *)
Definition IntFlag name v := {| fl_name := name; fl_kind := KInt; fl_value := VNumber v |}.
(** cli.UintFlag (cmd/flags.go:222) *)
Definition UintFlag name v := {| fl_name := name; fl_kind := KUint; fl_value := VNumber v |}.
(** cli.DurationFlag (cmd/flags.go:170) *)
Definition DurationFlag name v := {| fl_name := name; fl_kind := KDuration; fl_value := VNumber v |}.

(** flags.go:15, 18 *)
Definition default_music_address : text := T "127.0.0.1".
(** flags.go:25 *)
Definition default_sample_rate : Z := 44100.
(** flags.go:112-116 *)
Definition server_address_flag := StringFlag (T "address, addr, a") default_music_address.
(** flags.go:118-122, 16 *)
Definition server_port_flag := IntFlag (T "port, p") 13333.
(** flags.go:125-129 *)
Definition listen_address_flag := StringFlag (T "address, addr, a") default_music_address.
(** flags.go:131-135, 16 *)
Definition listen_port_flag := IntFlag (T "port, p") 13333.
(** flags.go:138-142, 23 *)
Definition music_dir_flag := StringFlag (T "music-dir, dir, d") (T "audio").
(** flags.go:145-149 *)
Definition ssh_address_flag := StringFlag (T "ssh-address, ssh-addr, sa") default_music_address.
(** flags.go:151-155, 19 *)
Definition ssh_port_flag := IntFlag (T "ssh-port, sp") 13334.
(** flags.go:157-161, 20 *)
Definition ssh_users_flag := StringFlag (T "users-file, users, u") (T "users.json").
(** flags.go:163-167, 21 *)
Definition ssh_key_flag := StringFlag (T "host-key, key, k") (T "id_rsa").
(** flags.go:170-174, 27 *)
Definition sync_interval_flag := DurationFlag (T "time-sync-interval") (10 * 60 * seconds).
(** flags.go:176-180, 28 *)
Definition sync_cycles_flag := IntFlag (T "time-sync-cycles") 500.
(** flags.go:182-186, 29 *)
Definition sync_cycle_delay_flag := DurationFlag (T "time-sync-cycle-delay") (10 * 1000000).
(** flags.go:189-193, 30 *)
Definition chunk_size_flag := IntFlag (T "stream-chunk-size") (default_sample_rate * 4).
(** flags.go:195-199, 32 *)
Definition start_delay_flag := DurationFlag (T "stream-start-delay") (5 * seconds).
(** flags.go:201-205, 33 *)
Definition stream_delay_flag := DurationFlag (T "stream-delay") (15 * seconds).
(** flags.go:208-212, 31 *)
Definition nan_break_flag := IntFlag (T "song-break-size") (default_sample_rate * 1).
(** flags.go:215-219, 25 *)
Definition sample_rate_flag := IntFlag (T "sample-rate") default_sample_rate.
(** flags.go:222-226, 35 *)
Definition history_flag := UintFlag (T "lyrics-history-size") 5.
(** flags.go:55-64 (AddLoggingFlags), 66-77 *)
Definition add_logging_flags (f : list cli_flag) : list cli_flag :=
  f ++ map (fun n => StringFlag n []) logging_flags ++ [StringFlag (T "logging") []].

(** flags.go:230-232 (FlagKey) *)
Definition key (f : cli_flag) : text := flag_key (fl_name f).
(** ctx.String(cmd.FlagKey(f)), as in cmd/music-sync-server/main.go:74 *)
Definition str_of (fs : flag_set) (f : cli_flag) : text := ctx_string fs (key f).
(** ctx.Int(cmd.FlagKey(f)), as in cmd/music-sync-server/main.go:50 *)
Definition int_of (fs : flag_set) (f : cli_flag) : Z := ctx_number KInt fs (key f).
(** ctx.Duration(cmd.FlagKey(f)), as in cmd/music-sync-server/main.go:49 *)
Definition dur_of (fs : flag_set) (f : cli_flag) : Z := ctx_number KDuration fs (key f).

(** flags.go:80-93 (HandleLoggingFlags): the texts it reads (82, 88) *)
Definition logging_of (fs : flag_set) : list text := map (fun n => ctx_string fs (flag_key n)) (logging_flags ++ [T "logging"]).

(* ------------------------------------------------------------------ *)
(** ** The programs *)

(** What the run function of the server does with its flags (cmd/music-sync-server/main.go:47-84):
    [sc_logging] is what HandleLoggingFlags (flags.go:80-93) reads, flag by flag. *)
Record server_config := {
  sc_listen : text; sc_ssh_listen : text; sc_music_dir : text; sc_users : text; sc_host_key : text;
  sc_sync_interval : Z; sc_sync_cycles : Z; sc_sync_delay : Z;
  sc_chunk_size : Z; sc_start_delay : Z; sc_stream_delay : Z; sc_nan_break : Z; sc_sample_rate : Z;
  sc_logging : list text
}.
(** cmd/music-sync-server/main.go:19-45 *)
Definition server_flags : list cli_flag := add_logging_flags
  [ listen_address_flag; listen_port_flag; music_dir_flag; ssh_address_flag; ssh_port_flag; ssh_users_flag; ssh_key_flag;
    sync_interval_flag; sync_cycles_flag; sync_cycle_delay_flag; chunk_size_flag; start_delay_flag; stream_delay_flag;
    nan_break_flag; sample_rate_flag ].
(** fmt.Sprintf("%s:%d", a, p), cmd/music-sync-server/main.go:83-84 *)
Definition address_port (a : text) (p : Z) : text := a ++ T ":" ++ itoa p.
(** cmd/music-sync-server/main.go:47-84 (setScheduleVars, run) *)
Definition server_action (fs : flag_set) : server_config :=
  {| sc_listen := address_port (str_of fs listen_address_flag) (int_of fs listen_port_flag);
     sc_ssh_listen := address_port (str_of fs ssh_address_flag) (int_of fs ssh_port_flag);
     sc_music_dir := str_of fs music_dir_flag;
     sc_users := str_of fs ssh_users_flag;
     sc_host_key := str_of fs ssh_key_flag;
     sc_sync_interval := dur_of fs sync_interval_flag;
     sc_sync_cycles := int_of fs sync_cycles_flag;
     sc_sync_delay := dur_of fs sync_cycle_delay_flag;
     sc_chunk_size := int_of fs chunk_size_flag;
     sc_start_delay := dur_of fs start_delay_flag;
     sc_stream_delay := dur_of fs stream_delay_flag;
     sc_nan_break := int_of fs nan_break_flag;
     sc_sample_rate := int_of fs sample_rate_flag;
     sc_logging := logging_of fs |}.
(** cmd/music-sync-server/main.go:19-45 (main) *)
Definition server_main (args : list text) : fate server_config := app_run server_flags server_action args.

(** cmd/music-sync-player/main.go:18-55 *)
Record client_config := { cc_server : text; cc_sample_rate : Z; cc_history : Z; cc_client_logging : list text }.
(** cmd/music-sync-player/main.go:21-26 *)
Definition player_flags : list cli_flag := add_logging_flags [ server_address_flag; server_port_flag; sample_rate_flag ].
(** cmd/music-sync-player/main.go:34-45 (run) *)
Definition player_action (fs : flag_set) : client_config :=
  {| cc_server := address_port (str_of fs server_address_flag) (int_of fs server_port_flag);
     cc_sample_rate := int_of fs sample_rate_flag; cc_history := 0;
     cc_client_logging := logging_of fs |}.
(** cmd/music-sync-player/main.go:18-32 (main) *)
Definition player_main (args : list text) : fate client_config := app_run player_flags player_action args.

(** cmd/music-sync-infoer/main.go:19-64; logging is switched off (40).  int(uint) keeps the bits. *)
Definition infoer_flags : list cli_flag := [ server_address_flag; server_port_flag; sample_rate_flag; history_flag ].
(** cmd/music-sync-infoer/main.go:38-53 (run) *)
Definition infoer_action (fs : flag_set) : client_config :=
  {| cc_server := address_port (str_of fs server_address_flag) (int_of fs server_port_flag);
     cc_sample_rate := int_of fs sample_rate_flag;
     cc_history := wrap64 (ctx_number KUint fs (key history_flag));
     cc_client_logging := [] |}.
(** cmd/music-sync-infoer/main.go:19-34 (main) *)
Definition infoer_main (args : list text) : fate client_config := app_run infoer_flags infoer_action args.

(* ------------------------------------------------------------------ *)
(** ** The address: net.SplitHostPort, net/ipsock.go, which net.Listen (comm/conn_handler.go:36),
    net.Dial (71) and ssh.ListenAndServe (ssh/ssh.go:44) call *)

(** the part before the last colon and the part behind it *)
Fixpoint last_colon (s : text) : option (text * text) :=
  match s with
  | [] => None
  | c :: r => match last_colon r with
              | Some (a, b) => Some (c :: a, b)
              | None => if (c =? 58)%N then Some ([], r) else None
              end
  end.
(** the part before the first byte [x] and the part behind it *)
Fixpoint first_byte (x : N) (s : text) : option (text * text) :=
  match s with
  | [] => None
  | c :: r => if (c =? x)%N then Some ([], r)
              else match first_byte x r with Some (a, b) => Some (c :: a, b) | None => None end
  end.
(** bytealg.IndexByteString >= 0 in net/ipsock.go SplitHostPort *)
Definition has (x : N) (s : text) : bool := existsb (N.eqb x) s.
(** [None]: an error *)
Definition split_host_port (s : text) : option (text * text) :=
  match last_colon s with
  | None => None
  | Some (before, port) =>
      match s with
      | c :: r =>
          if (c =? 91)%N then
            match first_byte 93 r with
            | None => None
            | Some (host, tail) =>
                (* the first ] must be just before the last colon *)
                match tail with
                | [] => None
                | c' :: tail' =>
                    if (c' =? 58)%N && (length tail' =? length port)%nat
                    then if has 91 r then None else if has 93 tail then None else Some (host, port)
                    else None
                end
            end
          else if has 58 before then None
          else if has 91 s then None else if has 93 s then None else Some (before, port)
      | [] => None
      end
  end.
