(** Command lines as users write them (C107), and the numbers and durations on them (C108). *)
From Verif Require Import GoBase FloatTextSpec NumberSpec GoFmt.
From Verif Require Import CliModel.
From Coq Require Import String.
Local Open Scope Z_scope.

(* ------------------------------------------------------------------ *)
(** ** Whole numbers *)

Definition digit_below (base : Z) (c : N) (d : Z) : Prop := hex_digit c d /\ d < base.
(** Digits, or an underscore (95) and digits. *)
Definition after_prefix (base : Z) (t : text) (n : Z) : Prop :=
  exists t' ds, digits (digit_below base) t' ds /\ (t = t' \/ t = 95%N :: t') /\ n = in_base base ds.
Inductive magnitude : text -> Z -> Prop :=
| mag_decimal t ds : digits dec_digit t ds -> hd 0%N t <> 48%N -> magnitude t (in_base 10 ds)
| mag_zero : magnitude (T "0") 0
| mag_octal t n : after_prefix 8 t n -> magnitude (48%N :: t) n                              (* 017 is fifteen *)
| mag_prefix l base t n : In (l, base) [(98, 2); (66, 2); (111, 8); (79, 8); (120, 16); (88, 16)]%N ->   (* 0b 0B 0o 0O 0x 0X *)
    after_prefix (Z.of_N base) t n -> magnitude (48%N :: l :: t) n.
Definition integer (t : text) (z : Z) : Prop :=
  exists sg neg r n, t = sg ++ r /\ sign sg neg /\ magnitude r n /\ z = (if neg then - n else n) /\ - 2 ^ 63 <= z < 2 ^ 63.
Definition natural (t : text) (n : Z) : Prop := magnitude t n /\ n < 2 ^ 64.

(* ------------------------------------------------------------------ *)
(** ** Durations *)

(** [t] is a decimal number, perhaps with a point (46): [n] with [k] digits behind the point. *)
Definition amount (t : text) (n k : Z) : Prop :=
  exists a b, Forall decimal_digit a /\ Forall decimal_digit b /\ a ++ b <> [] /\
    (t = a /\ b = [] \/ t = a ++ 46%N :: b) /\ n = value_of (a ++ b) /\ k = zlen b.
(** the units, in nanoseconds *)
Definition units : list (text * Z) :=
  [(T "ns", 1); (T "us", 1000); ([0xC2; 0xB5; 115]%N, 1000); ([0xCE; 0xBC; 115]%N, 1000);
   (T "ms", 1000000); (T "s", 1000000000); (T "m", 60000000000); (T "h", 3600000000000)].
(** One or more amounts with their units: n / 10^k times u. *)
Inductive amounts : text -> list (Z * Z * Z) -> Prop :=
| amounts_one t n k w u : amount t n k -> In (w, u) units -> amounts (t ++ w) [(n, k, u)]
| amounts_more t n k w u r l : amount t n k -> In (w, u) units -> amounts r l -> amounts (t ++ w ++ r) ((n, k, u) :: l).
Definition duration_text (t : text) (neg : bool) (l : list (Z * Z * Z)) : Prop :=
  exists sg r, t = sg ++ r /\ sign sg neg /\ (r = T "0" /\ l = [] \/ amounts r l).

(** [r] is n / 10^k * u: exactly, if 10^k divides u (seconds with up to nine decimals, say);
    otherwise to within 1.02 nanoseconds. *)
Definition reads_amount (p : Z * Z * Z) (r : Z) : Prop :=
  let '(n, k, u) := p in
  100 * Z.abs (r * 10 ^ k - n * u) <= 102 * 10 ^ k /\ ((10 ^ k | u) -> r * 10 ^ k = n * u).

(* ------------------------------------------------------------------ *)
(** ** Command lines *)

(** The texts that an option of some kind takes, and the values they stand for (C108 says what
    parse_duration reads). *)
Inductive takes : kind -> text -> value -> Prop :=
| takes_text t : takes KString t (VText t)
| takes_integer t z : integer t z -> takes KInt t (VNumber z)
| takes_natural t z : natural t z -> takes KUint t (VNumber z)
| takes_duration t z : parse_duration t = Some z -> takes KDuration t (VNumber z)
| takes_yes t : In t [T "1"; T "t"; T "T"; T "true"; T "TRUE"; T "True"] -> takes KBool t (VBool true)
| takes_no t : In t [T "0"; T "f"; T "F"; T "false"; T "FALSE"; T "False"] -> takes KBool t (VBool false).

(** An option: its forms, the first of which is its main name, its kind and its default. *)
Record option_ := { o_forms : list text; o_kind : kind; o_default : value }.
Definition named (o : list option_) (name : text) (k : kind) : Prop :=
  exists x, In x o /\ In name (o_forms x) /\ o_kind x = k.

(** An argument that is not an option: it is empty, a single dash, or does not begin with a dash (45). *)
Definition plain_argument (a : text) : Prop := a = [] \/ a = [45%N] \/ hd 0%N a <> 45%N.
Definition dashes (t : text) : Prop := t = T "-" \/ t = T "--".

(** [args] is a sequence of options, giving each name the value beside it, followed by
    [extra], which is nothing, whatever follows -- or starts with an argument that is not an
    option. *)
Inductive command_line (o : list option_) : list text -> list (text * value) -> list text -> Prop :=
| line_end : command_line o [] [] []
| line_stop extra : command_line o (T "--" :: extra) [] extra
| line_extra a r : plain_argument a -> command_line o (a :: r) [] (a :: r)
| line_joined d name k t v r l extra : dashes d -> named o name k -> takes k t v -> command_line o r l extra ->
    command_line o ((d ++ name ++ T "=" ++ t) :: r) ((name, v) :: l) extra            (* --name=value *)
| line_next d name k t v r l extra : dashes d -> named o name k -> k <> KBool -> takes k t v -> command_line o r l extra ->
    command_line o ((d ++ name) :: t :: r) ((name, v) :: l) extra                     (* --name value *)
| line_switch d name r l extra : dashes d -> named o name KBool -> command_line o r l extra ->
    command_line o ((d ++ name) :: r) ((name, VBool true) :: l) extra.                (* --help *)

(** No option is given in two of its forms. *)
Definition one_form_each (o : list option_) (l : list (text * value)) : Prop :=
  forall x n n', In x o -> In n (o_forms x) -> In n' (o_forms x) -> In n (map fst l) -> In n' (map fst l) -> n = n'.

(** The value of an option: the last one given, the default if none is given. *)
Definition option_value (l : list (text * value)) (x : option_) (v : value) : Prop :=
  (exists a n b, l = a ++ (n, v) :: b /\ In n (o_forms x) /\ forall n', In n' (o_forms x) -> ~ In n' (map fst b))
  \/ (forall n', In n' (o_forms x) -> ~ In n' (map fst l)) /\ v = o_default x.

(** A proper command line: the options have the values [f] (by main name), and [extra] is left. *)
Definition proper (o : list option_) (args : list text) (f : text -> value) (extra : list text) : Prop :=
  exists l, command_line o args l extra /\ one_form_each o l /\ forall x, In x o -> option_value l x (f (hd [] (o_forms x))).

(** The options of the three programs. *)
Definition opt (k : kind) (forms : list text) (d : value) : option_ := {| o_forms := forms; o_kind := k; o_default := d |}.
Definition ask_options : list option_ :=
  [opt KBool [T "help"; T "h"] (VBool false); opt KBool [T "version"; T "v"] (VBool false)].
Definition log_options : list option_ :=
  map (fun n => opt KString [n] (VText []))
    [T "comm-logging"; T "play-logging"; T "shed-logging"; T "ssh-logging"; T "time-logging"; T "logging"].
Definition address_options : list option_ :=
  [opt KString [T "address"; T "addr"; T "a"] (VText (T "127.0.0.1")); opt KInt [T "port"; T "p"] (VNumber 13333)].
Definition rate_option : option_ := opt KInt [T "sample-rate"] (VNumber 44100).
Definition minute : Z := 60000000000.
Definition server_options : list option_ := address_options ++
  [opt KString [T "music-dir"; T "dir"; T "d"] (VText (T "audio"));
   opt KString [T "ssh-address"; T "ssh-addr"; T "sa"] (VText (T "127.0.0.1"));
   opt KInt [T "ssh-port"; T "sp"] (VNumber 13334);
   opt KString [T "users-file"; T "users"; T "u"] (VText (T "users.json"));
   opt KString [T "host-key"; T "key"; T "k"] (VText (T "id_rsa"));
   opt KDuration [T "time-sync-interval"] (VNumber (10 * minute));
   opt KInt [T "time-sync-cycles"] (VNumber 500);
   opt KDuration [T "time-sync-cycle-delay"] (VNumber 10000000);
   opt KInt [T "stream-chunk-size"] (VNumber 176400);
   opt KDuration [T "stream-start-delay"] (VNumber 5000000000);
   opt KDuration [T "stream-delay"] (VNumber 15000000000);
   opt KInt [T "song-break-size"] (VNumber 44100);
   rate_option] ++ log_options ++ ask_options.
Definition player_options : list option_ := address_options ++ [rate_option] ++ log_options ++ ask_options.
Definition infoer_options : list option_ :=
  address_options ++ [rate_option; opt KUint [T "lyrics-history-size"] (VNumber 5)] ++ ask_options.

Definition text_in (v : value) : text := match v with VText t => t | _ => [] end.
Definition number_in (v : value) : Z := match v with VNumber z => z | _ => 0 end.

(** What the programs do with the options. *)
Definition given (f : text -> value) (name : string) : text := text_in (f (T name)).
Definition number (f : text -> value) (name : string) : Z := number_in (f (T name)).
Definition address (f : text -> value) (host port : string) : text := given f host ++ T ":" ++ itoa (number f port).
Definition log_levels (f : text -> value) : list text :=
  [given f "comm-logging"; given f "play-logging"; given f "shed-logging"; given f "ssh-logging"; given f "time-logging"; given f "logging"].
Definition server_settings (f : text -> value) : server_config :=
  {| sc_listen := address f "address" "port"; sc_ssh_listen := address f "ssh-address" "ssh-port";
     sc_music_dir := given f "music-dir"; sc_users := given f "users-file"; sc_host_key := given f "host-key";
     sc_sync_interval := number f "time-sync-interval"; sc_sync_cycles := number f "time-sync-cycles";
     sc_sync_delay := number f "time-sync-cycle-delay"; sc_chunk_size := number f "stream-chunk-size";
     sc_start_delay := number f "stream-start-delay"; sc_stream_delay := number f "stream-delay";
     sc_nan_break := number f "song-break-size"; sc_sample_rate := number f "sample-rate"; sc_logging := log_levels f |}.
Definition player_settings (f : text -> value) : client_config :=
  {| cc_server := address f "address" "port"; cc_sample_rate := number f "sample-rate"; cc_history := 0; cc_client_logging := log_levels f |}.
(** the size of the history is converted to a signed number *)
Definition infoer_settings (f : text -> value) : client_config :=
  {| cc_server := address f "address" "port"; cc_sample_rate := number f "sample-rate";
     cc_history := (let n := number f "lyrics-history-size" in if n <? 2 ^ 63 then n else n - 2 ^ 64); cc_client_logging := [] |}.

(** The last argument asks for words to complete. *)
Definition completing (args : list text) : Prop := exists r, args = r ++ [T "--generate-bash-completion"].
Definition off (f : text -> value) (name : string) : Prop := f (T name) = VBool false.
(** [args] is a command line with which a program starts: proper, not asking for help, the
    version or completions, and without the word help or h behind the options. *)
Definition starts_with (o : list option_) (args : list text) (f : text -> value) (extra : list text) : Prop :=
  proper o args f extra /\ ~ completing args /\ off f "help" /\ off f "version" /\
  (forall r, extra <> T "help" :: r /\ extra <> T "h" :: r).
