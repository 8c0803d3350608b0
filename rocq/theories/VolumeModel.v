(** Decimal text of float64 values, as the volume is typed and displayed:
    strconv.ParseFloat and fmt's %.3f, %06.2f, and the volume line of the info client
    (cmd/music-sync-infoer/main.go:138). *)
From Verif Require Import GoBase GoFmt PlaylistModel PcmModel GoFloat.
Local Open Scope Z_scope.

(** strconv.ParseFloat (called in schedule/server_state_commands.go 13-22): a decimal digit *)
Definition is_digit (c : N) : bool := (N.leb 48 c && N.leb c 57)%bool.

(** [digits [. digits]] with at least one digit: the number without the point, and the number
    of digits behind it. *)
Fixpoint split_point (t : text) : text * text :=
  match t with
  | [] => ([], [])
  | c :: r => if N.eqb c 46 then ([], r) else let '(a, b) := split_point r in (c :: a, b)
  end.
(** the value of decimal digits *)
Definition digits_value (t : text) : Z := fold_left (fun v c => v * 10 + (Z.of_N c - 48)) t 0.
(** a number without sign, exponent and underscores, as digits times 10^-k *)
Definition plain_decimal (t : text) : option (Z * Z) :=
  let '(a, b) := split_point t in
  if forallb is_digit a && forallb is_digit b && negb (Nat.eqb (length (a ++ b)) 0)
  then Some (digits_value (a ++ b), zlen b) else None.

(** strconv.ParseFloat(s, 64): correctly rounded for plain decimals with an optional sign (an
    error if the result is infinite).  [other] is its answer for all further forms (exponents,
    hexadecimal, underscores, inf, nan) and errors. *)
Definition parse_float_go (other : text -> option f64) (t : text) : option f64 :=
  let '(neg, body) := match t with 45%N :: r => (true, r) | 43%N :: r => (false, r) | _ => (false, t) end in
  match plain_decimal body with
  | Some (n, k) =>
      let v := rnd (n * f_one) (10 ^ k) in
      if f_max <=? v then None else Some (f_pack neg v)
  | None => other t
  end.

(** fmt's %0w.pf for finite values: the exact value rounded to p decimals, ties to even; NaN
    and infinities are padded with spaces instead of zeros.  The sign counts for the width. *)
Definition fmt_f (w p : nat) (x : f64) : text :=
  let sign := if f_sign x then [45%N] else [] in
  if is_nan x then repeat 32%N (w - 3) ++ T "NaN"
  else if is_inf x then repeat 32%N (w - 4) ++ (if f_sign x then T "-Inf" else T "+Inf")
  else
    let n := rhe (f_mag x * 10 ^ Z.of_nat p) f_one in
    let body := itoa (n / 10 ^ Z.of_nat p) ++ T "." ++ itoa0 p (n mod 10 ^ Z.of_nat p) in
    sign ++ repeat 48%N (w - length sign - length body) ++ body.

(** cmd/music-sync-infoer/main.go:138: fmt.Sprintf("Volume: %06.2f%%", info.Volume*100) *)
Definition float_100 : f64 := 0x4059000000000000%N.
Definition volume_line (volume : f64) : text := T "Volume: " ++ fmt_f 6 2 (fmul volume float_100) ++ T "%".
