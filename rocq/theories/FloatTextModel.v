(** strconv.ParseFloat(s, 64) of Go 1.14 (go.mod), strconv/atof.go and atoi.go: called by
    schedule/server_state_commands.go:17 (parseFloatParam).  Texts are code points; every
    character that matters is ASCII.
    Simplifications: the mantissa is exact instead of cut off with a sticky bit; the
    conversion is the correctly rounded value, which is what all the paths of atof64
    compute. *)
From Verif Require Import GoBase PlaylistModel PcmModel GoFloat.
Local Open Scope Z_scope.

(** atoi.go lower *)
Definition lower (c : N) : N := if (65 <=? c)%N && (c <=? 90)%N then (c + 32)%N else c.

(** atof.go equalIgnoreCase, special *)
Definition eq_nocase (t w : text) : bool := text_eqb (map lower t) w.
Definition special (t : text) : option f64 :=
  let inf r := eq_nocase r (T "inf") || eq_nocase r (T "infinity") in
  match t with
  | [] => None
  | c :: r =>
      if (c =? 43)%N then (if inf r then Some 0x7ff0000000000000%N else None)
      else if (c =? 45)%N then (if inf r then Some 0xfff0000000000000%N else None)
      else if (lower c =? 110)%N then (if eq_nocase t (T "nan") then Some 0x7ff8000000000001%N else None)
      else if (lower c =? 105)%N then (if inf t then Some 0x7ff0000000000000%N else None)
      else None
  end.

(** strconv.ParseFloat (readFloat): a decimal digit *)
Definition dec_val (c : N) : option Z := if (48 <=? c)%N && (c <=? 57)%N then Some (Z.of_N c - 48) else None.
(** strconv.ParseFloat (readFloat): a hexadecimal digit *)
Definition hex_val (c : N) : option Z :=
  match dec_val c with
  | Some d => Some d
  | None => if (97 <=? lower c)%N && (lower c <=? 102)%N then Some (Z.of_N (lower c) - 87) else None
  end.

(** readFloat, optional sign *)
Definition strip_sign (t : text) : bool * text :=
  match t with
  | c :: r => if (c =? 43)%N then (false, r) else if (c =? 45)%N then (true, r) else (false, t)
  | [] => (false, t)
  end.

(** readFloat, the loop over the digits: saw a digit, mantissa, digits behind the point, rest *)
Fixpoint scan (val : N -> option Z) (base : Z) (s : text) (dot dig : bool) (m k : Z) : bool * Z * Z * text :=
  match s with
  | [] => (dig, m, k, [])
  | c :: r =>
      if (c =? 95)%N then scan val base r dot dig m k
      else if (c =? 46)%N then (if dot then (dig, m, k, s) else scan val base r true dig m k)
      else match val c with
           | Some d => scan val base r dot true (m * base + d) (if dot then k + 1 else k)
           | None => (dig, m, k, s)
           end
  end.

(** readFloat, the exponent.  Go stops counting once the exponent has reached 10000 ([limit] is
    true; without the limit, for the proofs, the exponent is exact). *)
Fixpoint exp_digits (limit : bool) (s : text) (e : Z) : Z * text :=
  match s with
  | [] => (e, [])
  | c :: r =>
      if (c =? 95)%N then exp_digits limit r e
      else match dec_val c with Some d => exp_digits limit r (if limit && (10000 <=? e) then e else e * 10 + d) | None => (e, s) end
  end.
Definition read_exp (limit hex : bool) (rest : text) : option (Z * text) :=
  match rest with
  | c :: r =>
      if (lower c =? (if hex then 112 else 101))%N then
        let '(neg, r') := strip_sign r in
        match r' with
        | d :: _ =>
            match dec_val d with
            | None => None
            | Some _ => let '(e, rest') := exp_digits limit r' 0 in Some (if neg then - e else e, rest')
            end
        | [] => None
        end
      else if hex then None else Some (0, rest)
  | [] => if hex then None else Some (0, rest)
  end.

(** atoi.go underscoreOK *)
Inductive seen : Type := SawStart | SawDigit | SawUnder | SawOther.
Fixpoint under_loop (hex : bool) (saw : seen) (s : text) : bool :=
  match s with
  | [] => match saw with SawUnder => false | _ => true end
  | c :: r =>
      if (match dec_val c with Some _ => true | None => hex && match hex_val c with Some _ => true | None => false end end)
      then under_loop hex SawDigit r
      else if (c =? 95)%N then match saw with SawDigit => under_loop hex SawUnder r | _ => false end
      else match saw with SawUnder => false | _ => under_loop hex SawOther r end
  end.
Definition under_prefix (s : text) : bool :=
  match s with
  | c :: x :: _ => (c =? 48)%N && ((lower x =? 98)%N || (lower x =? 111)%N || (lower x =? 120)%N)
  | _ => false
  end.
Definition under_ok (t : text) : bool :=
  let s := snd (strip_sign t) in
  if under_prefix s then under_loop (match s with _ :: x :: _ => (lower x =? 120)%N | _ => false end) SawDigit (skipn 2 s)
  else under_loop false SawStart s.

(** readFloat: sign, mantissa, base and exponent of the value m * base^x *)
Definition read_float (limit : bool) (t : text) : option (bool * Z * Z * Z) :=
  let '(neg, s) := strip_sign t in
  let hex := match s with c :: x :: _ :: _ => (c =? 48)%N && (lower x =? 120)%N | _ => false end in
  let s' := if hex then skipn 2 s else s in
  let '(dig, m, k, rest) := scan (if hex then hex_val else dec_val) (if hex then 16 else 10) s' false false 0 0 in
  if negb dig then None
  else match read_exp limit hex rest with
       | None => None
       | Some (e, rest') =>
           match rest' with
           | _ :: _ => None
           | [] =>
               if existsb (N.eqb 95) t && negb (under_ok t) then None
               else Some (neg, m, if hex then 2 else 10, if hex then e - 4 * k else e - k)
           end
       end.

(** atof64: the nearest float64, an error if that is infinite *)
Definition parse_float_full (t : text) : option f64 :=
  match special t with
  | Some f => Some f
  | None =>
      match read_float true t with
      | None => None
      | Some (neg, m, base, x) =>
          let v := if 0 <=? x then rnd (m * base ^ x * f_one) 1 else rnd (m * f_one) (base ^ (- x)) in
          if f_max <=? v then None else Some (f_pack neg v)
      end
  end.
