(** Floating-point numbers as users write them (C104): the syntax of Go's floating-point
    numbers, and what the texts denote. *)
From Verif Require Import GoBase PlaylistModel PcmModel GoFloat.
Local Open Scope Z_scope.

Definition dec_digit (c : N) (d : Z) : Prop := (48 <= c <= 57)%N /\ d = Z.of_N c - 48.
(** 0-9, a-f, A-F *)
Definition hex_digit (c : N) (d : Z) : Prop :=
  dec_digit c d \/ (97 <= c <= 102)%N /\ d = Z.of_N c - 87 \/ (65 <= c <= 70)%N /\ d = Z.of_N c - 55.

(** At least one digit; a single underscore (95) may stand between two digits. *)
Inductive digits (digit : N -> Z -> Prop) : text -> list Z -> Prop :=
| digits_one c d : digit c d -> digits digit [c] [d]
| digits_next c d t ds : digit c d -> digits digit t ds -> digits digit (c :: t) (d :: ds)
| digits_under c d t ds : digit c d -> digits digit t ds -> digits digit (c :: 95%N :: t) (d :: ds).
Definition maybe_digits digit (t : text) (ds : list Z) : Prop := t = [] /\ ds = [] \/ digits digit t ds.

Definition in_base (base : Z) (ds : list Z) : Z := fold_left (fun v d => v * base + d) ds 0.

(** Digits, perhaps with a point (46) among them: [m] with [k] digits behind the point. *)
Definition mantissa digit (base : Z) (t : text) (m k : Z) : Prop :=
  exists a b ds1 ds2, maybe_digits digit a ds1 /\ maybe_digits digit b ds2 /\ ds1 ++ ds2 <> [] /\
    (t = a /\ b = [] \/ t = a ++ 46%N :: b) /\ m = in_base base (ds1 ++ ds2) /\ k = zlen ds2.

(** An optional sign, + (43) or - (45). *)
Definition sign (t : text) (neg : bool) : Prop := if neg then t = [45%N] else t = [] \/ t = [43%N].

(** A letter (small or capital), an optional sign and decimal digits. *)
Definition exponent (small capital : N) (t : text) (e : Z) : Prop :=
  exists l sg u ds neg, t = l :: sg ++ u /\ (l = small \/ l = capital) /\ sign sg neg /\ digits dec_digit u ds /\
    e = (if neg then - in_base 10 ds else in_base 10 ds).

(** The text denotes (-1)^neg * m * base^x. *)
Inductive numeral : text -> bool -> Z -> Z -> Z -> Prop :=
| num_decimal sg t x neg m k e : sign sg neg -> mantissa dec_digit 10 t m k ->
    (x = [] /\ e = 0 \/ exponent 101 69 x e) ->              (* e, E *)
    numeral (sg ++ t ++ x) neg m 10 (e - k)
| num_hex sg l t x neg m k e : sign sg neg -> (l = 120%N \/ l = 88%N) ->    (* 0x, 0X *)
    (mantissa hex_digit 16 t m k \/
     exists t', t = 95%N :: t' /\ mantissa hex_digit 16 t' m k /\ forall r, t' <> 46%N :: r) ->
    exponent 112 80 x e ->                                   (* p, P *)
    numeral (sg ++ 48%N :: l :: t ++ x) neg m 2 (e - 4 * k).

(** The exact value of a numeral as a fraction. *)
Definition fraction (m base x : Z) : Z * Z := if 0 <=? x then (m * base ^ x, 1) else (m, base ^ (- x)).

(** Numbers that round to 2^1024 or more: half a unit below 2^1024. *)
Definition too_large (n d : Z) : Prop := (2 ^ 1024 - 2 ^ 970) * d <= n.

(** [f] is a finite float64 with the sign [neg], none is nearer to n / d in magnitude
    ([f_mag] is the magnitude in units of 2^-1074, [f_one] = 2^1074), and where another one is
    just as near, the last bit of [f] is 0. *)
Definition off (f : f64) (n d : Z) : Z := Z.abs (f_mag f * d - n * f_one).
Definition nearest (f : f64) (neg : bool) (n d : Z) : Prop :=
  is_nan f = false /\ is_inf f = false /\ f_sign f = neg /\
  forall g, is_nan g = false -> is_inf g = false ->
    off f n d <= off g n d /\ (off f n d = off g n d -> f_mag f <> f_mag g -> N.even f = true).

(** The words for infinity and not-a-number, in small or capital letters. *)
Definition small (c : N) : N := if (65 <=? c)%N && (c <=? 90)%N then (c + 32)%N else c.
Inductive word : text -> f64 -> Prop :=
| word_nan t : map small t = T "nan" -> word t 0x7ff8000000000001%N
| word_inf t sg neg r : t = sg ++ r -> sign sg neg -> map small r = T "inf" \/ map small r = T "infinity" ->
    word t (if neg then 0xfff0000000000000 else 0x7ff0000000000000)%N.
