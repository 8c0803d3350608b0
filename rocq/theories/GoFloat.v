(** float64 arithmetic as Go does it (IEEE 754 binary64, round to nearest even), exactly,
    on bit patterns.  A finite float64 is an integer multiple of 2^-1074, so its value
    times 2^1074 is an integer ([f_scaled], PcmModel).  Nothing in this file is specific to
    music-sync. *)
From Verif Require Import GoBase PlaylistModel PcmModel.
Local Open Scope Z_scope.

(** [n / d] rounded to the nearest integer, ties to even (n >= 0, d > 0) *)
Definition rhe (n d : Z) : Z :=
  let q := n / d in
  let r := n mod d in
  if 2 * r <? d then q
  else if d <? 2 * r then q + 1
  else if Z.even q then q else q + 1.

(** [n / d] (in units of 2^-1074) rounded to 53 significant bits: the unit in the last place
    is 2^s *)
Definition ulp_exp (n d : Z) : Z := Z.max 0 (Z.log2 (n / d) - 52).
Definition rnd (n d : Z) : Z :=
  let s := ulp_exp n d in rhe n (d * 2 ^ s) * 2 ^ s.

(** a magnitude (in units of 2^-1074) that float64 can represent *)
Definition representable (v : Z) : Prop :=
  exists m e, v = m * 2 ^ e /\ 0 <= m < 2 ^ 53 /\ 0 <= e.

Definition f_max : Z := 2 ^ 2098.      (* 2^1024: from here on the result is infinite *)

(** the bit pattern of a sign and a representable magnitude *)
Definition f_pack (neg : bool) (v : Z) : N :=
  let mag :=
    if v <? 2 ^ 52 then v
    else if f_max <=? v then 2047 * 2 ^ 52
    else let k := Z.log2 v - 52 in (k + 1) * 2 ^ 52 + (v / 2 ^ k - 2 ^ 52) in
  Z.to_N (if neg then 2 ^ 63 + mag else mag).

Definition is_inf (x : N) : bool := (f_exp x =? 2047) && (f_man x =? 0).

(** the product of two float64 values (the payload of a NaN is not observable) *)
Definition fmul (x y : N) : N :=
  if is_nan x || is_nan y then nan64
  else if is_inf x || is_inf y then
    if (f_mag x =? 0) || (f_mag y =? 0) then nan64
    else f_pack (xorb (f_sign x) (f_sign y)) f_max
  else f_pack (xorb (f_sign x) (f_sign y)) (rnd (f_mag x * f_mag y) f_one).

(** float64(z) for an int *)
Definition f_of_int (z : Z) : N := f_pack (z <? 0) (rnd (Z.abs z * f_one) 1).

(** the quotient of two finite float64 values, the second not zero *)
Definition fdiv (x y : N) : N :=
  f_pack (xorb (f_sign x) (f_sign y)) (rnd (f_mag x * f_one) (f_mag y)).
