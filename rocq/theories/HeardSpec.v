(** Vocabulary of C112: how loud a sample is to be heard. *)
From Verif Require Import GoBase PlaylistModel PcmModel PcmProofs GoFloat FloatTextSpec.
Local Open Scope Z_scope.

(** A sample as the decoders make them: a number within [-1, 1] ([f_scaled] is the value in
    units of 2^-1074, [f_one] = 2^1074). *)
Definition unit_sample (x : f64) : Prop := is_nan x = false /\ is_inf x = false /\ Z.abs (f_scaled x) <= f_one.

Definition signed (neg : bool) (n : Z) : Z := if neg then - n else n.

(** The typed number n/d times the sample stays below full scale, with a margin of 2^-50. *)
Definition below_full_scale (n d : Z) (x : f64) : Prop :=
  2 ^ 50 * (n * Z.abs (f_scaled x)) <= (2 ^ 50 - 1) * (d * f_one).

(** The 16-bit number [v] is (-1)^neg * n/d * x * 32768 to within one step and 2^-36 of a
    step, and not on the other side of zero. *)
Definition heard (neg : bool) (n d : Z) (x : f64) (v : Z) : Prop :=
  2 ^ 36 * Z.abs (v * (f_one * d) - 32768 * (signed neg n * f_scaled x)) <= (2 ^ 36 + 1) * (f_one * d) /\
  0 <= v * (signed neg n * f_scaled x).

(** The 16-bit little-endian number at byte [i] of the sound card's buffer. *)
Definition sound16 (bytes : list Z) (i : nat) : option Z :=
  match nth_error bytes i, nth_error bytes (S i) with
  | Some lo, Some hi => Some (to_int16 (lo + 256 * hi))
  | _, _ => None
  end.
