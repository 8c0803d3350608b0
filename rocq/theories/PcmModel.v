(** Model of playback/playback.go:133-152 (samplesToAudioBuf, convertSampleToBytes). *)
From Verif Require Import GoBase PlaylistModel.
Local Open Scope Z_scope.

(** The value of a float64 bit pattern times 2^1074, an integer for every finite double
    (infinities count as the next value after the largest finite one; NaN is excluded by
    the callers). *)
Definition f_sign (x : N) : bool := N.testbit x 63.
Definition f_exp (x : N) : Z := Z.of_N ((x / 2 ^ 52) mod 2 ^ 11)%N.
Definition f_man (x : N) : Z := Z.of_N (x mod 2 ^ 52)%N.
Definition f_mag (x : N) : Z :=
  if f_exp x =? 0 then f_man x else (2 ^ 52 + f_man x) * 2 ^ (f_exp x - 1).
Definition f_scaled (x : N) : Z := if f_sign x then - f_mag x else f_mag x.
Definition f_one : Z := 2 ^ 1074.

(** Conversion of an integral float to int16 as the amd64 compiler does it: conversion to
    int32, then the low 16 bits.  (The Go specification leaves values out of range
    implementation-defined; only 32768 and NaN can occur here.) *)
Definition to_int16 (z : Z) : Z := (z + 2 ^ 15) mod 2 ^ 16 - 2 ^ 15.

(** 147-158.  Multiplication by 2^15 only moves the exponent, so it is exact for the
    clamped values; the conversion to an integer truncates towards zero. *)
Definition convert_sample (x : N) : Z * Z :=
  let v16 :=
    if is_nan x then to_int16 (- 2 ^ 31)     (* neither comparison holds; int32(NaN) = -2^31 on amd64 *)
    else
      let v := f_scaled x in
      let v := if v <? - f_one then - f_one else v in
      let v := if f_one <? v then f_one else v in
      to_int16 (Z.quot (v * 2 ^ 15) f_one) in
  (v16 mod 256, (v16 / 256) mod 256).

(** 138-145 on a byte buffer; [mul] is the float64 product with the volume.  The loop
    writes buf[i*4], buf[i*4+1] for channel 0 and buf[i*4+2], buf[i*4+3] for channel 1. *)
Fixpoint samples_to_buf (mul : N -> N -> N) (volume : N) (i : Z) (samples : list (N * N)) (buf : list Z) : outcome (list Z) :=
  match samples with
  | [] => Ok buf
  | (s0, s1) :: r =>
      let '(l0, h0) := convert_sample (mul s0 volume) in
      let '(l1, h1) := convert_sample (mul s1 volume) in
      do b1 <- slice_set buf (i * 4 + 0 * 2 + 0) l0;
      do b2 <- slice_set b1 (i * 4 + 0 * 2 + 1) h0;
      do b3 <- slice_set b2 (i * 4 + 1 * 2 + 0) l1;
      do b4 <- slice_set b3 (i * 4 + 1 * 2 + 1) h1;
      samples_to_buf mul volume (i + 1) r b4
  end.
