(** Property C25: conversion to 16-bit PCM. *)
From Verif Require Import GoBase GoBaseFacts PlaylistModel PcmModel PcmProofs.
From Coq Require Import ZifyBool.
Local Open Scope Z_scope.

(** For every float64 below 1.0 that is not NaN, the two bytes read as a little-endian
    16-bit number are the value, clamped at -1, times 32768, rounded towards zero.
    ([f_scaled x / f_one] is the exact value of the float.) *)
Theorem C25_exact_partial : forall x, is_nan x = false -> f_scaled x < f_one ->
  let v := pcm16 (convert_sample x) in
  let c := Z.max (- f_one) (f_scaled x) in
  Z.abs v * f_one <= Z.abs (c * 32768) < (Z.abs v + 1) * f_one /\ 0 <= v * c.
Proof.
  intros x Hn H. cbn zeta. rewrite (conv_eq x Hn), to_int16_id by (apply quot_range; exact H).
  assert (Hc : clamped x = Z.max (- f_one) (f_scaled x)) by (unfold clamped; lia).
  rewrite <- Hc. change 32768 with (2 ^ 15).
  destruct (quot_bounds (clamped x * 2 ^ 15) f_one f_one_pos) as [H1 H2]. split; [exact H1|]. lia.
Qed.
Print Assumptions C25_exact_partial.

(** Both returned values are bytes. *)
Theorem C25_bytes : forall x, 0 <= fst (convert_sample x) < 256 /\ 0 <= snd (convert_sample x) < 256.
Proof.
  intros x. unfold convert_sample. cbn zeta. cbn [fst snd]. split; apply Z.mod_pos_bound; lia.
Qed.
Print Assumptions C25_bytes.

Theorem C25_monotone_partial : forall x y, is_nan x = false -> is_nan y = false ->
  f_scaled x <= f_scaled y -> f_scaled y < f_one ->
  pcm16 (convert_sample x) <= pcm16 (convert_sample y).
Proof.
  intros x y Hx Hy Hle H. rewrite !conv_eq by assumption. rewrite !to_int16_id by (apply quot_range; lia).
  apply quot_mono; [apply f_one_pos|]. unfold clamped. lia.
Qed.
Print Assumptions C25_monotone_partial.

(** Refuted at full scale: every value from +1.0 upwards is converted to -32768. *)
Theorem C25_full_scale_refuted : forall x, is_nan x = false -> f_one <= f_scaled x ->
  pcm16 (convert_sample x) = - 32768.
Proof.
  intros x Hn H. rewrite (conv_eq x Hn). assert (Hc : clamped x = f_one) by (unfold clamped; pose proof f_one_pos; lia).
  rewrite Hc, Z.mul_comm, Z.quot_mul by (pose proof f_one_pos; lia). reflexivity.
Qed.
Print Assumptions C25_full_scale_refuted.

(** The byte buffer: whatever it held, it afterwards holds the four bytes of every sample,
    left channel first, with nothing left over. *)
Theorem C25_buffer : forall mul volume samples buf, zlen buf = 4 * zlen samples ->
  exists out, samples_to_buf mul volume 0 samples buf = Ok out /\ zlen out = zlen buf /\
  forall i s, nth_error samples i = Some s ->
    nth_error out (4 * i) = Some (fst (convert_sample (mul (fst s) volume))) /\
    nth_error out (4 * i + 1) = Some (snd (convert_sample (mul (fst s) volume))) /\
    nth_error out (4 * i + 2) = Some (fst (convert_sample (mul (snd s) volume))) /\
    nth_error out (4 * i + 3) = Some (snd (convert_sample (mul (snd s) volume))).
Proof.
  intros mul volume samples buf Hl.
  pose proof (buf_ok mul volume samples [] buf Hl 0 eq_refl) as H. cbn [app] in H.
  eexists. split; [exact H|]. clear H. split.
  - rewrite Hl. clear. induction samples as [|[s0 s1] samples IH]; [reflexivity|].
    cbn [map concat]. rewrite zlen_app, IH, zlen_cons. unfold sample_bytes. cbn [fst snd].
    destruct (convert_sample _), (convert_sample _). rewrite !zlen_cons, zlen_nil. lia.
  - clear. induction samples as [|[s0 s1] samples IH]; intros i s Hs; [destruct i; discriminate|].
    assert (Hlen : length (sample_bytes mul volume (s0, s1)) = 4%nat).
    { unfold sample_bytes. cbn [fst snd]. destruct (convert_sample _), (convert_sample _). reflexivity. }
    cbn [map concat]. destruct i as [|i]; cbn [nth_error] in Hs.
    + injection Hs as <-. rewrite !nth_error_app1 by lia. unfold sample_bytes. cbn [fst snd].
      destruct (convert_sample (mul s0 volume)), (convert_sample (mul s1 volume)). cbn. auto.
    + rewrite !nth_error_app2 by lia. rewrite Hlen.
      replace (4 * S i - 4)%nat with (4 * i)%nat by lia. replace (4 * S i + 1 - 4)%nat with (4 * i + 1)%nat by lia.
      replace (4 * S i + 2 - 4)%nat with (4 * i + 2)%nat by lia. replace (4 * S i + 3 - 4)%nat with (4 * i + 3)%nat by lia.
      apply IH. exact Hs.
Qed.
Print Assumptions C25_buffer.

(** 0.5, -0.25, the largest double below 1, 1.0, -1.5, +Inf and the smallest subnormal. *)
Example C25_nonvacuous :
  map (fun x => (pcm16 (convert_sample x), is_nan x)) [0x3FE0000000000000; 0xBFD0000000000000; 0x3FEFFFFFFFFFFFFF; 0x3FF0000000000000;
     0xBFF8000000000000; 0x7FF0000000000000; 1]%N
  = [(16384, false); (-8192, false); (32767, false); (-32768, false); (-32768, false); (-32768, false); (0, false)] /\
  f_scaled 0x3FEFFFFFFFFFFFFF < f_one /\ f_scaled 0x3FF0000000000000 = f_one.
Proof. split; [vm_compute; reflexivity|]. split; vm_compute; reflexivity. Qed.
