(** Decimal numbers as users write them (C101). *)
From Verif Require Import GoBase.
Local Open Scope Z_scope.

Definition decimal_digit (c : N) : Prop := (48 <= c <= 57)%N.
(** 48 is the character 0 *)
Definition value_of (ds : text) : Z := fold_left (fun v c => 10 * v + (Z.of_N c - 48)) ds 0.

(** [t] is an optional sign (43 is +, 45 is -) and at least one digit, and denotes [z], which
    fits in a machine integer. *)
Definition reads (t : text) (z : Z) : Prop :=
  exists ds, ds <> [] /\ Forall decimal_digit ds /\ - 2 ^ 63 <= z < 2 ^ 63 /\
    (t = ds /\ z = value_of ds \/ t = 43%N :: ds /\ z = value_of ds \/ t = 45%N :: ds /\ z = - value_of ds).
