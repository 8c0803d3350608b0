(** UTF-8 as Go's [unicode/utf8] package reads and writes it.  Used by the wire
    format (protobuf string fields) and by the shell parser. *)
From Verif Require Import GoBase.
Local Open Scope N_scope.
Local Open Scope bool_scope.

Notation bytes := (list N) (only parsing).

(** A rune that UTF-8 can encode: a Unicode scalar value (no surrogates). *)
Definition scalar (r : N) : Prop := r < 0xD800 \/ 0xE000 <= r < 0x110000.

(** [utf8.EncodeRune] for scalar values. *)
Definition utf8_encode_rune (r : N) : bytes :=
  if r <? 0x80 then [r]
  else if r <? 0x800 then [0xC0 + r / 64; 0x80 + r mod 64]
  else if r <? 0x10000 then [0xE0 + r / 4096; 0x80 + (r / 64) mod 64; 0x80 + r mod 64]
  else [0xF0 + r / 262144; 0x80 + (r / 4096) mod 64; 0x80 + (r / 64) mod 64; 0x80 + r mod 64].

(** [string([]rune)] for scalar values *)
Definition utf8_encode (t : text) : bytes := flat_map utf8_encode_rune t.

Definition between (lo hi x : N) : bool := (lo <=? x) && (x <=? hi).
Definition cont (x : N) : bool := between 0x80 0xBF x.

(** [utf8.Valid]: the accept ranges of the Go tables [first] and [acceptRanges]. *)
Fixpoint utf8_valid (b : bytes) : bool :=
  match b with
  | [] => true
  | x :: r =>
      if x <? 0x80 then utf8_valid r
      else
        match r with
        | [] => false
        | y :: r1 =>
            if between 0xC2 0xDF x then cont y && utf8_valid r1
            else
              match r1 with
              | [] => false
              | z :: r2 =>
                  if between 0xE0 0xEF x then
                    (if x =? 0xE0 then between 0xA0 0xBF y
                     else if x =? 0xED then between 0x80 0x9F y else cont y)
                    && cont z && utf8_valid r2
                  else
                    match r2 with
                    | [] => false
                    | w :: r3 =>
                        between 0xF0 0xF4 x
                        && (if x =? 0xF0 then between 0x90 0xBF y
                            else if x =? 0xF4 then between 0x80 0x8F y else cont y)
                        && cont z && cont w && utf8_valid r3
                    end
              end
        end
  end.
