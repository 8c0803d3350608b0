(** What a terminal takes as text and what as an order.  Nothing of the model is used here. *)
From Verif Require Import GoBase.
Local Open Scope N_scope.

(** The control characters of ASCII and ISO 6429: C0, DEL, C1.  ESC (27) and CSI (0x9B) start
    sequences that move the cursor, clear the screen, make the terminal send input. *)
Definition control (c : N) : Prop := c < 32 \/ 127 <= c <= 159.

(** A text of printable characters: one that a terminal can only show. *)
Definition plain (t : text) : Prop := Forall (fun c => ~ control c) t.

(** Lines of such text *)
Definition plain_lines (t : text) : Prop := Forall (fun c => c = 10 \/ ~ control c) t.

(** What `clear` is there for: ESC [ H *)
Definition cursor_home : text := [27; 91; 72].

(** The output of a session: lines of text and what `clear` asks for. *)
Inductive tame : text -> Prop :=
| Tame_nothing : tame []
| Tame_text t r : plain_lines t -> tame r -> tame (t ++ r)
| Tame_clear r : tame r -> tame (cursor_home ++ r).

(** A character whose UTF-8 form is one byte or two bytes starting with 0xC2, or that ends in a
    byte from 0xA0 on. *)
Definition harmless (c : N) : Prop := ~ control c /\ (c < 0xC0 \/ 32 <= c mod 64).
