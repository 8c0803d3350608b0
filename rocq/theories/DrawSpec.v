(** What should be on the info client's screen, said in terms of cells. *)
From Verif Require Import GoBase GoUtf8 InfoerModel.
Local Open Scope Z_scope.

(** a screen: the rune in column x of row y (None outside) *)
Notation screen := (Z -> Z -> option N) (only parsing).

(** the text [t] stands in row y, one character per cell, from column x on, as far as
    the columns before [limit] reach *)
Definition shows (scr : screen) (x y limit : Z) (t : text) : Prop :=
  forall k r, nth_error t k = Some r -> x + Z.of_nat k < limit -> scr (x + Z.of_nat k) y = Some r.

Definition ascii (t : text) : Prop := Forall (fun c => (c < 128)%N) t.

(** a frame with corners (x, y) and (x + w - 1, y + h - 1), with a label in the top line from
    the third column on *)
Definition framed (scr : screen) (x y w h : Z) (label : text) : Prop :=
  scr x y = Some 0x2554%N /\ scr (x + w - 1) y = Some 0x2557%N /\
  scr x (y + h - 1) = Some 0x255A%N /\ scr (x + w - 1) (y + h - 1) = Some 0x255D%N /\
  (forall j, y < j < y + h - 1 -> scr x j = Some 0x2551%N /\ scr (x + w - 1) j = Some 0x2551%N) /\
  (forall i, x < i < x + w - 1 -> scr i (y + h - 1) = Some 0x2550%N) /\
  (forall k r, nth_error label k = Some r -> scr (x + 2 + Z.of_nat k) y = Some r) /\
  (forall i, x < i < x + w - 1 -> i < x + 2 \/ x + 2 + zlen label <= i -> scr i y = Some 0x2550%N).

(** how full a cell of a progress bar looks: 0 empty, 1 half, 2 full *)
Definition fill (c : option N) : option Z :=
  match c with
  | Some 32%N => Some 0
  | Some 0x258C%N => Some 1
  | Some 0x2588%N => Some 2
  | _ => None
  end.
