(** Semantics of the Go constructs used by the models: panics, slices, integer
    division, 64-bit wrap-around, strings.  Nothing in this file is specific to
    music-sync; it is the reading of the Go language specification on which every
    model file rests. *)
From Coq Require Export List ZArith NArith Lia Bool Arith.
From Coq Require String Ascii.
Export String.StringSyntax.
Export ListNotations.

(** A Go computation either returns a value or panics (an unrecovered panic in any
    goroutine ends the process; music-sync never calls [recover]). *)
Inductive outcome (A : Type) : Type :=
| Ok (a : A)
| Panic.
Arguments Ok {A} a.
Arguments Panic {A}.

Definition obind {A B} (x : outcome A) (f : A -> outcome B) : outcome B :=
  match x with Ok a => f a | Panic => Panic end.

Notation "'do' x <- e ; f" := (obind e (fun x => f))
  (at level 200, x name, e at level 100, f at level 200).
Notation "'do' ' p <- e ; f" := (obind e (fun x => match x with p => f end))
  (at level 200, p pattern at level 0, e at level 100, f at level 200).

Definition is_panic {A} (x : outcome A) : bool :=
  match x with Panic => true | Ok _ => false end.

(** [len(s)] as a Go [int]. *)
Definition zlen {A} (l : list A) : Z := Z.of_nat (length l).

(** [s[i]]: run-time panic when the index is out of range. *)
Definition slice_get {A} (l : list A) (i : Z) : outcome A :=
  if (i <? 0)%Z then Panic
  else match nth_error l (Z.to_nat i) with Some a => Ok a | None => Panic end.

(** [s[i] = v] *)
Definition slice_set {A} (l : list A) (i : Z) (v : A) : outcome (list A) :=
  if ((i <? 0) || (zlen l <=? i))%Z then Panic
  else Ok (firstn (Z.to_nat i) l ++ v :: skipn (S (Z.to_nat i)) l).

(** [s[i:]] *)
Definition slice_from {A} (l : list A) (i : Z) : outcome (list A) :=
  if ((i <? 0) || (zlen l <? i))%Z then Panic else Ok (skipn (Z.to_nat i) l).

(** [s[:j]] (for [j <= len(s)]; a [j] between len and cap is never used by the code). *)
Definition slice_to {A} (l : list A) (j : Z) : outcome (list A) :=
  if ((j <? 0) || (zlen l <? j))%Z then Panic else Ok (firstn (Z.to_nat j) l).

(** [copy(s[d:], s[e:])] on one backing array: memmove of
    [min (len s - d) (len s - e)] elements; panics when a slice expression does. *)
Definition copy_within {A} (l : list A) (d e : Z) : outcome (list A) :=
  if ((d <? 0) || (zlen l <? d) || (e <? 0) || (zlen l <? e))%Z then Panic
  else
    let dn := Z.to_nat d in
    let en := Z.to_nat e in
    let n := Nat.min (length l - dn) (length l - en) in
    Ok (firstn dn l ++ firstn n (skipn en l) ++ skipn (dn + n) l).

(** Two's complement wrap-around of Go's [int64]/[int] (64-bit platforms). *)
Definition wrap64 (z : Z) : Z := ((z + 2 ^ 63) mod 2 ^ 64 - 2 ^ 63)%Z.
Definition in_int64 (z : Z) : Prop := (- 2 ^ 63 <= z < 2 ^ 63)%Z.

(** Conversion int64 -> uint64. *)
Definition to_uint64 (z : Z) : Z := (z mod 2 ^ 64)%Z.

(** Go's [/] and [%] on signed integers truncate towards zero. *)
Definition go_div (a b : Z) : Z := Z.quot a b.
Definition go_mod (a b : Z) : Z := Z.rem a b.

(** Text: a Go string holding valid UTF-8 is represented by its list of code points. *)
Notation rune := N (only parsing).
Notation text := (list N) (only parsing).

(** Text of a string literal (ASCII literals only). *)
Definition T (s : String.string) : text := map Ascii.N_of_ascii (String.list_ascii_of_string s).
Arguments T s%string_scope.

Fixpoint text_eqb (a b : text) : bool :=
  match a, b with
  | [], [] => true
  | x :: a', y :: b' => N.eqb x y && text_eqb a' b'
  | _, _ => false
  end.

(** [strings.HasPrefix(s, p)] *)
Fixpoint has_prefix (s p : text) {struct p} : bool :=
  match p, s with
  | [], _ => true
  | y :: p', x :: s' => N.eqb x y && has_prefix s' p'
  | _ :: _, [] => false
  end.

(** [strings.HasSuffix(s, p)] *)
Definition has_suffix (s p : text) : bool := has_prefix (rev s) (rev p).

(** [strings.Join(l, sep)] *)
Fixpoint join (sep : text) (l : list text) : text :=
  match l with
  | [] => []
  | [x] => x
  | x :: r => x ++ sep ++ join sep r
  end.
