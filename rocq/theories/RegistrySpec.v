(** What a session may expect of the table of commands. *)
From Verif Require Import GoBase CommandsSpec RegistryModel.
From Coq Require Import Sorting.Sorted Sorting.Permutation.
Local Open Scope nat_scope.

(** Names in dictionary order. *)
Definition in_order (a b : text) : Prop := ~ dict_before b a.
Definition ordered {B} (l : list (text * B)) : Prop := StronglySorted (fun x y => in_order (fst x) (fst y)) l.

(** sort.Sort as documented: it only swaps, inside of the slice, and the result is ordered. *)
Definition exchange {A} (l : list A) (i j : nat) : list A :=
  match nth_error l i, nth_error l j with Some x, Some y => put (put l i y) j x | _, _ => l end.
Definition exchanges {A} (ops : list (nat * nat)) (l : list A) : list A :=
  fold_left (fun l p => exchange l (fst p) (snd p)) ops l.
Definition sorts (swaps : list text -> list (nat * nat)) : Prop :=
  forall l, Forall (fun p => fst p < length l /\ snd p < length l) (swaps l) /\
            StronglySorted in_order (exchanges (swaps l) l).

(** The right answer to a lookup or a listing when the commands [cs] are registered. *)
Definition right_answer {B} (cs : list (text * B)) (e : revent B) : Prop :=
  match e with
  | Found _ name c => In c cs /\ fst c = name
  | Unknown _ name => forall c, In c cs -> fst c <> name
  | Listed _ l => Permutation cs l /\ ordered l
  end.

(** The goroutine an answer is for. *)
Definition asker {B} (e : revent B) : nat :=
  match e with Found g _ _ => g | Unknown g _ => g | Listed g _ => g end.

Definition registers (a : raction) : bool := match a with AReg => true | _ => false end.
