(** Vocabulary of C116: what a long-running server or info client keeps in memory. *)
From Verif Require Import GoBase GoUtf8 WireModel SenderModel SenderSpec InfoerModel InfoerSpec ServerModel ServerSpec.
From Coq Require Import Sorted.
Local Open Scope Z_scope.

(** Pauses and resumes alternate. *)
Definition alternating (l : list toggle) : Prop :=
  forall before a b after, l = before ++ a :: b :: after -> t_playing a = negb (t_playing b).

(** How many of the toggles lie at or after sample [x]. *)
Definition toggles_from (x : Z) (l : list toggle) : nat := length (filter (fun t => x <=? t_index t) l).

(** The channels connection [c] asked for, in order, as often as it asked. *)
Definition requests (h : list op) (c : nat) : list Z :=
  flat_map (fun o => match o with SenderModel.Subscribe c' ch => if Nat.eqb c' c then [ch] else [] | _ => [] end) h.

(** A chunk schedule: every chunk lasts [d] nanoseconds, and a chunk of later samples starts
    no earlier than the previous one ends; no two chunks start at one sample. *)
Definition regular (sr d : Z) (cs : list chunk) : Prop :=
  Forall chunk_ok cs
  /\ (forall c, In c cs -> chunk_end sr c = c_startTime c + d)
  /\ (forall c c', In c cs -> In c' cs -> c_startIndex c < c_startIndex c' -> c_startTime c + d <= c_startTime c')
  /\ NoDup (map c_startIndex cs).

(** Toggles with growing indices *)
Definition growing : list toggle -> Prop := StronglySorted (fun a b => t_index a < t_index b).
