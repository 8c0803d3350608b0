(** What a user types and what completing means, without reference to the completer. *)
From Verif Require Import GoBase ParserSpec.
Local Open Scope N_scope.

(** A word as typed: its blanks escaped. *)
Definition quoted (w : text) : text :=
  flat_map (fun c => if N.eqb c blank then [backslash; blank] else [c]) w.

(** A line as typed: complete words, each followed by one blank, and the word being typed. *)
Definition typed (ws : list text) (last : text) : text :=
  concat (map (fun w => quoted w ++ [blank]) ws) ++ quoted last.

(** The word being typed: like a sound word, but it may end with a backslash. *)
Definition typing_word (w : text) : Prop :=
  Forall (fun c => c < 0xC0) w /\ tight w /\
  (forall a c r, w = a ++ backslash :: c :: r -> c <> backslash /\ c <> blank).

(** The word [o] starts with what was typed of it. *)
Definition starts_with (typed o : text) : bool := has_prefix o typed.
