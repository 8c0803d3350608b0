(** What the shell syntax means, independently of the parser: how a line is read, what a
    word is, what trimming is.  No definition of the model is used here. *)
From Verif Require Import GoBase.
Local Open Scope N_scope.

Definition backslash : N := 92.
Definition blank : N := 32.

(** A line is a sequence of characters and separators. *)
Inductive piece := Chr (c : N) | Sep.

(** How a line is read: `\ ` stands for a blank, `\\` for a backslash, any other backslash for
    itself, a blank without backslash separates, everything else stands for itself. *)
Inductive reads : text -> list piece -> Prop :=
| R_end : reads [] []
| R_esc_blank l ps : reads l ps -> reads (backslash :: blank :: l) (Chr blank :: ps)
| R_esc_esc l ps : reads l ps -> reads (backslash :: backslash :: l) (Chr backslash :: ps)
| R_esc_other c l ps : c <> blank -> c <> backslash -> reads (c :: l) ps ->
    reads (backslash :: c :: l) (Chr backslash :: ps)
| R_esc_last : reads [backslash] [Chr backslash]
| R_sep l ps : reads l ps -> reads (blank :: l) (Sep :: ps)
| R_plain c l ps : c <> blank -> c <> backslash -> reads l ps -> reads (c :: l) (Chr c :: ps).

(** The pieces of a list of words. *)
Fixpoint spelled (ws : list text) : list piece :=
  match ws with
  | [] => []
  | [w] => map Chr w
  | w :: r => map Chr w ++ Sep :: spelled r
  end.

(** White space as Unicode defines it (property White_Space). *)
Definition white (c : N) : Prop :=
  9 <= c <= 13 \/ c = 32 \/ c = 0x85 \/ c = 0xA0 \/ c = 0x1680 \/ 0x2000 <= c <= 0x200A \/
  c = 0x2028 \/ c = 0x2029 \/ c = 0x202F \/ c = 0x205F \/ c = 0x3000.

(** [v] is a word without white space at its ends. *)
Definition tight (v : text) : Prop :=
  (forall c r, v = c :: r -> ~ white c) /\ (forall c r, v = r ++ [c] -> ~ white c).

(** [v] is [w] without the white space around it. *)
Definition trimmed (w v : text) : Prop :=
  tight v /\ exists a b, w = a ++ v ++ b /\ Forall white a /\ Forall white b.

Definition nonempty (w : text) : bool := match w with [] => false | _ => true end.

(** In [w] no backslash is followed by a backslash or a blank or ends the word. *)
Definition backslash_safe (w : text) : Prop :=
  forall a b, w = a ++ backslash :: b ->
    exists c r, b = c :: r /\ c <> backslash /\ c <> blank.

(** A word that survives [Unparse] followed by parsing. *)
Definition sound_word (w : text) : Prop :=
  Forall (fun c => c < 0xC0) w /\ tight w /\ backslash_safe w.
