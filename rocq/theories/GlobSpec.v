(** Wildcard patterns as the user writes them and what they stand for (C98). *)
From Verif Require Import GoBase FilesModel FilesSpec.
Local Open Scope N_scope.

(** The parts of one element (between slashes) of a pattern. *)
Inductive piece :=
| AnyText                                              (* any text *)
| AnyChar                                              (* any one character *)
| Char (c : rune)                                      (* this character *)
| OneOf (ranges : list (rune * rune))                  (* one character in one of the ranges *)
| NoneOf (ranges : list (rune * rune)).                (* one character outside of all of them *)

(** Which names the pieces stand for. *)
Inductive fits : list piece -> text -> Prop :=
| FitsEnd : fits [] []
| FitsText a ps n : fits ps n -> fits (AnyText :: ps) (a ++ n)
| FitsChar c ps n : fits ps n -> fits (AnyChar :: ps) (c :: n)
| FitsThis c ps n : fits ps n -> fits (Char c :: ps) (c :: n)
| FitsOne rs lo hi c ps n : In (lo, hi) rs -> lo <= c -> c <= hi -> fits ps n -> fits (OneOf rs :: ps) (c :: n)
| FitsNone rs c ps n : (forall lo hi, In (lo, hi) rs -> c < lo \/ hi < c) -> fits ps n -> fits (NoneOf rs :: ps) (c :: n).

(** How a character is written inside of brackets: as it is, or after a backslash. *)
Inductive bracket_char : rune -> text -> Prop :=
| BracketPlain c : c <> 45 -> c <> 93 -> c <> 92 -> bracket_char c [c]       (* not - ] \ *)
| BracketEscaped c : bracket_char c (T "\" ++ [c]).
(** Ranges: x or x-y, one after the other, at least one. *)
Inductive bracket : list (rune * rune) -> text -> Prop :=
| BracketOne c t rs r : bracket_char c t -> more_bracket rs r -> bracket ((c, c) :: rs) (t ++ r)
| BracketRange lo hi t u rs r : bracket_char lo t -> bracket_char hi u -> more_bracket rs r ->
    bracket ((lo, hi) :: rs) (t ++ T "-" ++ u ++ r)
with more_bracket : list (rune * rune) -> text -> Prop :=
| NoMore : more_bracket [] []
| More rs t : bracket rs t -> more_bracket rs t.

(** How pieces are written. *)
Inductive written : list piece -> text -> Prop :=
| WrittenEnd : written [] []
| WrittenText ps t : written ps t -> written (AnyText :: ps) (T "*" ++ t)
| WrittenChar ps t : written ps t -> written (AnyChar :: ps) (T "?" ++ t)
| WrittenPlain c ps t : ~ In c (T "*?[\") -> written ps t -> written (Char c :: ps) (c :: t)
| WrittenEscaped c ps t : written ps t -> written (Char c :: ps) (T "\" ++ c :: t)
| WrittenOneOf rs r ps t : bracket rs r -> has_prefix r (T "^") = false -> written ps t ->
    written (OneOf rs :: ps) (T "[" ++ r ++ T "]" ++ t)
| WrittenNoneOf rs r ps t : bracket rs r -> written ps t -> written (NoneOf rs :: ps) (T "[^" ++ r ++ T "]" ++ t).

(** The entries of a tree whose names fit the elements of a pattern, in the order of the
    directory listings. *)
Inductive expansion : list (list piece) -> node -> list (list text * node) -> Prop :=
| ExpHere n : expansion [] n [([], n)]
| ExpNoDir p ps n : (forall es, n <> Dir (Some es)) -> expansion (p :: ps) n []
| ExpDir p ps es l : expansions p ps es l -> expansion (p :: ps) (Dir (Some es)) l
with expansions : list piece -> list (list piece) -> list (text * node) -> list (list text * node) -> Prop :=
| ExpNil p ps : expansions p ps [] []
| ExpFits p ps name n es l1 l2 : fits p name -> expansion ps n l1 -> expansions p ps es l2 ->
    expansions p ps ((name, n) :: es) (map (fun q => (name :: fst q, snd q)) l1 ++ l2)
| ExpNot p ps name n es l : ~ fits p name -> expansions p ps es l -> expansions p ps ((name, n) :: es) l.

(** Below [d] the file system holds exactly the tree [n] (without links to directories),
    and it does not change while the command runs. *)
Definition exactly (w : fs) (d : text) (n : node) : Prop :=
  forall ns, Forall name_ok ns ->
    (forall m, entry n ns m ->
       lstat w (under d ns) = Some m /\
       (m = File -> is_file w (under d ns) = true) /\
       (forall es, m = Dir es -> is_file w (under d ns) = false) /\
       dir_names w (under d ns) = match m with Dir (Some es) => Some (map fst es) | _ => None end) /\
    ((forall m, ~ entry n ns m) -> lstat w (under d ns) = None /\ dir_names w (under d ns) = None).
