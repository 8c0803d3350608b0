(** Directories, the files below them and their names, independently of how paths are
    processed. *)
From Verif Require Import GoBase FilesModel.

(** The name of a directory entry. *)
Definition name_ok (n : text) : Prop := n <> [] /\ ~ In 47%N n /\ n <> T "." /\ n <> T "..".

(** A plainly spelled directory: names separated by single slashes, absolute or relative
    (then possibly starting with ..), no trailing slash; not "." or "/". *)
Inductive plain : text -> Prop :=
| PlainAbs ns : ns <> [] -> Forall name_ok ns -> plain (T "/" ++ join (T "/") ns)
| PlainRel k ns : (0 < k + length ns)%nat -> Forall name_ok ns ->
    plain (join (T "/") (repeat (T "..") k ++ ns)).

(** The path of the entry reached from directory [d] through the entries [ns]. *)
Definition under (d : text) (ns : list text) : text := d ++ flat_map (fun n => T "/" ++ n) ns.

(** All names in a tree are entry names. *)
Inductive tree_ok : node -> Prop :=
| OkFile : tree_ok File
| OkLink : tree_ok Link
| OkGone : tree_ok Gone
| OkUnreadable : tree_ok (Dir None)
| OkDir es : Forall (fun e => name_ok (fst e)) es -> Forall (fun e => tree_ok (snd e)) es -> tree_ok (Dir (Some es)).

(** Everything in the tree can be read. *)
Inductive readable : node -> Prop :=
| RdFile : readable File
| RdLink : readable Link
| RdDir es : Forall (fun e => readable (snd e)) es -> readable (Dir (Some es)).

(** Entry [m] is found in tree [n] through the names [ns]. *)
Inductive entry : node -> list text -> node -> Prop :=
| EntrySelf n : entry n [] n
| EntryIn es name c ns m : In (name, c) es -> entry c ns m -> entry (Dir (Some es)) (name :: ns) m.

(** not a directory: what the program treats as a file when walking *)
Definition is_leaf (n : node) : Prop := n = File \/ n = Link.

(** The names in a directory are distinct, at every level. *)
Inductive tree_distinct : node -> Prop :=
| DiFile : tree_distinct File
| DiLink : tree_distinct Link
| DiGone : tree_distinct Gone
| DiUnreadable : tree_distinct (Dir None)
| DiDir es : NoDup (map fst es) -> Forall (fun e => tree_distinct (snd e)) es -> tree_distinct (Dir (Some es)).

(** The answers of the file system describe one and the same tree below [d], which does not
    change while the command runs. *)
Definition describes (w : fs) (d : text) (n : node) : Prop :=
  forall ns m, entry n ns m ->
    (m <> Gone -> lstat w (under d ns) = Some m) /\
    (m = File -> is_file w (under d ns) = true) /\
    (forall es, m = Dir (Some es) -> is_file w (under d ns) = false /\ dir_names w (under d ns) = Some (map fst es)).

(** The names that end in .mp3, in their order. *)
Inductive songs_of : list text -> list text -> Prop :=
| SongsNil : songs_of [] []
| SongsKeep s l l' : songs_of l l' -> songs_of ((s ++ T ".mp3") :: l) ((s ++ T ".mp3") :: l')
| SongsDrop f l l' : (forall s, f <> s ++ T ".mp3") -> songs_of l l' -> songs_of (f :: l) l'.
