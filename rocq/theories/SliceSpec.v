(** The words of C123: lists as values, without arrays. *)
From Verif Require Import GoBase PlaylistModel SliceModel.

(** The playlist's methods among what happens, and what each is seen to do if the playlist
    is a plain list that nobody else can touch. *)
Fixpoint as_values (l : list song) (acts : list what) : outcome (list song * list seen) :=
  match acts with
  | [] => Ok (l, [])
  | Edit e _ :: r => do '(l1, x) <- apply_edit l e; do '(l2, xs) <- as_values l1 r; Ok (l2, SEdit x :: xs)
  | AskSongs _ :: r => do '(l2, xs) <- as_values l r; Ok (l2, SSongs l :: xs)
  | _ :: r => do '(l2, xs) <- as_values l r; Ok (l2, SNone :: xs)
  end.

(** Who does it: the holder of a slice, or nobody outside (the playlist itself). *)
Definition actor (w : world) (a : what) : option nat :=
  match a with
  | Edit _ _ | AskSongs _ => None
  | Store k _ _ | Append k _ _ | Cut k _ _ => option_map fst (nth_error (w_held w) k)
  end.
