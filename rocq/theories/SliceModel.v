(** The playlist's slice of songs with its backing array (playback/playlist.go 156-211, 253-266),
    in a heap shared with whoever holds slices of strings: PlaylistModel has the same methods on
    values.  Go's slices are (array, offset, length, capacity); append writes behind the slice
    into the same array while there is capacity. *)
From Verif Require Import GoBase PlaylistModel.
Local Open Scope nat_scope.

Notation array := (list song) (only parsing).
(** The slice header of pl.songs (playback/playlist.go 16-35, the field songs): number of the backing array, offset in it, length, capacity. *)
Record slice := { s_arr : nat; s_off : nat; s_len : nat; s_cap : nat }.
Notation heap := (list array) (only parsing).

(** The backing array with number [a] (the memory the slices of playlist.go 156-211 point to). *)
Definition array_of (h : heap) (a : nat) : array := nth a h [].
(** What is seen through a slice. *)
Definition view (h : heap) (s : slice) : list song := firstn (s_len s) (skipn (s_off s) (array_of h (s_arr s))).

(** Replace the elements [off ..] of an array by [l] (which must fit). *)
Definition overwrite (off : nat) (l : list song) (a : array) : array :=
  firstn off a ++ l ++ skipn (off + length l) a.
(** A store into a backing array (the assignments and copy calls of playlist.go 168-208). *)
Definition set_array (h : heap) (a : nat) (x : array) : heap := firstn a h ++ x :: skipn (S a) h.
(** Storing the elements [l] from index [i] of a slice on (playlist.go 160, 183-184, 206-207). *)
Definition write (h : heap) (s : slice) (i : nat) (l : list song) : heap :=
  set_array h (s_arr s) (overwrite (s_off s + i) l (array_of h (s_arr s))).

(** make([]string, len(l)) with the values of [l] in it *)
Definition alloc (h : heap) (l : list song) (cap : nat) : heap * slice :=
  (h ++ [l ++ repeat [] (cap - length l)], {| s_arr := length h; s_off := 0; s_len := length l; s_cap := cap |}).

(** append(s, v); [extra] is how much more than needed the runtime allocates when it has to. *)
Definition go_append (h : heap) (s : slice) (v : song) (extra : nat) : heap * slice :=
  if s_len s <? s_cap s
  then (write h s (s_len s) [v], {| s_arr := s_arr s; s_off := s_off s; s_len := S (s_len s); s_cap := s_cap s |})
  else alloc h (view h s ++ [v]) (S (s_len s) + extra).

(** s[i] = v *)
Definition go_store (h : heap) (s : slice) (i : Z) (v : song) : outcome heap :=
  if ((i <? 0) || (Z.of_nat (s_len s) <=? i))%Z then Panic else Ok (write h s (Z.to_nat i) [v]).
(** s[i] *)
Definition go_load (h : heap) (s : slice) (i : Z) : outcome song := slice_get (view h s) i.
(** s[i:] *)
Definition go_from (s : slice) (i : Z) : outcome slice :=
  if ((i <? 0) || (Z.of_nat (s_len s) <? i))%Z then Panic
  else Ok {| s_arr := s_arr s; s_off := s_off s + Z.to_nat i; s_len := s_len s - Z.to_nat i; s_cap := s_cap s - Z.to_nat i |}.
(** s[:j]; j may be up to the capacity *)
Definition go_to (s : slice) (j : Z) : outcome slice :=
  if ((j <? 0) || (Z.of_nat (s_cap s) <? j))%Z then Panic
  else Ok {| s_arr := s_arr s; s_off := s_off s; s_len := Z.to_nat j; s_cap := s_cap s |}.
(** copy(d, s): memmove of as many elements as both have *)
Definition go_copy (h : heap) (d s : slice) : heap :=
  write h d 0 (firstn (Nat.min (s_len d) (s_len s)) (view h s)).

(** playlist.go 165-169 *)
Definition add_h (h : heap) (p : slice) (s : song) (extra : nat) : heap * slice := go_append h p s extra.

(** 173-186 *)
Definition insert_h (h : heap) (p : slice) (s : song) (index : Z) (extra : nat) : outcome (heap * slice) :=
  let index := (if index <? 0 then 0 else index)%Z in
  if (Z.of_nat (s_len p) <? index)%Z then Ok (go_append h p s extra)
  else
    let '(h1, p1) := go_append h p [] extra in
    do d <- go_from p1 (index + 1);
    do e <- go_from p1 index;
    let h2 := go_copy h1 d e in
    do h3 <- go_store h2 p1 index s;
    Ok (h3, p1).

(** 191-211 *)
Definition remove_h (h : heap) (p : slice) (index : Z) : outcome (heap * slice * song) :=
  if s_len p =? 0 then Ok (h, p, [])
  else
    let index := (if index <? 0 then 0 else index)%Z in
    let n := Z.of_nat (s_len p) in
    if (n <? index)%Z then
      do removed <- go_load h p (n - 1);
      do p1 <- go_to p (n - 1);
      Ok (h, p1, removed)
    else
      do removed <- go_load h p index;
      do d <- go_from p index;
      do e <- go_from p (index + 1);
      let h1 := go_copy h d e in
      do h2 <- go_store h1 p (n - 1) [];
      do p1 <- go_to p (n - 1);
      Ok (h2, p1, removed).

(** playlist.go 165-211: one call of AddSong, InsertSong or RemoveSong; the last component is RemoveSong's result. *)
Definition edit_h (h : heap) (p : slice) (e : edit) (extra : nat) : outcome (heap * slice * option song) :=
  match e with
  | EAdd s => let '(h1, p1) := add_h h p s extra in Ok (h1, p1, None)
  | EInsert s i => do '(h1, p1) <- insert_h h p s i extra; Ok (h1, p1, None)
  | ERemove i => do '(h1, p1, r) <- remove_h h p i; Ok (h1, p1, Some r)
  end.

(** 156-162: a new array of exactly the length *)
Definition songs_h (h : heap) (p : slice) : heap * slice :=
  let '(h1, r) := alloc h (repeat [] (s_len p)) (s_len p) in
  (go_copy h1 r p, r).

(** The playlist and the slices others hold, each with the number of the owner it came from. *)
Record world := { w_heap : heap; w_songs : slice; w_held : list (nat * slice) }.

(** What can happen: calls of playlist.go 156-211, and the holder of a result of Songs (e.g. playlistCommand in schedule/server_state_commands.go) using its slice. *)
Inductive what :=
| Edit (e : edit) (extra : nat)                   (* a method of the playlist *)
| AskSongs (owner : nat)                          (* Songs(); the result goes to [owner] *)
| Store (k : nat) (i : Z) (v : song)              (* the holder of the k-th slice writes into it, *)
| Append (k : nat) (v : song) (extra : nat)       (* appends to it, *)
| Cut (k : nat) (i j : Z).                        (* or takes a part [i:j] of it; new slices are added at the end *)

(** What is seen: the edit's result, the list Songs() returned. *)
Inductive seen := SEdit (r : option song) | SSongs (l : list song) | SNone.

(** [None]: the process panics (in the playlist or in the holder's own code). *)
Definition wstep (w : world) (a : what) : option (world * seen) :=
  let h := w_heap w in
  match a with
  | Edit e extra =>
      match edit_h h (w_songs w) e extra with
      | Panic => None
      | Ok (h1, p1, r) => Some ({| w_heap := h1; w_songs := p1; w_held := w_held w |}, SEdit r)
      end
  | AskSongs o =>
      let '(h1, r) := songs_h h (w_songs w) in
      Some ({| w_heap := h1; w_songs := w_songs w; w_held := w_held w ++ [(o, r)] |}, SSongs (view h1 r))
  | Store k i v =>
      match nth_error (w_held w) k with
      | None => None
      | Some (o, s) =>
          match go_store h s i v with
          | Panic => None
          | Ok h1 => Some ({| w_heap := h1; w_songs := w_songs w; w_held := w_held w |}, SNone)
          end
      end
  | Append k v extra =>
      match nth_error (w_held w) k with
      | None => None
      | Some (o, s) =>
          let '(h1, r) := go_append h s v extra in
          Some ({| w_heap := h1; w_songs := w_songs w; w_held := w_held w ++ [(o, r)] |}, SNone)
      end
  | Cut k i j =>
      match nth_error (w_held w) k with
      | None => None
      | Some (o, s) =>
          match (do s1 <- go_to s j; go_from s1 i) with
          | Panic => None
          | Ok r => Some ({| w_heap := h; w_songs := w_songs w; w_held := w_held w ++ [(o, r)] |}, SNone)
          end
      end
  end.

(** A sequence of such calls (each is made under songsMutex, playlist.go 157, 166, 174, 192). *)
Fixpoint wrun (w : world) (acts : list what) : option (world * list seen) :=
  match acts with
  | [] => Some (w, [])
  | a :: r =>
      match wstep w a with
      | None => None
      | Some (w1, x) => match wrun w1 r with None => None | Some (w2, xs) => Some (w2, x :: xs) end
      end
  end.

(** 253-266 (NewPlaylist): the slice given becomes the playlist's own.  [held] says what the
    caller keeps of it. *)
Definition new_world (l : list song) (spare : nat) (keeps : bool) : world :=
  let '(h, s) := alloc [] l (length l + spare) in
  {| w_heap := h; w_songs := s; w_held := if keeps then [(0, s)] else [] |}.
