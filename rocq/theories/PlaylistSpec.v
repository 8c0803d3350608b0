(** What a user expects of the playlist, independent of slices and indices arithmetic
    in the code. *)
From Verif Require Import GoBase PlaylistModel.
Local Open Scope Z_scope.

(** An index clipped to the interval [0, hi]. *)
Definition clip (i hi : Z) : Z := Z.max 0 (Z.min i hi).

(** [l'] is [l] with [x] inserted so that exactly [k] songs precede it. *)
Definition inserted_at {A} (k : Z) (x : A) (l l' : list A) : Prop :=
  exists before after, l = before ++ after /\ zlen before = k /\ l' = before ++ x :: after.

(** [l'] is [l] without its element number [k], which is [x]. *)
Definition removed_at {A} (k : Z) (x : A) (l l' : list A) : Prop :=
  exists before after, l = before ++ x :: after /\ zlen before = k /\ l' = before ++ after.

(** One edit on an ordinary list; [r] is the result handed back. *)
Inductive list_edit : list song -> edit -> list song -> option song -> Prop :=
| LE_add l s : list_edit l (EAdd s) (l ++ [s]) None
| LE_insert l s i l' :
    inserted_at (clip i (zlen l)) s l l' -> list_edit l (EInsert s i) l' None
| LE_remove_empty i : list_edit [] (ERemove i) [] (Some [])
| LE_remove l i x l' :
    l <> [] -> removed_at (clip i (zlen l - 1)) x l l' -> list_edit l (ERemove i) l' (Some x).

Inductive list_edits : list song -> list edit -> list song -> list (option song) -> Prop :=
| LEs_nil l : list_edits l [] l []
| LEs_cons l e l1 r es l2 rs :
    list_edit l e l1 r -> list_edits l1 es l2 rs -> list_edits l (e :: es) l2 (r :: rs).

(** Edits never ask for the removal of the position just past the end
    (the one index at which the code panics). [n] is the current number of songs. *)
Fixpoint no_boundary_removal (n : Z) (es : list edit) : Prop :=
  match es with
  | [] => True
  | ERemove i :: es' => (n = 0 \/ i <> n) /\ no_boundary_removal (Z.max 0 (n - 1)) es'
  | _ :: es' => no_boundary_removal (n + 1) es'
  end.

(** The cyclic order of a playlist: the k-th song played from position [p]. *)
Definition cyclic_song (l : list song) (p k : Z) : song :=
  nth (Z.to_nat ((p + k) mod zlen l)) l [].

(** ** Observations on a trace of the streaming loop *)

Definition samples_of_event (e : event) : list sample :=
  match e with EBlock l => l | EGap l => l | _ => [] end.
Definition stream_of (es : list event) : list sample := flat_map samples_of_event es.

Definition toggles_of (es : list event) : list (bool * Z) :=
  flat_map (fun e => match e with EToggle b i => [(b, i)] | _ => [] end) es.
Definition new_songs_of (es : list event) : list (Z * song * Z) :=
  flat_map (fun e => match e with ENewSong i f n => [(i, f, n)] | _ => [] end) es.

(** A song with blocks of 512 NaN samples inserted anywhere. *)
Inductive with_filler : list sample -> list sample -> Prop :=
| WF_nil : with_filler [] []
| WF_sample x l out : with_filler l out -> with_filler (x :: l) (x :: out)
| WF_pause l out : with_filler l out -> with_filler l (repeat nan_sample 512 ++ out).

(** Booleans that alternate, the first being [b]. *)
Fixpoint alternating (b : bool) (l : list bool) : Prop :=
  match l with [] => True | x :: r => x = b /\ alternating (negb b) r end.

Fixpoint nondecreasing (l : list Z) : Prop :=
  match l with
  | [] => True
  | x :: r => match r with [] => True | y :: _ => x <= y end /\ nondecreasing r
  end.

(** Whether playback is paused according to the announcements made so far
    (nothing announced yet: not paused). *)
Definition announced_paused (es : list event) : bool :=
  match rev (toggles_of es) with [] => false | (b, _) :: _ => negb b end.

(** Classes of actions. *)
Definition is_loop_action (a : action) : bool :=
  match a with
  | PNext | POpen | PCmp | PTogStore | PTogCall | PBlock | PCheck => true
  | _ => false
  end.
Definition is_jump (a : action) : bool :=
  match a with ASetPosWrite _ | ASetPosSend => true | _ => false end.
Definition is_edit (a : action) : bool := match a with AEdit _ => true | _ => false end.
Definition is_pnext (a : action) : bool := match a with PNext => true | _ => false end.

(** A song is being streamed. *)
Definition streaming (p : pc) : bool :=
  match p with
  | InSong _ | TogStore _ | TogCall _ | BlockRead _ | Checking _ _ _ => true
  | _ => false
  end.

(** The indices 0 .. k-1. *)
Definition upto (k : nat) : list Z := map Z.of_nat (seq 0 k).

(** The songs met when walking [k] places through the playlist cyclically from [p],
    those that cannot be played left out. *)
Definition played_in_order (decode : song -> option (list sample)) (l : list song) (p : Z) (k : nat)
  : list song :=
  filter (fun f => match decode f with Some _ => true | None => false end)
         (map (cyclic_song l p) (upto k)).

Definition block_count (es : list event) : nat :=
  length (filter (fun e => match e with EBlock _ => true | _ => false end) es).

(** The events before the first announcement of a song. *)
Fixpoint before_first_song (es : list event) : list event :=
  match es with
  | [] => []
  | ENewSong _ _ _ :: _ => []
  | e :: r => e :: before_first_song r
  end.

(** The (clipped) index at which an edit of a list of [n] songs takes place is greater
    than [k]. *)
Definition edits_beyond (k n : Z) (e : edit) : Prop :=
  match e with
  | EAdd _ => True
  | EInsert _ i => k < clip i n
  | ERemove i => k < clip i (n - 1)
  end.

(** SetPlaying is never executed between the comparison of the two flags
    (playlist.go:133) and the use of the flag for the block (playlist.go:84). *)
Fixpoint no_flag_race (inside : bool) (acts : list action) : Prop :=
  match acts with
  | [] => True
  | PCmp :: r => no_flag_race true r
  | PBlock :: r => no_flag_race false r
  | ASetPlaying _ :: r => inside = false /\ no_flag_race inside r
  | _ :: r => no_flag_race inside r
  end.

(** The song announced last. *)
Definition last_announced (es : list event) : option song :=
  match rev (new_songs_of es) with [] => None | (_, f, _) :: _ => Some f end.

(** Every announcement in the trace carries the stream index at which it was made, when
    the stream stood at index [i] before the first event; a song announcement also
    carries the length of the decoded song. *)
Fixpoint announced_in_place (decode : song -> option (list sample)) (i : Z) (es : list event) : Prop :=
  match es with
  | [] => True
  | e :: r =>
      match e with
      | ENewSong j f n => j = i /\ exists l, decode f = Some l /\ n = zlen l
      | EToggle _ j => j = i
      | _ => True
      end /\ announced_in_place decode (i + zlen (samples_of_event e)) r
  end.

Definition announcement_indices (es : list event) : list Z :=
  flat_map (fun e => match e with ENewSong i _ _ => [i] | EToggle _ i => [i] | _ => [] end) es.
