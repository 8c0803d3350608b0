(** Vocabulary of the server properties C37-C39, C56, C67, C68. *)
From Verif Require Import GoBase GoUtf8 WireModel SenderModel InfoerModel InfoerSpec ServerModel.
From Coq Require Import Sorted.
Local Open Scope Z_scope.

(** The server's life as far as pauses are concerned, one thing at a time: a song is
    announced, playback is paused or resumed (recorded at once), old pauses are dropped. *)
Inductive sequential_event : Type := SongStarts (m : message) | Toggled (t : toggle) | Pruned.

(** newest song, toggles so far, toggles retained *)
Inductive sequential : list sequential_event -> option message -> list toggle -> list toggle -> Prop :=
| SeqInit : sequential [] None [] []
| SeqSong tr n h l m : sequential tr n h l ->
    (forall m', n = Some m' -> start_of m' <= start_of m) ->
    sequential (tr ++ [SongStarts m]) (Some m) h l
| SeqToggle tr n h l t : sequential tr n h l -> Forall (fun x => t_index x <= t_index t) h ->
    sequential (tr ++ [Toggled t]) n (h ++ [t]) (l ++ [t])
| SeqPrune tr n h l l' : sequential tr n h l -> remove_old n l = Ok l' ->
    sequential (tr ++ [Pruned]) n h l'.

(** position from which on the retained pauses must suffice *)
Definition newest_start (n : option message) : Z := match n with Some m => start_of m | None => 0 end.

(** * Reading traces *)
Definition appended (tr : list label) : list toggle :=
  flat_map (fun l => match l with Append t => [t] | _ => [] end) tr.
Definition toggled (tr : list label) : list toggle :=
  flat_map (fun l => match l with Toggle t => [t] | _ => [] end) tr.
Definition announced (tr : list label) : list message :=
  flat_map (fun l => match l with NewSong m => [m] | _ => [] end) tr.

(** songs that begin to be streamed *)
Definition started (tr : list label) : list message :=
  flat_map (fun l => match l with StartSong m => [m] | _ => [] end) tr.

(** Songs are announced in the order of their first samples. *)
Definition songs_in_order (tr : list label) : Prop :=
  StronglySorted (fun a b => start_of a <= start_of b) (announced tr).

(** No pruning counts between the counting and the removal of another. *)
Definition no_overlap (tr : list label) : Prop :=
  forall before after w, tr = before ++ Count :: after -> wrun before w -> w_removals w = [].

(** No announcement is stored while another one is waiting to be broadcast. *)
Definition announced_one_by_one (tr : list label) : Prop :=
  forall before m after w, tr = before ++ NewSong m :: after -> wrun before w -> w_song_broadcasts w = O.

(** Each toggle is appended before the next one is made. *)
Definition no_overtaking (tr : list label) : Prop :=
  forall before t after w, tr = before ++ Toggle t :: after -> wrun before w -> w_appends w = [].

(** The steps of the goroutines that announce songs *)
Definition announcing_steps (tr : list label) : list label :=
  filter (fun l => match l with StartSong _ | NewSong _ | SongBroadcast => true | _ => false end) tr.
(** The songs [ms] are announced one after the other, undisturbed by each other. *)
Definition one_after_the_other (ms : list message) : list label :=
  flat_map (fun m => [StartSong m; NewSong m; SongBroadcast]) ms.
Definition is_song (m : message) : bool := match m with NewSongInfo _ _ _ _ _ => true | _ => false end.

(** Executions that go on from a world *)
Inductive goes_on (w0 : world) : list label -> world -> Prop :=
| GoOn : goes_on w0 [] w0
| GoStep tr w l w' : goes_on w0 tr w -> w_crashed w = false -> wstep w l w' -> goes_on w0 (tr ++ [l]) w'.
