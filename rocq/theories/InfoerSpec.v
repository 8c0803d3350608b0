(** What the info client should display, said without the client's data structures. *)
From Verif Require Import GoBase GoUtf8 WireModel InfoerModel.
From Coq Require Import Permutation Sorted.
Local Open Scope Z_scope.

(** * What has been received *)
Definition messages (tr : list event) : list message :=
  flat_map (fun e => match e with Handled m => [m] | _ => [] end) tr.
Definition received_songs (ms : list message) : list song :=
  flat_map (fun m => match m with NewSongInfo f file len ly md => [song_of f file len ly md] | _ => [] end) ms.
Definition received_chunks (ms : list message) : list chunk :=
  flat_map (fun m => match m with
                     | ChunkInfo t f n => [{| c_startTime := t; c_startIndex := f; c_size := n |}]
                     | _ => [] end) ms.
Definition received_toggles (ms : list message) : list toggle :=
  flat_map (fun m => match m with PauseInfo p t => [{| t_playing := p; t_index := t |}] | _ => [] end) ms.
Definition received_volume (ms : list message) : N :=
  fold_left (fun v m => match m with SetVolumeRequest v' => v' | _ => v end) ms 0%N.

(** Indices are below 2^63 (584942 years of samples at 500 kHz); the program converts them to int64. *)
Definition index_ok (i : Z) : Prop := 0 <= i < 2 ^ 63.

(** * Sample position *)
Definition chunk_end (sr : Z) (c : chunk) : Z := c_startTime c + c_size c * second / sr.
(** Sample at time [now] by the schedule of the chunk: first sample plus elapsed samples,
    rounded towards zero. *)
Definition position (sr now : Z) (c : chunk) : Z :=
  c_startIndex c + Z.quot ((now - c_startTime c) * sr) second.
(** Sizes and times for which the int64 arithmetic does not overflow. *)
Definition chunk_ok (c : chunk) : Prop :=
  0 <= c_startIndex c < 2 ^ 62 /\ 0 <= c_size c /\ c_size c * second < 2 ^ 62 /\ Z.abs (c_startTime c) < 2 ^ 61.
(** A chunk that has not ended yet is not too far ahead (29 hours at 44100 Hz). *)
Definition near (sr now : Z) (c : chunk) : Prop :=
  now <= chunk_end sr c -> Z.abs (now - c_startTime c) * sr < 2 ^ 62.

(** The sample to show: by the earliest chunk (by sample index) that has not ended, 0 if
    all known chunks have ended. *)
Definition right_sample (sr now : Z) (cs : list chunk) (s : Z) : Prop :=
  (s = 0 /\ forall c, In c cs -> chunk_end sr c < now)
  \/ exists c, In c cs /\ now <= chunk_end sr c /\ s = position sr now c
       /\ forall c', In c' cs -> now <= chunk_end sr c' -> c_startIndex c <= c_startIndex c'.

(** * Song *)
(** Shown while no announced song has begun: the name None, no lyrics, no tags. *)
Definition nothing_playing : song :=
  {| filename := T "None"; startIndex := 0; length_ := 0; lyrics := []; metadata := ([], [], []) |}.
Definition right_song (sample : Z) (sg : list song) (s : song) : Prop :=
  (In s sg /\ startIndex s < sample /\ forall s', In s' sg -> startIndex s' < sample -> startIndex s' <= startIndex s)
  \/ (s = nothing_playing /\ forall s', In s' sg -> sample <= startIndex s').

(** * Pauses *)
Definition sorted_toggles : list toggle -> Prop := StronglySorted (fun a b => t_index a <= t_index b).
(** Is sample [x] played according to the ordered announcements [l]?  The last announcement
    at an index not above [x] decides; before the first one the stream plays. *)
Definition plays_at (l : list toggle) (x : Z) : bool :=
  fold_left (fun st p => if t_index p <=? x then t_playing p else st) l true.
(** Number of samples in [a, b) that are paused *)
Definition paused_samples (l : list toggle) (a b : Z) : Z :=
  zlen (filter (fun i => negb (plays_at l (a + Z.of_nat i))) (seq 0 (Z.to_nat (b - a)))).

(** * The display as a whole: what [i] must be at time [now] when the chunk, song and other
    messages received are [mc], [ms] and [mp]. *)
Definition right_display (sr now : Z) (mc ms mp : list message) (i : info) : Prop :=
  exists order,
    Permutation (received_toggles mp) order /\ sorted_toggles order
    /\ right_sample sr now (received_chunks mc) (i_sample i)
    /\ right_song (i_sample i) (received_songs ms) (i_song i)
    /\ i = make_info sr now (i_sample i) (i_song i)
             (paused_samples order (startIndex (i_song i)) (i_sample i))
             (plays_at order (i_sample i - 1))
             (received_volume mp).

(** * A continuous chunk schedule: each chunk starts when and at the sample where its
    predecessor ends, or at a later sample (see C24 for the schedule the server follows). *)
Fixpoint continuous (sr : Z) (l : list chunk) : Prop :=
  match l with
  | c :: ((c' :: _) as r) =>
      c_startTime c' = chunk_end sr c /\ c_startIndex c + c_size c <= c_startIndex c' /\ continuous sr r
  | _ => True
  end.

(** * Lyrics *)
Definition line_due (t : Z) (l : lyrics_line) : Prop :=
  match l with [] => True | (ts, _) :: _ => ts <= t end.
(** the words of a line due within 100 ms at [t] milliseconds *)
Definition due_words (t : Z) (l : lyrics_line) : bytes :=
  concat (map snd (filter (fun w => fst w <? t + 100) l)).

(** * Clock times *)
Definition is_digit (c : N) : Prop := (48 <= c <= 57)%N.
(** h:mm:ss or m:ss in seconds: base 60 in the fields, base 10 in the digits (58 is the colon) *)
Definition clock_value (t : text) : Z :=
  let '(total, field) :=
    fold_left (fun st c => if (c =? 58)%N then ((fst st + snd st) * 60, 0) else (fst st, snd st * 10 + (Z.of_N c - 48))) t (0, 0)
  in total + field.
