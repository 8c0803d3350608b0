(** C85-C87: the texts on the info client's screen. *)
From Verif Require Import GoBase GoBaseFacts GoUtf8 GoUtf8Facts GoFmt PlaylistModel PcmModel PcmProofs GoFloat GoFloatFacts
  PcmVolumeProps VolumeModel VolumeProps WireModel InfoerModel InfoerMoreProofs DrawModel DrawSpec DrawProofs DrawBarProofs DrawProps.
From Coq Require Import ZifyBool ZifyNat ZifyN.
Local Open Scope Z_scope.

(* ------------------------------------------------------------------ *)
(** ** Rows *)

Lemma title_row history w h i x : 3 <= w -> 1 <= x <= w - 2 ->
  last_write (redraw history w h i) x (h - 4) =
  match last_write (draw_string 1 (h - 4) (song_line_name (i_song i))) x (h - 4) with
  | Some r => Some r
  | None => last_write (draw_string (w - zlen (volume_line (i_volume i)) - 1) (h - 4) (volume_line (i_volume i))) x (h - 4)
  end.
Proof.
  intros Hw Hx. rewrite info_rows by lia. unfold draw_playback_info. cbn zeta. rewrite !last_write_app.
  rewrite (draw_string_row 2) by lia. rewrite box_inside by lia. rewrite draw_progress_row by lia.
  rewrite (draw_string_row 1 (h - 3)) by lia. rewrite (draw_string_row _ (h - 3)) by lia. reflexivity.
Qed.
Lemma artist_row history w h i x : 3 <= w -> 1 <= x <= w - 2 ->
  last_write (redraw history w h i) x (h - 3) =
  match last_write (draw_string 1 (h - 3) (song_line_artist_album (i_song i))) x (h - 3) with
  | Some r => Some r
  | None => last_write (draw_string (w - zlen (time_line i) - 1) (h - 3) (time_line i)) x (h - 3)
  end.
Proof.
  intros Hw Hx. rewrite info_rows by lia. unfold draw_playback_info. cbn zeta. rewrite !last_write_app.
  rewrite (draw_string_row 2) by lia. rewrite box_inside by lia. rewrite draw_progress_row by lia.
  rewrite (draw_string_row 1 (h - 4)) by lia. rewrite (draw_string_row _ (h - 4)) by lia.
  destruct (last_write (draw_string 1 (h - 3) _) x (h - 3)); [reflexivity|].
  destruct (last_write (draw_string _ (h - 3) (time_line i)) x (h - 3)); reflexivity.
Qed.
Lemma lyrics_row history w h i x j line : 3 <= w -> 1 <= x <= w - 2 ->
  nth_error (lyrics_history (Z.to_nat (Z.min history (h - 7))) (lyrics (i_song i)) (i_timeInSong i)) j = Some line ->
  last_write (redraw history w h i) x (h - 7 - Z.of_nat j) =
  last_write (draw_string 1 (h - 7 - Z.of_nat j) line) x (h - 7 - Z.of_nat j).
Proof.
  intros Hw Hx Hj. rewrite lyrics_rows by lia. rewrite <- lyrics_height_spec in Hj.
  pose proof (nth_lt _ _ _ Hj) as Hl. rewrite history_length in Hl.
  unfold draw_lyrics. cbn zeta. replace (0 <? lyrics_height history h) with true by lia. rewrite !last_write_app.
  rewrite (draw_string_row 2) by lia. rewrite box_inside by lia.
  change (last_write (lyric_writes h (lyrics_history (Z.to_nat (lyrics_height history h)) (lyrics (i_song i)) (i_timeInSong i))) x (h - 7 - Z.of_nat j)
    = last_write (draw_string 1 (h - 7 - Z.of_nat j) line) x (h - 7 - Z.of_nat j)).
  apply lyric_writes_line. exact Hj.
Qed.

(* ------------------------------------------------------------------ *)
(** ** C85: the texts are shown *)

(** What the first line of the info box should say: the title, or the name of the file if
    there is none. *)
Definition first_line (s : song) (t : text) : Prop :=
  exists title artist album, metadata s = (title, artist, album) /\
    (title <> [] /\ title = utf8_encode t \/ title = [] /\ filename s = utf8_encode t).
(** The second line: artist and album, as far as known. *)
Definition second_line (s : song) (t : text) : Prop :=
  exists title artist album, metadata s = (title, artist, album) /\
    (artist = [] /\ t = [] \/
     artist <> [] /\ album = [] /\ artist = utf8_encode t \/
     artist <> [] /\ album <> [] /\ artist ++ T " - " ++ album = utf8_encode t).

Lemma first_line_name s t : first_line s t -> song_line_name s = utf8_encode t.
Proof.
  intros (ti & ar & al & E & [[Hn H]|[Hn H]]); unfold song_line_name; rewrite E.
  - destruct ti; [congruence|exact H].
  - subst ti. exact H.
Qed.
Lemma second_line_name s t : second_line s t -> song_line_artist_album s = utf8_encode t.
Proof.
  intros (ti & ar & al & E & H); unfold song_line_artist_album; rewrite E.
  destruct H as [[-> ->]|[(Hn & -> & H)|(Hn & Hm & H)]]; [reflexivity| |].
  - destruct ar; [congruence|]. rewrite app_nil_r. exact H.
  - destruct ar; [congruence|]. destruct al; [congruence|]. exact H.
Qed.

(** Character k of the text is in the column of its first byte ... *)
Theorem C85_first_line_bytes_partial : forall history w h i t, 3 <= w -> 5 <= h -> Forall scalar t -> first_line (i_song i) t ->
  forall k r, nth_error t k = Some r -> 1 + zlen (utf8_encode (firstn k t)) < w - 1 ->
  screen_after history w h i (1 + zlen (utf8_encode (firstn k t))) (h - 4) = Some r.
Proof.
  intros history w h i t Hw Hh Ht Hl k r Hk Hr. fold (column t k) in *. pose proof (column_nonneg t k).
  unfold screen_after. apply cell_eq; [lia|lia|]. rewrite title_row by lia. rewrite (first_line_name _ _ Hl).
  rewrite (draw_string_hit 1 (h - 4) t k r Ht Hk). reflexivity.
Qed.
Print Assumptions C85_first_line_bytes_partial.
Theorem C85_second_line_bytes_partial : forall history w h i t, 3 <= w -> 5 <= h -> Forall scalar t -> second_line (i_song i) t ->
  forall k r, nth_error t k = Some r -> 1 + zlen (utf8_encode (firstn k t)) < w - 1 ->
  screen_after history w h i (1 + zlen (utf8_encode (firstn k t))) (h - 3) = Some r.
Proof.
  intros history w h i t Hw Hh Ht Hl k r Hk Hr. fold (column t k) in *. pose proof (column_nonneg t k).
  unfold screen_after. apply cell_eq; [lia|lia|]. rewrite artist_row by lia. rewrite (second_line_name _ _ Hl).
  rewrite (draw_string_hit 1 (h - 3) t k r Ht Hk). reflexivity.
Qed.
Print Assumptions C85_second_line_bytes_partial.

Lemma shows_of_bytes scr y limit t : ascii t ->
  (forall k r, nth_error t k = Some r -> 1 + zlen (utf8_encode (firstn k t)) < limit -> scr (1 + zlen (utf8_encode (firstn k t))) y = Some r) ->
  shows scr 1 y limit t.
Proof.
  intros Ha H k r Hk Hl. specialize (H k r Hk). fold (column t k) in H. pose proof (nth_lt _ _ _ Hk).
  rewrite (column_ascii t Ha) in H by lia. exact (H Hl).
Qed.

(** ... and so ASCII texts are shown as they are, cut off at the frame. *)
Theorem C85_first_line_partial : forall history w h i t, 3 <= w -> 5 <= h -> ascii t -> first_line (i_song i) t ->
  shows (screen_after history w h i) 1 (h - 4) (w - 1) t.
Proof.
  intros history w h i t Hw Hh Ha Hl. apply shows_of_bytes; [exact Ha|]. intros k r.
  apply C85_first_line_bytes_partial; try assumption. now apply ascii_scalar.
Qed.
Print Assumptions C85_first_line_partial.
Theorem C85_second_line_partial : forall history w h i t, 3 <= w -> 5 <= h -> ascii t -> second_line (i_song i) t ->
  shows (screen_after history w h i) 1 (h - 3) (w - 1) t.
Proof.
  intros history w h i t Hw Hh Ha Hl. apply shows_of_bytes; [exact Ha|]. intros k r.
  apply C85_second_line_bytes_partial; try assumption. now apply ascii_scalar.
Qed.
Print Assumptions C85_second_line_partial.

(** A title with a non-ASCII character is torn apart behind it: the next cell stays blank, and
    the next character is further right. *)
Theorem C85_gap_refuted : forall history w h i pre c d post, 3 <= w -> 5 <= h ->
  ascii pre -> (128 <= c)%N -> d <> 32%N -> Forall scalar (pre ++ c :: d :: post) ->
  first_line (i_song i) (pre ++ c :: d :: post) ->
  1 + zlen pre + 1 < w - 1 - zlen (volume_line (i_volume i)) ->
  ~ shows (screen_after history w h i) 1 (h - 4) (w - 1) (pre ++ c :: d :: post).
Proof.
  intros history w h i pre c d post Hw Hh Ha Hc Hd Hs Hl Hr H.
  set (t := pre ++ c :: d :: post) in *. set (n := S (length pre)).
  assert (En : nth_error t n = Some d).
  { unfold t, n. rewrite nth_error_app2 by lia. replace (S (length pre) - length pre)%nat with 1%nat by lia. reflexivity. }
  pose proof (zlen_nonneg (volume_line (i_volume i))) as Hv. unfold zlen in Hr.
  specialize (H n d En ltac:(unfold n; lia)).
  assert (B : screen_after history w h i (1 + Z.of_nat n) (h - 4) = Some 32%N); [|congruence].
  unfold screen_after. apply cell_blank; [unfold n in *; lia|lia|]. rewrite title_row by (unfold n in *; lia).
  rewrite (first_line_name _ _ Hl).
  assert (Cp : forall k, (k <= length pre)%nat -> column t k = Z.of_nat k).
  { intros k Hk. unfold column, t. rewrite firstn_app. replace (k - length pre)%nat with 0%nat by lia. cbn [firstn]. rewrite app_nil_r.
    apply (column_ascii pre Ha k Hk). }
  assert (Cn : column t n = Z.of_nat (length pre) + rune_width c).
  { unfold column, t, n. rewrite firstn_app, firstn_all2 by lia. replace (S (length pre) - length pre)%nat with 1%nat by lia.
    cbn [firstn]. unfold utf8_encode. rewrite flat_map_app, zlen_app. cbn [flat_map]. rewrite app_nil_r.
    fold (utf8_encode pre). rewrite (ascii_encode pre Ha). reflexivity. }
  pose proof (rune_width_other c Hc) as Wc.
  rewrite (draw_string_miss 1 (h - 4) t); [|exact Hs|].
  - apply last_write_none. intros r Hin. unfold draw_string in Hin. apply in_map_iff in Hin as ([o r'] & E & Ho). cbn [fst snd] in E.
    assert (E' : w - zlen (volume_line (i_volume i)) - 1 + o = 1 + Z.of_nat n) by congruence. clear E. assert (0 <= o).
    { clear - Ho. revert Ho. generalize (length (volume_line (i_volume i))). intros fuel.
      assert (G : forall fuel off b, In (o, r') (range_string fuel off b) -> off <= o).
      { clear. induction fuel as [|f IH]; intros off b; [intros []|]. destruct b as [|x b]; [intros []|]. cbn [range_string].
        destruct (decode_rune (x :: b)) as [r n]. intros [[= <- _]|H]; [lia|]. apply IH in H. lia. }
      apply G. }
    unfold zlen in *. unfold n in *. lia.
  - intros _ k r Hk Ek. pose proof (nth_lt _ _ _ Hk) as Hkl. 
    destruct (Nat.le_gt_cases k (length pre)) as [Hp|Hp].
    + rewrite (Cp k Hp) in Ek. unfold n in Ek. lia.
    + destruct (Nat.eq_dec k n) as [->|Nk]; [unfold n in *; lia|].
      pose proof (column_lt t n k ltac:(unfold n in *; lia)). unfold n in *. lia.
Qed.
Print Assumptions C85_gap_refuted.

(* ------------------------------------------------------------------ *)
(** ** C86: volume and time *)

Lemma uint_text_ascii u : ascii (uint_text u).
Proof. induction u as [|u IH|u IH|u IH|u IH|u IH|u IH|u IH|u IH|u IH|u IH]; cbn; constructor; try reflexivity; exact IH. Qed.
Lemma itoa_ascii z : ascii (itoa z).
Proof. unfold itoa. destruct (z <? 0); [constructor; [reflexivity|]|]; apply uint_text_ascii. Qed.
Lemma ascii_app a b : ascii a -> ascii b -> ascii (a ++ b).
Proof. intros. apply Forall_app. split; assumption. Qed.
Lemma ascii_repeat c n : (c < 128)%N -> ascii (repeat c n).
Proof. intros H. induction n; cbn; constructor; assumption. Qed.
Lemma itoa0_ascii w z : ascii (itoa0 w z).
Proof. apply ascii_app; [now apply ascii_repeat|apply itoa_ascii]. Qed.
Lemma fmt_f_ascii w p x : ascii (fmt_f w p x).
Proof.
  unfold fmt_f. destruct (is_nan x); [apply ascii_app; [now apply ascii_repeat|repeat constructor]|].
  destruct (is_inf x); [apply ascii_app; [now apply ascii_repeat|destruct (f_sign x); repeat constructor]|].
  cbn zeta. apply ascii_app; [destruct (f_sign x); repeat constructor|]. apply ascii_app; [now apply ascii_repeat|].
  apply ascii_app; [apply itoa_ascii|]. apply ascii_app; [repeat constructor|apply itoa0_ascii].
Qed.
Lemma volume_ascii v : ascii (volume_line v).
Proof. apply ascii_app; [repeat constructor|]. apply ascii_app; [apply fmt_f_ascii|repeat constructor]. Qed.
Lemma decimal_ascii fuel : forall z, ascii (decimal fuel z).
Proof.
  induction fuel as [|fuel IH]; intros z; cbn [decimal]; [constructor|]. destruct (Z.ltb_spec z 10).
  - constructor; [lia|constructor].
  - apply ascii_app; [apply IH|]. constructor; [|constructor]. pose proof (Z.mod_pos_bound z 10 eq_refl). lia.
Qed.
Lemma fmt_d_ascii z : ascii (fmt_d z).
Proof. unfold fmt_d. destruct (z <? 0); [apply ascii_app; [repeat constructor|]|]; apply decimal_ascii. Qed.
Lemma fmt_02d_ascii z : ascii (fmt_02d z).
Proof. unfold fmt_02d. destruct ((0 <=? z) && (z <? 10)); [apply ascii_app; [repeat constructor|]|]; apply fmt_d_ascii. Qed.
Lemma duration_ascii d : ascii (fmt_duration d).
Proof.
  unfold fmt_duration. destruct (d <? hour); repeat apply ascii_app; try apply fmt_d_ascii; try apply fmt_02d_ascii; repeat constructor.
Qed.
Lemma time_ascii i : ascii (time_line i).
Proof. repeat apply ascii_app; try apply duration_ascii. repeat constructor. Qed.

Lemma column_total t k r : nth_error t k = Some r -> column t k < zlen (utf8_encode t).
Proof.
  intros H. pose proof (nth_lt _ _ _ H) as L. pose proof (column_lt t k (length t) ltac:(lia)) as C.
  unfold column in C at 2. rewrite firstn_all in C. exact C.
Qed.

(** The volume is shown at the right end of the first line if the title leaves it room ... *)
Theorem C86_volume_partial : forall history w h i t, 3 <= w -> 5 <= h -> Forall scalar t -> first_line (i_song i) t ->
  1 + zlen (utf8_encode t) + zlen (volume_line (i_volume i)) < w ->
  shows (screen_after history w h i) (w - 1 - zlen (volume_line (i_volume i))) (h - 4) (w - 1) (volume_line (i_volume i)).
Proof.
  intros history w h i t Hw Hh Ht Hl Hr k r Hk Hx. pose proof (zlen_nonneg (utf8_encode t)).
  unfold screen_after. apply cell_eq; [lia|lia|]. rewrite title_row by lia. rewrite (first_line_name _ _ Hl).
  rewrite draw_string_miss; [|exact Ht|].
  - replace (w - zlen (volume_line (i_volume i)) - 1) with (w - 1 - zlen (volume_line (i_volume i))) by lia.
    apply ascii_hit; [apply volume_ascii|exact Hk].
  - intros _ j r' Hj. pose proof (column_total t j r' Hj). lia.
Qed.
Print Assumptions C86_volume_partial.
Theorem C86_time_partial : forall history w h i t, 3 <= w -> 5 <= h -> Forall scalar t -> second_line (i_song i) t ->
  let time := fmt_duration (i_timeInSong i) ++ T "/" ++ fmt_duration (i_songLength i) in
  1 + zlen (utf8_encode t) + zlen time < w ->
  shows (screen_after history w h i) (w - 1 - zlen time) (h - 3) (w - 1) time.
Proof.
  intros history w h i t Hw Hh Ht Hl. change (fmt_duration (i_timeInSong i) ++ T "/" ++ fmt_duration (i_songLength i)) with (time_line i).
  cbn zeta. intros Hr k r Hk Hx. pose proof (zlen_nonneg (utf8_encode t)).
  unfold screen_after. apply cell_eq; [lia|lia|]. rewrite artist_row by lia. rewrite (second_line_name _ _ Hl).
  rewrite draw_string_miss; [|exact Ht|].
  - replace (w - zlen (time_line i) - 1) with (w - 1 - zlen (time_line i)) by lia.
    apply ascii_hit; [apply time_ascii|exact Hk].
  - intros _ j r' Hj. pose proof (column_total t j r' Hj). lia.
Qed.
Print Assumptions C86_time_partial.

(** ... but any longer title is written over it (unless it happens to have the same letters
    in the same place). *)
Theorem C86_volume_refuted : forall history w h i t k r, 3 <= w -> 5 <= h -> ascii t -> first_line (i_song i) t ->
  nth_error t k = Some r -> 1 + Z.of_nat k = w - 1 - zlen (volume_line (i_volume i)) -> r <> 86%N ->
  ~ shows (screen_after history w h i) (w - 1 - zlen (volume_line (i_volume i))) (h - 4) (w - 1) (volume_line (i_volume i)).
Proof.
  intros history w h i t k r Hw Hh Ha Hl Hk Ek Hr H.
  pose proof (C85_first_line_partial history w h i t Hw Hh Ha Hl k r Hk) as S.
  assert (V : nth_error (volume_line (i_volume i)) 0 = Some 86%N) by reflexivity.
  assert (P : 0 < zlen (volume_line (i_volume i))) by (unfold zlen; pose proof (nth_lt _ _ _ V); lia).
  specialize (S ltac:(lia)). specialize (H 0%nat 86%N V ltac:(lia)). rewrite Z.add_0_r, <- Ek in H. congruence.
Qed.
Print Assumptions C86_volume_refuted.

(** The same happens to the time, under the artist and the album. *)
Theorem C86_time_refuted : forall history w h i t k c r, 3 <= w -> 5 <= h -> ascii t -> second_line (i_song i) t ->
  let time := fmt_duration (i_timeInSong i) ++ T "/" ++ fmt_duration (i_songLength i) in
  nth_error t k = Some r -> 1 + Z.of_nat k = w - 1 - zlen time -> nth_error time 0 = Some c -> r <> c ->
  ~ shows (screen_after history w h i) (w - 1 - zlen time) (h - 3) (w - 1) time.
Proof.
  intros history w h i t k c r Hw Hh Ha Hl time Hk Ek V Hr H.
  pose proof (C85_second_line_partial history w h i t Hw Hh Ha Hl k r Hk) as S.
  assert (P : 0 < zlen time) by (unfold zlen; pose proof (nth_lt _ _ _ V); lia).
  specialize (S ltac:(lia)). specialize (H 0%nat c V ltac:(lia)). rewrite Z.add_0_r, <- Ek in H. congruence.
Qed.
Print Assumptions C86_time_refuted.

(** The volume typed at the control shell, on the screen of an info client that has it. *)
Theorem C86_typed_volume_partial : forall other typed_text neg n k history w h i t, 3 <= w -> 5 <= h ->
  Forall scalar t -> first_line (i_song i) t ->
  typed typed_text neg n k -> k <= 4 -> n * 10 ^ (4 - k) < 10 ^ 14 -> parse_float_go other typed_text = Some (i_volume i) ->
  let line := T "Volume: " ++ minus neg ++ pad0 (if neg then 5 else 6) (with_decimals 2 (n * 10 ^ (4 - k))) ++ T "%" in
  1 + zlen (utf8_encode t) + zlen line < w ->
  shows (screen_after history w h i) (w - 1 - zlen line) (h - 4) (w - 1) line.
Proof.
  intros other tt neg n k history w h i t Hw Hh Ht Hl Hy Hk Hn Hp.
  destruct (C82_volume_displayed other tt neg n k Hy Hk Hn) as (f & E & D). rewrite E in Hp. injection Hp as ->.
  rewrite <- D. cbn zeta. now apply C86_volume_partial.
Qed.
Print Assumptions C86_typed_volume_partial.

(* ------------------------------------------------------------------ *)
(** ** C87: the lyrics *)

(** The box has as many lines as asked for, or as fit above the info box; line j of the
    history (0: the current one) is in the j-th row from below and starts in the first column
    inside the frame. *)
Theorem C87_lyrics_lines : forall history w h i j t, 3 <= w -> Z.of_nat j < Z.min history (h - 7) -> Forall scalar t ->
  nth_error (lyrics_history (Z.to_nat (Z.min history (h - 7))) (lyrics (i_song i)) (i_timeInSong i)) j = Some (utf8_encode t) ->
  (forall k r, nth_error t k = Some r -> 1 + zlen (utf8_encode (firstn k t)) < w - 1 ->
     screen_after history w h i (1 + zlen (utf8_encode (firstn k t))) (h - 7 - Z.of_nat j) = Some r) /\
  (forall x, zlen (utf8_encode t) < x < w - 1 -> screen_after history w h i x (h - 7 - Z.of_nat j) = Some 32%N) /\
  (ascii t -> shows (screen_after history w h i) 1 (h - 7 - Z.of_nat j) (w - 1) t).
Proof.
  intros history w h i j t Hw Hj Ht Hn.
  assert (A : forall k r, nth_error t k = Some r -> 1 + zlen (utf8_encode (firstn k t)) < w - 1 ->
     screen_after history w h i (1 + zlen (utf8_encode (firstn k t))) (h - 7 - Z.of_nat j) = Some r).
  { intros k r Hk Hr. fold (column t k) in *. pose proof (column_nonneg t k).
    unfold screen_after. apply cell_eq; [lia|lia|]. rewrite (lyrics_row history w h i (1 + column t k) j _ Hw ltac:(lia) Hn).
    apply draw_string_hit; assumption. }
  split; [exact A|]. split; [|intros Ha; apply shows_of_bytes; assumption].
  intros x Hx. pose proof (zlen_nonneg (utf8_encode t)). unfold screen_after. apply cell_blank; [lia|lia|]. rewrite (lyrics_row history w h i x j _ Hw ltac:(lia) Hn).
  apply draw_string_miss; [exact Ht|]. intros _ k r Hk. pose proof (column_total t k r Hk). lia.
Qed.
Print Assumptions C87_lyrics_lines.

(** no lyrics box, and nothing else, above the info box if there is no room or none is asked
    for; and nothing above the lyrics box *)
Theorem C87_nothing_above : forall history w h i x y, 3 <= w -> 0 <= x < w -> 0 <= y <= h - 6 ->
  (0 < Z.min history (h - 7) -> y < h - 7 - Z.min history (h - 7)) ->
  screen_after history w h i x y = Some 32%N.
Proof.
  intros history w h i x y Hw Hx Hy H. unfold screen_after. apply cell_blank; [lia|lia|]. rewrite lyrics_rows by lia.
  unfold draw_lyrics. cbn zeta. rewrite lyrics_height_spec. destruct (Z.ltb_spec 0 (Z.min history (h - 7))) as [P|P]; [|reflexivity].
  specialize (H P). rewrite !last_write_app, draw_string_row by lia. rewrite box_rows by lia.
  apply lyric_writes_row. intros k Hk. rewrite history_length in Hk. lia.
Qed.
Print Assumptions C87_nothing_above.

(* ------------------------------------------------------------------ *)
(** ** Concrete cases *)

Definition demo_song (title : text) : song :=
  {| filename := T "f.mp3"; startIndex := 1; length_ := 100; lyrics := [[(0, T "la")]; [(900000, T "lo")]];
     metadata := (utf8_encode title, T "me", T "it") |}.
Definition demo (title : text) (a : Z) : info :=
  {| i_song := demo_song title; i_sample := 1; i_pauses := 0; i_now := 0; i_playing := true; i_volume := 0x3FE0000000000000%N;
     i_songLength := 61000000000; i_timeInSong := 2000000000; i_progress := (a, 100) |}.
(** one row of [screen_after] (the redraw is computed once) *)
Definition row (history w h : Z) (i : info) (y : Z) : list (option N) :=
  let ws := redraw history w h i in map (fun k => cell w h ws (Z.of_nat k) y) (seq 0 (Z.to_nat w)).
Lemma row_spec history w h i y k : (k < Z.to_nat w)%nat -> nth_error (row history w h i y) k = Some (screen_after history w h i (Z.of_nat k) y).
Proof.
  intros Hk. unfold row. cbn zeta. rewrite nth_error_map, (nth_error_nth' _ 0%nat) by (rewrite seq_length; exact Hk).
  rewrite seq_nth by exact Hk. reflexivity.
Qed.
Definition some (t : text) : list (option N) := map Some t.

Example C83_nonvacuous :
  map fill (row 3 13 12 (demo (T "x") 53) 10)
  = [None; Some 2; Some 2; Some 2; Some 2; Some 2; Some 2; Some 0; Some 0; Some 0; Some 0; Some 0; None].
Proof. vm_compute. reflexivity. Qed.
Example C83_half :
  map fill (row 3 13 12 (demo (T "x") 50) 10)
  = [None; Some 2; Some 2; Some 2; Some 2; Some 2; Some 1; Some 0; Some 0; Some 0; Some 0; Some 0; None].
Proof. vm_compute. reflexivity. Qed.
Example C84_nonvacuous :
  row 3 13 12 (demo (T "x") 50) 7
  = some [0x2554; 0x2550; 80; 108; 97; 121; 105; 110; 103; 0x2550; 0x2550; 0x2550; 0x2557]%N /\
  row 3 13 12 (demo (T "x") 50) 2
  = some [0x2554; 0x2550; 76; 121; 114; 105; 99; 115; 0x2550; 0x2550; 0x2550; 0x2550; 0x2557]%N.
Proof. vm_compute. split; reflexivity. Qed.
Example C85_nonvacuous :
  row 3 30 12 (demo (T "x y") 50) 8 = some ([0x2551]%N ++ T "x y          Volume: 050.00%" ++ [0x2551]%N) /\
  row 3 30 12 (demo (T "x y") 50) 9 = some ([0x2551]%N ++ T "me - it            0:02/1:01" ++ [0x2551]%N) /\
  row 3 30 12 (demo [233; 116; 233]%N 50) 8
  = some ([0x2551; 233; 32; 116; 233]%N ++ T "         Volume: 050.00%" ++ [0x2551]%N) /\
  ascii (T "x y") /\ first_line (demo_song (T "x y")) (T "x y") /\ second_line (demo_song (T "x y")) (T "me - it").
Proof.
  split; [vm_compute; reflexivity|]. split; [vm_compute; reflexivity|]. split; [vm_compute; reflexivity|].
  split; [repeat constructor|]. split.
  - eexists; eexists; eexists; split; [reflexivity|]. left. split; [discriminate|reflexivity].
  - eexists; eexists; eexists; split; [reflexivity|]. right. right. split; [discriminate|]. split; [discriminate|reflexivity].
Qed.
Example C86_time_covered :
  let i := {| i_song := {| filename := T "f.mp3"; startIndex := 1; length_ := 100; lyrics := [];
                           metadata := (T "x", T "A rather long artist", T "And a long album") |};
              i_sample := 1; i_pauses := 0; i_now := 0; i_playing := true; i_volume := 0x3FE0000000000000%N;
              i_songLength := 61000000000; i_timeInSong := 2000000000; i_progress := (5, 100) |} in
  row 3 30 12 i 9 = some ([0x2551]%N ++ T "A rather long artist - And a" ++ [0x2551]%N).
Proof. vm_compute. reflexivity. Qed.
Example C86_nonvacuous :
  row 3 30 12 (demo (T "A very long title") 50) 8
  = some ([0x2551]%N ++ T "A very long titleme: 050.00%" ++ [0x2551]%N).
Proof. vm_compute. reflexivity. Qed.
Example C87_nonvacuous :
  row 3 13 12 (demo (T "x") 50) 5 = some ([0x2551]%N ++ T "la         " ++ [0x2551]%N) /\
  row 3 13 12 (demo (T "x") 50) 1 = some (T "             ").
Proof. vm_compute. split; reflexivity. Qed.
