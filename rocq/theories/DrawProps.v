(** C83-C87: what the info client shows on the terminal. *)
From Verif Require Import GoBase GoBaseFacts GoUtf8 GoUtf8Facts GoFmt PlaylistModel PcmModel PcmProofs GoFloat GoFloatFacts
  PcmVolumeProps VolumeModel VolumeProps WireModel InfoerModel InfoerMoreProofs DrawModel DrawSpec DrawProofs DrawBarProofs.
From Coq Require Import ZifyBool ZifyNat ZifyN.
Local Open Scope Z_scope.

(* ------------------------------------------------------------------ *)
(** ** Which part draws which row *)

Lemma lyrics_height_spec history h : lyrics_height history h = Z.min history (h - 7).
Proof. unfold lyrics_height. destruct (Z.ltb_spec h (history + 7)); lia. Qed.

Lemma in_lines (lines : list bytes) s i :
  In (i, s) (combine (seq 0 (length lines)) lines) -> (i < length lines)%nat /\ nth_error lines i = Some s.
Proof.
  intros H. assert (G : forall n, In (i, s) (combine (seq n (length lines)) lines) -> (n <= i)%nat /\ nth_error lines (i - n) = Some s).
  { clear. induction lines as [|l lines IH]; intros n; cbn [length seq combine In]; [intros []|].
    intros [[= <- <-]|H]; [split; [lia|]; rewrite Nat.sub_diag; reflexivity|].
    destruct (IH (S n) H) as [A B]. split; [lia|]. replace (i - n)%nat with (S (i - S n)) by lia. exact B. }
  destruct (G 0%nat H) as [_ B]. rewrite Nat.sub_0_r in B. split; [eapply nth_lt; eauto|exact B].
Qed.

Definition lyric_writes (h : Z) (lines : list bytes) : writes :=
  concat (map (fun p => draw_string 1 (h - 7 - Z.of_nat (fst p)) (snd p)) (combine (seq 0 (length lines)) lines)).

Lemma lyric_writes_row h lines x y : (forall i, (i < length lines)%nat -> y <> h - 7 - Z.of_nat i) ->
  last_write (lyric_writes h lines) x y = None.
Proof.
  intros H. apply last_write_none. intros r Hr. unfold lyric_writes in Hr. apply in_concat in Hr as (ws & Hw & Hr).
  apply in_map_iff in Hw as ([i s] & <- & Hi). cbn [fst snd] in Hr.
  apply in_lines in Hi as [Hi _]. unfold draw_string in Hr. apply in_map_iff in Hr as (p & E & _).
  injection E as _ E _. apply (H i Hi). lia.
Qed.

Lemma lyric_writes_line h lines : forall i s x, nth_error lines i = Some s ->
  last_write (lyric_writes h lines) x (h - 7 - Z.of_nat i) = last_write (draw_string 1 (h - 7 - Z.of_nat i) s) x (h - 7 - Z.of_nat i).
Proof.
  intros i s x. unfold lyric_writes.
  assert (G : forall n, nth_error lines i = Some s ->
    last_write (concat (map (fun p => draw_string 1 (h - 7 - Z.of_nat (fst p)) (snd p)) (combine (seq n (length lines)) lines))) x (h - 7 - Z.of_nat (n + i))
    = last_write (draw_string 1 (h - 7 - Z.of_nat (n + i)) s) x (h - 7 - Z.of_nat (n + i))).
  { clear. revert i. induction lines as [|l lines IH]; intros i n H; [destruct i; discriminate|].
    cbn [length seq combine map concat fst snd]. rewrite last_write_app. destruct i as [|i]; cbn in H.
    - injection H as ->. rewrite Nat.add_0_r. set (rest := concat _).
      assert (N : last_write rest x (h - 7 - Z.of_nat n) = None).
      { apply last_write_none. intros r Hr. unfold rest in Hr. apply in_concat in Hr as (ws & Hw & Hr).
        apply in_map_iff in Hw as ([j s'] & <- & Hj). cbn [fst snd] in Hr. apply in_combine_l, in_seq in Hj.
        unfold draw_string in Hr. apply in_map_iff in Hr as (p & E & _). injection E as _ E _. lia. }
      rewrite N. reflexivity.
    - replace (n + S i)%nat with (S n + i)%nat by lia. rewrite (IH i (S n) H).
      rewrite (draw_string_row 1 (h - 7 - Z.of_nat n) l) by lia.
      destruct (last_write _ x _); reflexivity. }
  intros H. apply (G 0%nat H).
Qed.

(** rows of the info box do not depend on the lyrics *)
Lemma info_rows history w h i x y : 2 <= w -> h - 5 <= y ->
  last_write (redraw history w h i) x y = last_write (draw_playback_info w h i) x y.
Proof.
  intros Hw Hy. unfold redraw. rewrite last_write_app.
  assert (N : last_write (draw_lyrics history w h i) x y = None); [|now rewrite N].
  unfold draw_lyrics. cbn zeta. destruct (Z.ltb_spec 0 (lyrics_height history h)) as [H|H]; [|reflexivity].
  rewrite !last_write_app, draw_string_row by lia. rewrite box_rows by lia.
  apply lyric_writes_row. intros j Hj. lia.
Qed.

Lemma lyrics_rows history w h i x y : 2 <= w -> y <= h - 6 ->
  last_write (redraw history w h i) x y = last_write (draw_lyrics history w h i) x y.
Proof.
  intros Hw Hy. unfold redraw. rewrite last_write_app.
  assert (N : last_write (draw_playback_info w h i) x y = None); [|rewrite N; destruct (last_write (draw_lyrics history w h i) x y); reflexivity].
  unfold draw_playback_info. cbn zeta. rewrite !last_write_app, !draw_string_row by lia.
  rewrite box_rows by lia. rewrite draw_progress_row by lia. reflexivity.
Qed.

Lemma cell_eq w h ws x y r : 0 <= x < w -> 0 <= y < h -> last_write ws x y = Some r -> cell w h ws x y = Some r.
Proof. intros Hx Hy E. unfold cell. rewrite E. replace ((0 <=? x) && (x <? w) && (0 <=? y) && (y <? h)) with true by lia. reflexivity. Qed.
Lemma cell_blank w h ws x y : 0 <= x < w -> 0 <= y < h -> last_write ws x y = None -> cell w h ws x y = Some 32%N.
Proof. intros Hx Hy E. unfold cell. rewrite E. replace ((0 <=? x) && (x <? w) && (0 <=? y) && (y <? h)) with true by lia. reflexivity. Qed.

Lemma ascii_scalar t : ascii t -> Forall scalar t.
Proof. apply Forall_impl. intros c H. unfold scalar. lia. Qed.
Lemma ascii_encode t : ascii t -> utf8_encode t = t.
Proof.
  induction 1 as [|c t Hc _ IH]; [reflexivity|]. unfold utf8_encode in *. cbn [flat_map]. rewrite IH.
  unfold utf8_encode_rune. replace (c <? 0x80)%N with true by lia. reflexivity.
Qed.
Lemma ascii_hit x y t k r : ascii t -> nth_error t k = Some r -> last_write (draw_string x y t) (x + Z.of_nat k) y = Some r.
Proof.
  intros Ha Hk. pose proof (draw_string_hit x y t k r (ascii_scalar t Ha) Hk) as H.
  pose proof (nth_lt _ _ _ Hk). rewrite (ascii_encode t Ha), (column_ascii t Ha) in H by lia. exact H.
Qed.
Lemma ascii_miss x y t x' : ascii t -> x' < x \/ x + zlen t <= x' -> last_write (draw_string x y t) x' y = None.
Proof.
  intros Ha Hx. rewrite <- (ascii_encode t Ha) at 1. apply draw_string_miss; [apply ascii_scalar, Ha|]. intros _ k r Hk.
  pose proof (nth_lt _ _ _ Hk). rewrite column_ascii by (try exact Ha; lia). unfold zlen in *. lia.
Qed.

(** a labelled box that was drawn last in its rows is framed *)
Lemma framed_box (scr : Z -> Z -> option N) x y w h label rest : 2 <= h -> ascii label -> 2 + zlen label < w ->
  (forall i j, x <= i < x + w -> y <= j < y + h -> forall r,
     match last_write (draw_string (x + 2) y label) i j with
     | Some r' => Some r'
     | None => match last_write (draw_box x y w h) i j with Some r' => Some r' | None => rest i j end
     end = Some r -> scr i j = Some r) ->
  framed scr x y w h label.
Proof.
  intros Hh Ha Hw H. pose proof (zlen_nonneg label) as Hl.
  assert (NoLabel : forall i j, x <= i < x + w -> y <= j < y + h -> (j = y -> i < x + 2 \/ x + 2 + zlen label <= i) ->
    forall r, last_write (draw_box x y w h) i j = Some r -> scr i j = Some r).
  { intros i j Hi Hj Hn r E. apply H; try assumption.
    assert (N : last_write (draw_string (x + 2) y label) i j = None).
    { destruct (Z.eq_dec j y) as [->|Nj]; [apply ascii_miss; [exact Ha|apply Hn; reflexivity]|apply draw_string_row; exact Nj]. }
    rewrite N, E. reflexivity. }
  assert (B : forall i j r, x <= i < x + w -> y <= j < y + h -> (j = y -> i < x + 2 \/ x + 2 + zlen label <= i) ->
    (if (i =? x) && (j =? y) then Some 0x2554%N
    else if (i =? x + w - 1) && (j =? y) then Some 0x2557%N
    else if (i =? x) && (j =? y + h - 1) then Some 0x255A%N
    else if (i =? x + w - 1) && (j =? y + h - 1) then Some 0x255D%N
    else if ((i =? x) || (i =? x + w - 1)) && (y <=? j) && (j <? y + h) then Some 0x2551%N
    else if ((j =? y) || (j =? y + h - 1)) && (x <=? i) && (i <? x + w) then Some 0x2550%N
    else None) = Some r -> scr i j = Some r).
  { intros i j r Hi Hj Hn E. apply NoLabel; try assumption. rewrite box_cell by lia. exact E. }
  clear NoLabel.
  repeat split.
  - apply B; try lia. replace ((x =? x) && (y =? y)) with true by lia. reflexivity.
  - apply B; try lia. replace ((x + w - 1 =? x) && (y =? y)) with false by lia. replace ((x + w - 1 =? x + w - 1) && (y =? y)) with true by lia. reflexivity.
  - apply B; try lia. replace ((x =? x) && (y + h - 1 =? y)) with false by lia. replace ((x =? x + w - 1) && (y + h - 1 =? y)) with false by lia.
    replace ((x =? x) && (y + h - 1 =? y + h - 1)) with true by lia. reflexivity.
  - apply B; try lia. replace ((x + w - 1 =? x) && (y + h - 1 =? y)) with false by lia. replace ((x + w - 1 =? x + w - 1) && (y + h - 1 =? y)) with false by lia.
    replace ((x + w - 1 =? x) && (y + h - 1 =? y + h - 1)) with false by lia.
    replace ((x + w - 1 =? x + w - 1) && (y + h - 1 =? y + h - 1)) with true by lia. reflexivity.
  - apply B; try lia. replace (j =? y) with false by lia. replace (j =? y + h - 1) with false by lia. rewrite !andb_false_r.
    replace (((x =? x) || (x =? x + w - 1)) && (y <=? j) && (j <? y + h)) with true by lia. reflexivity.
  - apply B; try lia. replace (j =? y) with false by lia. replace (j =? y + h - 1) with false by lia. rewrite !andb_false_r.
    replace (((x + w - 1 =? x) || (x + w - 1 =? x + w - 1)) && (y <=? j) && (j <? y + h)) with true by lia. reflexivity.
  - intros i Hi. apply B; try lia. replace (i =? x) with false by lia. replace (i =? x + w - 1) with false by lia. cbn [orb andb].
    replace (((y + h - 1 =? y) || (y + h - 1 =? y + h - 1)) && (x <=? i) && (i <? x + w)) with true by lia. reflexivity.
  - intros k r Hk. pose proof (nth_lt _ _ _ Hk). apply H; [unfold zlen in *; lia|lia|]. rewrite (ascii_hit _ _ _ _ _ Ha Hk). reflexivity.
  - intros i Hi Hn. apply B; try lia. replace (i =? x) with false by lia. replace (i =? x + w - 1) with false by lia. cbn [orb andb].
    replace (((y =? y) || (y =? y + h - 1)) && (x <=? i) && (i <? x + w)) with true by lia. reflexivity.
Qed.

Lemma playing_ascii b : ascii (playing_string b) /\ zlen (playing_string b) <= 7.
Proof. destruct b; (split; [repeat constructor|discriminate]). Qed.

(* ------------------------------------------------------------------ *)
(** ** C84: the frames *)

Theorem C84_info_frame : forall history w h i, 10 <= w -> 5 <= h ->
  framed (screen_after history w h i) 0 (h - 5) w 5 (if i_playing i then T "Playing" else T "Paused").
Proof.
  intros history w h i Hw Hh. change (if i_playing i then T "Playing" else T "Paused") with (playing_string (i_playing i)).
  destruct (playing_ascii (i_playing i)) as [Ha Hl].
  eapply framed_box with (rest := fun x y => last_write (draw_string (w - zlen (volume_line (i_volume i)) - 1) (h - 4) (volume_line (i_volume i))
    ++ draw_string 1 (h - 4) (song_line_name (i_song i)) ++ draw_string (w - zlen (time_line i) - 1) (h - 3) (time_line i)
    ++ draw_string 1 (h - 3) (song_line_artist_album (i_song i)) ++ draw_progress 1 (h - 2) (w - 2) (progress_float (i_progress i))) x y); [lia|exact Ha|lia|].
  intros x y Hx Hy r E. unfold screen_after. apply cell_eq; [lia|lia|]. rewrite info_rows by lia. rewrite <- E.
  unfold draw_playback_info. cbn zeta. rewrite !last_write_app. change (0 + 2) with 2.
  destruct (last_write (draw_string 2 (h - 5) (playing_string (i_playing i))) x y); [reflexivity|].
  destruct (last_write (draw_box 0 (h - 5) w 5) x y); reflexivity.
Qed.
Print Assumptions C84_info_frame.

Theorem C84_lyrics_frame : forall history w h i, 10 <= w -> 0 < Z.min history (h - 7) ->
  framed (screen_after history w h i) 0 (h - 7 - Z.min history (h - 7)) w (Z.min history (h - 7) + 2) (T "Lyrics").
Proof.
  intros history w h i Hw Hm. rewrite <- lyrics_height_spec in *.
  set (lines := lyrics_history (Z.to_nat (lyrics_height history h)) (lyrics (i_song i)) (i_timeInSong i)).
  assert (Hle : lyrics_height history h <= h - 7) by (rewrite lyrics_height_spec; lia).
  eapply framed_box with (rest := fun x y => last_write (lyric_writes h lines) x y); [lia|repeat constructor|cbn; lia|].
  intros x y Hx Hy r E. unfold screen_after. apply cell_eq; [lia|lia|]. rewrite lyrics_rows by lia. rewrite <- E.
  unfold draw_lyrics. cbn zeta. replace (0 <? lyrics_height history h) with true by lia. fold lines. fold (lyric_writes h lines).
  rewrite !last_write_app. change (0 + 2) with 2.
  destruct (last_write (draw_string 2 _ _) x y); [reflexivity|]. destruct (last_write (draw_box 0 _ w _) x y); reflexivity.
Qed.
Print Assumptions C84_lyrics_frame.

(* ------------------------------------------------------------------ *)
(** ** C83: the progress bar *)

Lemma box_inside x y w h x' y' : 2 <= w -> 2 <= h -> x < x' < x + w - 1 -> y < y' < y + h - 1 -> last_write (draw_box x y w h) x' y' = None.
Proof.
  intros Hw Hh Hx Hy. rewrite box_cell by assumption. replace (y' =? y) with false by lia. replace (y' =? y + h - 1) with false by lia.
  replace (x' =? x) with false by lia. replace (x' =? x + w - 1) with false by lia. reflexivity.
Qed.

Lemma bar_cell history w h i a b k : 3 <= w < 2 ^ 31 -> 5 <= h -> i_progress i = (a, b) ->
  0 <= a < 2 ^ 53 -> 0 < b < 2 ^ 53 -> a <= 2 ^ 31 * b -> 0 <= k < w - 2 ->
  screen_after history w h i (1 + k) (h - 2) = Some (bar_rune (w - 2) (bar_value (w - 2) a b) k).
Proof.
  intros Hw Hh Hp Ha Hb Hab Hk. unfold screen_after. apply cell_eq; [lia|lia|]. rewrite info_rows by lia.
  unfold draw_playback_info. cbn zeta. rewrite !last_write_app. rewrite (draw_string_row 2) by lia. rewrite box_inside by lia.
  rewrite draw_progress_hit by lia. rewrite Hp, head_value by (try assumption; lia). reflexivity.
Qed.

Lemma threshold_bounds :
  3 * f_one - 10 * f_scaled float_03 <= f_one / 2 ^ 20 /\ 0 <= 3 * f_one - 10 * f_scaled float_03 /\
  7 * f_one - 10 * f_scaled float_07 <= f_one / 2 ^ 20 /\ 0 <= 7 * f_one - 10 * f_scaled float_07.
Proof. vm_compute. repeat split; discriminate. Qed.
Lemma one_div : 2 ^ 20 * (f_one / 2 ^ 20) <= f_one.
Proof. apply Z.mul_div_le. reflexivity. Qed.

Definition total (L r : Z) : Z :=
  if L - 1 <=? r / f_one then 2 * L else 2 * (r / f_one) + level (head_rune_of L r).

Lemma total_cell L r k : 0 <= r -> 0 <= k < L -> level (bar_rune L r k) = Z.max 0 (Z.min 2 (total L r - 2 * k)).
Proof.
  intros Hr Hk. unfold bar_rune, total. set (p := r / f_one).
  assert (Hh : 0 <= level (head_rune_of L r) <= 2) by (destruct (head_rune_cases L r) as [->|[->| ->]]; cbn; lia).
  destruct (Z.leb_spec (L - 1) p) as [H|H].
  - destruct (Z.ltb_spec k p); [change (level r_full) with 2; lia|]. assert (p = k) by lia. replace (p =? k) with true by lia.
    assert (E : head_rune_of L r = r_full) by (unfold head_rune_of; fold p; replace (p =? L - 1) with true by lia; reflexivity).
    rewrite E. change (level r_full) with 2. lia.
  - destruct (Z.ltb_spec k p); [change (level r_full) with 2; lia|]. destruct (Z.eqb_spec p k); [lia|]. change (level r_empty) with 0. lia.
Qed.

Lemma level_head o m c t3 t7 d : 0 <= m < o -> 2 ^ 20 * d <= o ->
  3 * o - 10 * t3 <= d -> 0 <= 3 * o - 10 * t3 -> 7 * o - 10 * t7 <= d -> 0 <= 7 * o - 10 * t7 ->
  c = (if m <? t3 then 0 else if m <? t7 then 1 else 2) -> 2 ^ 20 * (10 * Z.abs (2 * m - c * o) - 6 * o) <= 2 * o.
Proof.
  intros Hm Hd A1 A2 A3 A4 Hc. change (2 ^ 20) with 1048576 in *. destruct (Z.ltb_spec m t3); [|destruct (Z.ltb_spec m t7)]; subst c; lia.
Qed.

Lemma total_arith o b L a p m c : 0 < o -> 0 < b -> 2 ^ 20 * Z.abs ((p * o + m) * b - L * a * o) <= b * o ->
  2 ^ 20 * (10 * Z.abs (2 * m - c * o) - 6 * o) <= 2 * o -> 10 * Z.abs (2 * L * a - (2 * p + c) * b) <= 7 * b.
Proof.
  intros Po Pb H1 H2. apply Z.mul_le_mono_pos_r with o; [exact Po|].
  assert (E : Z.abs (2 * L * a - (2 * p + c) * b) * o <= 2 * Z.abs ((p * o + m) * b - L * a * o) + b * Z.abs (2 * m - c * o)).
  { rewrite <- (Z.abs_eq o) at 1 by lia. rewrite <- Z.abs_mul.
    replace ((2 * L * a - (2 * p + c) * b) * o) with (- 2 * ((p * o + m) * b - L * a * o) + b * (2 * m - c * o)) by ring.
    eapply Z.le_trans; [apply Z.abs_triangle|]. rewrite !Z.abs_mul, (Z.abs_eq b) by lia. change (Z.abs (-2)) with 2. lia. }
  assert (H3 : b * (2 ^ 20 * (10 * Z.abs (2 * m - c * o) - 6 * o)) <= b * (2 * o)) by (apply Z.mul_le_mono_nonneg_l; [lia|exact H2]).
  replace (b * (2 ^ 20 * (10 * Z.abs (2 * m - c * o) - 6 * o))) with (2 ^ 20 * (10 * (b * Z.abs (2 * m - c * o)) - 6 * (b * o))) in H3 by ring.
  replace (b * (2 * o)) with (2 * (b * o)) in H3 by ring.
  set (X := Z.abs (2 * L * a - (2 * p + c) * b)) in *. set (Y := Z.abs ((p * o + m) * b - L * a * o)) in *. set (W := b * Z.abs (2 * m - c * o)) in *.
  replace (10 * X * o) with (10 * (X * o)) by ring. replace (7 * b * o) with (7 * (b * o)) by ring.
  assert (Hbo : 0 < b * o) by (apply Z.mul_pos_pos; assumption).
  set (bo := b * o) in *. set (Xo := X * o) in *. clearbody X Y W bo Xo. change (2 ^ 20) with 1048576 in *. lia.
Qed.

Lemma full_arith o b L a r : 0 < o -> 0 < b -> (L - 1) * o <= r -> 2 ^ 20 * Z.abs (r * b - L * a * o) <= b * o ->
  2 ^ 20 * ((L - 1) * b - L * a) <= b.
Proof.
  intros Po Pb H1 H2. apply Z.mul_le_mono_pos_r with o; [exact Po|].
  assert (H3 : (L - 1) * o * b <= r * b) by (apply Z.mul_le_mono_nonneg_r; lia).
  replace (2 ^ 20 * ((L - 1) * b - L * a) * o) with (2 ^ 20 * ((L - 1) * o * b - L * a * o)) by ring.
  apply Z.le_trans with (2 ^ 20 * Z.abs (r * b - L * a * o)); [|exact H2].
  apply Z.mul_le_mono_nonneg_l; [discriminate|]. lia.
Qed.

Lemma total_error L a b : 0 < L < 2 ^ 31 -> 0 <= a <= b -> 0 < b < 2 ^ 53 ->
  let t := total L (bar_value L a b) in
  0 <= t <= 2 * L /\ (10 * Z.abs (2 * L * a - t * b) <= 7 * b \/ t = 2 * L /\ 2 ^ 20 * ((L - 1) * b - L * a) <= b).
Proof.
  intros HL Ha Hb. cbn zeta. pose proof (bar_error L a b ltac:(lia) Ha ltac:(lia)) as E.
  pose proof (bar_nonneg L a b ltac:(lia) ltac:(lia) ltac:(lia)) as R0.
  set (r := bar_value L a b) in *. clearbody r. pose proof f_one_pos as Po.
  pose proof (Z.div_mod r f_one ltac:(lia)) as D. pose proof (Z.mod_pos_bound r f_one Po) as M.
  pose proof (Z.div_pos r f_one R0 Po) as P0.
  assert (Hh : 0 <= level (head_rune_of L r) <= 2) by (destruct (head_rune_cases L r) as [->|[->| ->]]; cbn; lia).
  unfold total. destruct (Z.leb_spec (L - 1) (r / f_one)) as [H|H].
  - split; [lia|]. right. split; [reflexivity|]. apply (full_arith f_one b L a r Po ltac:(lia)); [|exact E].
    apply Z.le_trans with (r / f_one * f_one); [apply Z.mul_le_mono_nonneg_r; lia|]. rewrite Z.mul_comm. apply Z.mul_div_le. exact Po.
  - split; [lia|]. left. destruct threshold_bounds as (T1 & T2 & T3 & T4).
    eapply (total_arith f_one b L a (r / f_one) (r mod f_one)); [exact Po|lia| |].
    + rewrite (Z.mul_comm (r / f_one)). rewrite <- D. exact E.
    + eapply level_head; [exact M|exact one_div|exact T1|exact T2|exact T3|exact T4|].
      unfold head_rune_of. replace (r / f_one =? L - 1) with false by lia.
      destruct (r mod f_one <? f_scaled float_03); [reflexivity|]. destruct (r mod f_one <? f_scaled float_07); reflexivity.
Qed.

(** The bar (row h - 2, columns 1 .. w - 2) of a song that is at sample a of b: t half cells
    from the left are filled and the others are empty.  t is within 0.35 cells of the exact
    proportion, except that the last cell is filled as soon as the song has reached it. *)
Theorem C83_bar_proportional : forall history w h i a b,
  3 <= w < 2 ^ 31 -> 5 <= h -> i_progress i = (a, b) -> 0 <= a <= b -> 0 < b < 2 ^ 53 ->
  exists t,
    (forall k, 0 <= k < w - 2 -> fill (screen_after history w h i (1 + k) (h - 2)) = Some (Z.max 0 (Z.min 2 (t - 2 * k)))) /\
    (10 * Z.abs (2 * (w - 2) * a - t * b) <= 7 * b \/
     t = 2 * (w - 2) /\ 2 ^ 20 * ((w - 3) * b - (w - 2) * a) <= b).
Proof.
  intros history w h i a b Hw Hh Hp Ha Hb. exists (total (w - 2) (bar_value (w - 2) a b)).
  destruct (total_error (w - 2) a b ltac:(lia) Ha Hb) as [_ Ht]. split.
  - intros k Hk. rewrite (bar_cell history w h i a b k Hw Hh Hp) by lia. rewrite fill_rune by apply bar_rune_cases.
    f_equal. apply total_cell; [|exact Hk]. apply bar_nonneg; lia.
  - replace (w - 3) with (w - 2 - 1) by lia. exact Ht.
Qed.
Print Assumptions C83_bar_proportional.

(** empty at the start, full at the end (and past it) *)
Theorem C83_bar_ends : forall history w h i a b,
  4 <= w < 2 ^ 31 -> 5 <= h -> i_progress i = (a, b) -> 0 <= a < 2 ^ 53 -> 0 < b < 2 ^ 53 -> a <= 2 ^ 31 * b ->
  forall k, 0 <= k < w - 2 ->
    (a = 0 -> fill (screen_after history w h i (1 + k) (h - 2)) = Some 0) /\
    (b <= a -> fill (screen_after history w h i (1 + k) (h - 2)) = Some 2).
Proof.
  intros history w h i a b Hw Hh Hp Ha Hb Hab k Hk. split; intros H.
  - subst a. destruct (C83_bar_proportional history w h i 0 b ltac:(lia) Hh Hp ltac:(lia) Hb) as (t & Ht & E).
    rewrite Ht by exact Hk. assert (t <= 0); [|f_equal; lia].
    rewrite !Z.mul_0_r in E. destruct E as [E|[_ E]].
    + clear - E Hb. destruct (Z.le_gt_cases t 0) as [X|X]; [exact X|exfalso].
      pose proof (Z.mul_le_mono_nonneg_r 1 t b ltac:(lia) ltac:(lia)). lia.
    + clear - E Hb Hw. pose proof (Z.mul_le_mono_nonneg_r 1 (w - 3) b ltac:(lia) ltac:(lia)). lia.
  - rewrite (bar_cell history w h i a b k ltac:(lia) Hh Hp Ha Hb Hab Hk). rewrite fill_rune by apply bar_rune_cases. f_equal.
    rewrite total_cell by (try exact Hk; apply bar_nonneg; lia).
    pose proof (bar_ge (w - 2) a b 1 ltac:(lia) ltac:(lia) ltac:(lia) ltac:(lia) ltac:(lia) ltac:(lia)) as G. rewrite Z.mul_1_r in G.
    assert (D : w - 2 <= bar_value (w - 2) a b / f_one) by (apply Z.div_le_lower_bound; [apply f_one_pos|rewrite Z.mul_comm; exact G]).
    unfold total. replace (w - 2 - 1 <=? bar_value (w - 2) a b / f_one) with true by lia. lia.
Qed.
Print Assumptions C83_bar_ends.

(** the bar never moves backwards while the song moves forwards *)
Theorem C83_bar_monotone : forall history w h i i' a a' b,
  3 <= w < 2 ^ 31 -> 5 <= h -> i_progress i = (a, b) -> i_progress i' = (a', b) ->
  0 <= a <= a' -> a' < 2 ^ 53 -> 0 < b < 2 ^ 53 -> a' <= 2 ^ 31 * b ->
  forall k, 0 <= k < w - 2 -> exists u u',
    fill (screen_after history w h i (1 + k) (h - 2)) = Some u /\
    fill (screen_after history w h i' (1 + k) (h - 2)) = Some u' /\ u <= u'.
Proof.
  intros history w h i i' a a' b Hw Hh Hp Hp' Ha Ha' Hb Hab k Hk.
  rewrite (bar_cell history w h i a b k Hw Hh Hp), (bar_cell history w h i' a' b k Hw Hh Hp') by lia.
  rewrite !fill_rune by apply bar_rune_cases. eexists. eexists. split; [reflexivity|]. split; [reflexivity|].
  apply bar_rune_mono; [|lia]. split; [apply bar_nonneg; lia|]. apply bar_mono; lia.
Qed.
Print Assumptions C83_bar_monotone.
