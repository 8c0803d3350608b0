(** Proofs about the info client's screen. *)
From Verif Require Import GoBase GoBaseFacts GoUtf8 GoUtf8Facts GoFmt PlaylistModel PcmModel PcmProofs GoFloat GoFloatFacts
  PcmVolumeProps VolumeModel WireModel InfoerModel DrawModel DrawSpec.
From Coq Require Import ZifyBool ZifyNat ZifyN.
Local Open Scope Z_scope.

(* ------------------------------------------------------------------ *)
(** ** Cells *)

Lemma last_write_app a b x y :
  last_write (a ++ b) x y = match last_write b x y with Some r => Some r | None => last_write a x y end.
Proof.
  induction a as [|[[x' y'] r] a IH]; cbn [app last_write]; [destruct (last_write b x y); reflexivity|].
  rewrite IH. destruct (last_write b x y); reflexivity.
Qed.

Lemma last_write_none ws x y : (forall r, ~ In (x, y, r) ws) -> last_write ws x y = None.
Proof.
  induction ws as [|[[x' y'] r] ws IH]; intros H; [reflexivity|]. cbn. rewrite IH by (intros r' Hr; apply (H r'); now right).
  destruct ((x' =? x) && (y' =? y)) eqn:E; [|reflexivity].
  exfalso. apply (H r). left. repeat f_equal; lia.
Qed.

Lemma last_write_in ws x y r : last_write ws x y = Some r -> In (x, y, r) ws.
Proof.
  induction ws as [|[[x' y'] r'] ws IH]; cbn; [discriminate|]. destruct (last_write ws x y) as [r1|].
  - intros [= ->]. right. now apply IH.
  - destruct ((x' =? x) && (y' =? y)) eqn:E; [|discriminate]. intros [= ->]. left. repeat f_equal; lia.
Qed.

Lemma last_write_unique ws x y r : In (x, y, r) ws -> (forall r', In (x, y, r') ws -> r' = r) -> last_write ws x y = Some r.
Proof.
  intros Hi Hu. destruct (last_write ws x y) as [r'|] eqn:E.
  - apply last_write_in, Hu in E. now subst.
  - exfalso. revert Hi E. clear. induction ws as [|[[x' y'] r'] ws IH]; cbn; [intros []|].
    intros [[= -> -> ->]|H] E.
    + destruct (last_write ws x y); [discriminate|]. rewrite !Z.eqb_refl in E. discriminate.
    + destruct (last_write ws x y); [discriminate|]. now apply IH.
Qed.

(* ------------------------------------------------------------------ *)
(** ** Strings *)

Definition rune_width (r : N) : Z := zlen (utf8_encode_rune r).
Lemma rune_width_range r : 1 <= rune_width r <= 4.
Proof.
  unfold rune_width, utf8_encode_rune. destruct (r <? 0x80)%N; [cbn; lia|]. destruct (r <? 0x800)%N; [cbn; lia|].
  destruct (r <? 0x10000)%N; cbn; lia.
Qed.
Lemma rune_width_ascii r : (r < 128)%N -> rune_width r = 1.
Proof. intros H. unfold rune_width, utf8_encode_rune. replace (r <? 0x80)%N with true by lia. reflexivity. Qed.
Lemma rune_width_other r : (128 <= r)%N -> 2 <= rune_width r.
Proof.
  intros H. unfold rune_width, utf8_encode_rune. replace (r <? 0x80)%N with false by lia. destruct (r <? 0x800)%N; [cbn; lia|].
  destruct (r <? 0x10000)%N; cbn; lia.
Qed.

Fixpoint placed (off : Z) (t : text) : list (Z * N) :=
  match t with [] => [] | r :: t' => (off, r) :: placed (off + rune_width r) t' end.
(** the byte offset of character k *)
Definition column (t : text) (k : nat) : Z := zlen (utf8_encode (firstn k t)).

Lemma column_0 t : column t 0 = 0. Proof. reflexivity. Qed.
Lemma column_S r t k : column (r :: t) (S k) = rune_width r + column t k.
Proof. unfold column, utf8_encode. cbn [firstn flat_map]. rewrite zlen_app. reflexivity. Qed.
Lemma column_nonneg t k : 0 <= column t k. Proof. apply zlen_nonneg. Qed.
Lemma column_lt t : forall j k, (j < k <= length t)%nat -> column t j < column t k.
Proof.
  induction t as [|r t IH]; intros j k H; [cbn in H; lia|]. destruct k as [|k]; [lia|]. rewrite column_S.
  pose proof (rune_width_range r). destruct j as [|j]; [rewrite column_0; pose proof (column_nonneg t k); lia|].
  rewrite column_S. cbn in H. pose proof (IH j k ltac:(lia)). lia.
Qed.
Lemma column_inj t j k : (j < length t)%nat -> (k < length t)%nat -> column t j = column t k -> j = k.
Proof.
  intros Hj Hk E. destruct (Nat.lt_trichotomy j k) as [H|[H|H]]; [|exact H|].
  - pose proof (column_lt t j k ltac:(lia)). lia.
  - pose proof (column_lt t k j ltac:(lia)). lia.
Qed.
Lemma column_ascii t : ascii t -> forall k, (k <= length t)%nat -> column t k = Z.of_nat k.
Proof.
  induction 1 as [|r t Hr _ IH]; intros k Hk; [cbn in Hk; replace k with 0%nat by lia; reflexivity|].
  destruct k as [|k]; [reflexivity|]. rewrite column_S, (rune_width_ascii r Hr), IH by (cbn in Hk; lia). lia.
Qed.
Lemma column_ge t : forall k, (k <= length t)%nat -> Z.of_nat k <= column t k.
Proof.
  induction t as [|r t IH]; intros k H; [cbn in H; replace k with 0%nat by lia; cbn; lia|]. destruct k as [|k]; [cbn; lia|]. rewrite column_S.
  pose proof (rune_width_range r). cbn in H. pose proof (IH k ltac:(lia)). lia.
Qed.

Section Decode.
Local Open Scope N_scope.
Ltac Zify.zify_post_hook ::= Z.div_mod_to_equations.
Lemma decode_encode r b : scalar r -> decode_rune (utf8_encode_rune r ++ b) = (r, length (utf8_encode_rune r)).
Proof.
  unfold scalar, utf8_encode_rune; intros Hs.
  destruct (r <? 0x80) eqn:E1; [cbn [app decode_rune]; rewrite E1; reflexivity|].
  destruct (r <? 0x800) eqn:E2.
  { cbn [app decode_rune length]. unfold cont, between.
    replace (0xC0 + r / 64 <? 0x80) with false by lia.
    replace ((0xC2 <=? 0xC0 + r / 64) && (0xC0 + r / 64 <=? 0xDF))%bool with true by lia.
    replace ((0x80 <=? 0x80 + r mod 64) && (0x80 + r mod 64 <=? 0xBF))%bool with true by lia.
    f_equal. lia. }
  destruct (r <? 0x10000) eqn:E3.
  { cbn [app decode_rune length]. unfold cont, between.
    replace (0xE0 + r / 4096 <? 0x80) with false by lia.
    replace ((0xC2 <=? 0xE0 + r / 4096) && (0xE0 + r / 4096 <=? 0xDF))%bool with false by lia.
    replace ((0xE0 <=? 0xE0 + r / 4096) && (0xE0 + r / 4096 <=? 0xEF))%bool with true by lia.
    replace ((0x80 <=? 0x80 + r mod 64) && (0x80 + r mod 64 <=? 0xBF))%bool with true by lia.
    replace (if 0xE0 + r / 4096 =? 0xE0 then (0xA0 <=? 0x80 + (r / 64) mod 64) && (0x80 + (r / 64) mod 64 <=? 0xBF)
             else if 0xE0 + r / 4096 =? 0xED then (0x80 <=? 0x80 + (r / 64) mod 64) && (0x80 + (r / 64) mod 64 <=? 0x9F)
             else (0x80 <=? 0x80 + (r / 64) mod 64) && (0x80 + (r / 64) mod 64 <=? 0xBF))%bool with true.
    2:{ destruct (0xE0 + r / 4096 =? 0xE0) eqn:Ea; [lia|]. destruct (0xE0 + r / 4096 =? 0xED) eqn:Eb; lia. }
    cbn [andb]. f_equal. lia. }
  cbn [app decode_rune length]. unfold cont, between.
  replace (0xF0 + r / 262144 <? 0x80) with false by lia.
  replace ((0xC2 <=? 0xF0 + r / 262144) && (0xF0 + r / 262144 <=? 0xDF))%bool with false by lia.
  replace ((0xE0 <=? 0xF0 + r / 262144) && (0xF0 + r / 262144 <=? 0xEF))%bool with false by lia.
  replace ((0xF0 <=? 0xF0 + r / 262144) && (0xF0 + r / 262144 <=? 0xF4))%bool with true by lia.
  replace ((0x80 <=? 0x80 + r mod 64) && (0x80 + r mod 64 <=? 0xBF))%bool with true by lia.
  replace ((0x80 <=? 0x80 + (r / 64) mod 64) && (0x80 + (r / 64) mod 64 <=? 0xBF))%bool with true by lia.
  replace (if 0xF0 + r / 262144 =? 0xF0 then (0x90 <=? 0x80 + (r / 4096) mod 64) && (0x80 + (r / 4096) mod 64 <=? 0xBF)
           else if 0xF0 + r / 262144 =? 0xF4 then (0x80 <=? 0x80 + (r / 4096) mod 64) && (0x80 + (r / 4096) mod 64 <=? 0x8F)
           else (0x80 <=? 0x80 + (r / 4096) mod 64) && (0x80 + (r / 4096) mod 64 <=? 0xBF))%bool with true.
  2:{ destruct (0xF0 + r / 262144 =? 0xF0) eqn:Ea; [lia|]. destruct (0xF0 + r / 262144 =? 0xF4) eqn:Eb; lia. }
  cbn [andb]. f_equal. lia.
Qed.
Ltac Zify.zify_post_hook ::= idtac.
End Decode.

Lemma encode_nonempty r : exists c l, utf8_encode_rune r = c :: l.
Proof.
  pose proof (rune_width_range r) as H. unfold rune_width in H. destruct (utf8_encode_rune r) as [|c l]; [cbn in H; lia|]. eauto.
Qed.

Lemma range_encode t : Forall scalar t -> forall fuel off, (length (utf8_encode t) <= fuel)%nat ->
  range_string fuel off (utf8_encode t) = placed off t.
Proof.
  induction 1 as [|r t Hr _ IH]; intros fuel off Hf; [destruct fuel; reflexivity|].
  unfold utf8_encode in *. cbn [flat_map] in *. rewrite app_length in Hf.
  pose proof (decode_encode r (flat_map utf8_encode_rune t) Hr) as D.
  destruct (encode_nonempty r) as (c & l & E). rewrite E in *. cbn [app length] in *.
  destruct fuel as [|fuel]; [lia|]. cbn [range_string placed]. rewrite D. f_equal.
  change (S (length l)) with (length (c :: l)). change (c :: l ++ flat_map utf8_encode_rune t) with ((c :: l) ++ flat_map utf8_encode_rune t).
  rewrite skipn_app, skipn_all, Nat.sub_diag. cbn [app skipn]. unfold rune_width, zlen. rewrite E. apply IH. lia.
Qed.

Lemma placed_in off t o r : In (o, r) (placed off t) <-> exists k, nth_error t k = Some r /\ o = off + column t k.
Proof.
  revert off. induction t as [|r' t IH]; intros off; cbn [placed].
  - split; [intros []|intros (k & H & _); destruct k; discriminate].
  - cbn [In]. rewrite IH. split.
    + intros [[= -> ->]|(k & H & ->)]; [exists 0%nat; rewrite column_0; split; [reflexivity|lia]|].
      exists (S k). rewrite column_S. split; [exact H|lia].
    + intros ([|k] & H & ->); cbn in H; [left; rewrite column_0; injection H as ->; f_equal; lia|].
      right. exists k. rewrite column_S. split; [exact H|lia].
Qed.

Lemma draw_string_in x y t x' y' r : Forall scalar t ->
  In (x', y', r) (draw_string x y (utf8_encode t)) <-> y' = y /\ exists k, nth_error t k = Some r /\ x' = x + column t k.
Proof.
  intros Ht. unfold draw_string. rewrite (range_encode t Ht) by lia. rewrite in_map_iff. split.
  - intros ([o r'] & E & H). cbn [fst snd] in E. injection E as <- <- <-. apply placed_in in H as (k & H & ->).
    split; [reflexivity|]. exists k. split; [exact H|lia].
  - intros (-> & k & H & ->). exists (column t k, r). split; [reflexivity|]. apply placed_in. exists k. split; [exact H|lia].
Qed.

Lemma nth_lt {A} (l : list A) k r : nth_error l k = Some r -> (k < length l)%nat.
Proof. intros H. apply nth_error_Some. congruence. Qed.

Lemma draw_string_hit x y t k r : Forall scalar t -> nth_error t k = Some r ->
  last_write (draw_string x y (utf8_encode t)) (x + column t k) y = Some r.
Proof.
  intros Ht Hk. apply last_write_unique.
  - apply draw_string_in; [exact Ht|]. split; [reflexivity|]. exists k. auto.
  - intros r' H. apply (draw_string_in _ _ _ _ _ _ Ht) in H as (_ & j & Hj & E).
    assert (j = k) by (apply (column_inj t); [eapply nth_lt; eauto|eapply nth_lt; eauto|lia]). subst. congruence.
Qed.
Lemma draw_string_miss x y t x' y' : Forall scalar t ->
  (y' = y -> forall k r, nth_error t k = Some r -> x' <> x + column t k) ->
  last_write (draw_string x y (utf8_encode t)) x' y' = None.
Proof.
  intros Ht H. apply last_write_none. intros r Hr. apply (draw_string_in _ _ _ _ _ _ Ht) in Hr as (-> & k & Hk & E).
  exact (H eq_refl k r Hk E).
Qed.
(** any string, valid or not, only touches its row *)
Lemma draw_string_row x y s x' y' : y' <> y -> last_write (draw_string x y s) x' y' = None.
Proof.
  intros H. apply last_write_none. intros r Hr. unfold draw_string in Hr. apply in_map_iff in Hr as (p & E & _).
  injection E as _ E _. lia.
Qed.

(* ------------------------------------------------------------------ *)
(** ** Boxes and bars *)

Lemma draw_progress_row x y l p x' y' : y' <> y -> last_write (draw_progress x y l p) x' y' = None.
Proof.
  intros H. apply last_write_none. intros r Hr. unfold draw_progress in Hr. destruct (progress_head l p).
  apply in_map_iff in Hr as (k & E & _). injection E as _ E _. lia.
Qed.
Lemma draw_progress_hit x y l p k : 0 <= k < l ->
  last_write (draw_progress x y l p) (x + k) y =
  Some (let '(head, hr) := progress_head l p in if k <? head then r_full else if head =? k then hr else r_empty).
Proof.
  intros H. unfold draw_progress. destruct (progress_head l p) as [head hr]. apply last_write_unique.
  - apply in_map_iff. exists (Z.to_nat k). split; [rewrite Z2Nat.id by lia; reflexivity|]. apply in_seq. lia.
  - intros r Hr. apply in_map_iff in Hr as (j & E & _). injection E as E <-. replace (Z.of_nat j) with k by lia. reflexivity.
Qed.

Definition horizontal (x y w h : Z) : writes :=
  flat_map (fun k => let i := x + Z.of_nat k in [(i, y + h - 1, 0x2550%N); (i, y, 0x2550%N)]) (seq 0 (Z.to_nat w)).
Definition vertical (x y w h : Z) : writes :=
  flat_map (fun k => let j := y + Z.of_nat k in [(x, j, 0x2551%N); (x + w - 1, j, 0x2551%N)]) (seq 0 (Z.to_nat h)).
Definition corners (x y w h : Z) : writes :=
  [(x, y, 0x2554%N); (x + w - 1, y, 0x2557%N); (x, y + h - 1, 0x255A%N); (x + w - 1, y + h - 1, 0x255D%N)].
Lemma box_parts x y w h : draw_box x y w h = horizontal x y w h ++ vertical x y w h ++ corners x y w h.
Proof. reflexivity. Qed.

Lemma horizontal_in x y w h x' y' r : In (x', y', r) (horizontal x y w h) <->
  r = 0x2550%N /\ x <= x' < x + w /\ (y' = y \/ y' = y + h - 1).
Proof.
  unfold horizontal. rewrite in_flat_map. split.
  - intros (k & Hk & Hi). apply in_seq in Hk. cbn [In] in Hi. destruct Hi as [E|[E|[]]]; injection E as <- <- <-; split; [reflexivity| |reflexivity|]; lia.
  - intros (-> & Hx & Hy). exists (Z.to_nat (x' - x)). split; [apply in_seq; lia|]. cbn [In].
    replace (x + Z.of_nat (Z.to_nat (x' - x))) with x' by lia. destruct Hy as [->| ->]; auto.
Qed.
Lemma vertical_in x y w h x' y' r : In (x', y', r) (vertical x y w h) <->
  r = 0x2551%N /\ y <= y' < y + h /\ (x' = x \/ x' = x + w - 1).
Proof.
  unfold vertical. rewrite in_flat_map. split.
  - intros (k & Hk & Hi). apply in_seq in Hk. cbn [In] in Hi. destruct Hi as [E|[E|[]]]; injection E as <- <- <-; split; [reflexivity| |reflexivity|]; lia.
  - intros (-> & Hy & Hx). exists (Z.to_nat (y' - y)). split; [apply in_seq; lia|]. cbn [In].
    replace (y + Z.of_nat (Z.to_nat (y' - y))) with y' by lia. destruct Hx as [->| ->]; auto.
Qed.

(** the box as a function (two rows and columns at least) *)
Lemma box_cell x y w h x' y' : 2 <= w -> 2 <= h ->
  last_write (draw_box x y w h) x' y' =
    if (x' =? x) && (y' =? y) then Some 0x2554%N
    else if (x' =? x + w - 1) && (y' =? y) then Some 0x2557%N
    else if (x' =? x) && (y' =? y + h - 1) then Some 0x255A%N
    else if (x' =? x + w - 1) && (y' =? y + h - 1) then Some 0x255D%N
    else if ((x' =? x) || (x' =? x + w - 1)) && (y <=? y') && (y' <? y + h) then Some 0x2551%N
    else if ((y' =? y) || (y' =? y + h - 1)) && (x <=? x') && (x' <? x + w) then Some 0x2550%N
    else None.
Proof.
  intros Hw Hh. rewrite box_parts, !last_write_app.
  assert (C : last_write (corners x y w h) x' y' =
    if (x' =? x) && (y' =? y) then Some 0x2554%N
    else if (x' =? x + w - 1) && (y' =? y) then Some 0x2557%N
    else if (x' =? x) && (y' =? y + h - 1) then Some 0x255A%N
    else if (x' =? x + w - 1) && (y' =? y + h - 1) then Some 0x255D%N else None).
  { unfold corners. cbn [last_write].
    rewrite !(Z.eqb_sym _ x'), !(Z.eqb_sym _ y').
    destruct (x' =? x) eqn:E1, (x' =? x + w - 1) eqn:E2, (y' =? y) eqn:E3, (y' =? y + h - 1) eqn:E4; cbn [andb]; try reflexivity; lia. }
  rewrite C.
  destruct ((x' =? x) && (y' =? y)) eqn:E1; [reflexivity|].
  destruct ((x' =? x + w - 1) && (y' =? y)) eqn:E2; [reflexivity|].
  destruct ((x' =? x) && (y' =? y + h - 1)) eqn:E3; [reflexivity|].
  destruct ((x' =? x + w - 1) && (y' =? y + h - 1)) eqn:E4; [reflexivity|].
  destruct (((x' =? x) || (x' =? x + w - 1)) && (y <=? y') && (y' <? y + h)) eqn:E5.
  - rewrite (last_write_unique (vertical x y w h) x' y' 0x2551%N); [reflexivity| |].
    + apply vertical_in. lia.
    + intros r Hr. apply vertical_in in Hr. tauto.
  - rewrite (last_write_none (vertical x y w h)) by (intros r Hr; apply vertical_in in Hr; lia).
    destruct (((y' =? y) || (y' =? y + h - 1)) && (x <=? x') && (x' <? x + w)) eqn:E6.
    + apply last_write_unique; [apply horizontal_in; lia|]. intros r Hr. apply horizontal_in in Hr. tauto.
    + apply last_write_none. intros r Hr. apply horizontal_in in Hr. lia.
Qed.
Lemma box_rows x y w h x' y' : 2 <= w -> 2 <= h -> y' < y \/ y + h <= y' -> last_write (draw_box x y w h) x' y' = None.
Proof.
  intros Hw Hh H. rewrite box_cell by assumption.
  replace (y' =? y) with false by lia. replace (y' =? y + h - 1) with false by lia. rewrite !andb_false_r. cbn [orb andb].
  replace ((y <=? y') && (y' <? y + h)) with false by lia. rewrite <- andb_assoc.
  replace ((y <=? y') && (y' <? y + h)) with false by lia. rewrite andb_false_r. reflexivity.
Qed.
