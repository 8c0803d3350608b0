(** Arithmetic of the chunk schedule and its consequences for players. *)
From Verif Require Import GoBase GoBaseFacts PlaylistModel QueueModel ChanModel ChanSpec PlayerModel PlayerSpec PlayerProofs ScheduleModel.
From Coq Require Import ZifyBool ZifyNat ZifyN Sorted.
Local Open Scope Z_scope.

Notation G := 1000000000 (only parsing).

Lemma chunk_time_div size sr : 0 < sr -> 0 <= size -> stream_chunk_time size sr = size * G / sr.
Proof. intros. unfold stream_chunk_time, go_div. apply Z.quot_div_nonneg; lia. Qed.

(** sr * (T i - start) = i * G - (i / size) * D - e_i with 0 <= D, e_i < sr *)
Lemma sched_exact start size sr i : 0 < sr -> 0 < size -> 0 <= i ->
  exists e, 0 <= e < sr /\
  sr * (scheduled start size sr i - start) = i * G - (i / size) * ((size * G) mod sr) - e.
Proof.
  intros Hs Hz Hi. unfold scheduled.
  pose proof (Z.div_mod i size ltac:(lia)) as E1.
  pose proof (Z.div_mod (size * G) sr ltac:(lia)) as E2.
  pose proof (Z.div_mod ((i mod size) * G) sr ltac:(lia)) as E3.
  pose proof (Z.mod_pos_bound ((i mod size) * G) sr Hs) as B3.
  exists ((i mod size * G) mod sr). split; [exact B3|].
  set (c := i / size) in *. set (r := i mod size) in *. set (ct := size * G / sr) in *.
  set (f := r * G / sr) in *. set (D := (size * G) mod sr) in *. set (e := (r * G) mod sr) in *.
  assert (sr * (start + c * ct + f - start) = c * (sr * ct) + sr * f) as -> by ring.
  assert (sr * ct = size * G - D) as -> by lia. assert (sr * f = r * G - e) as -> by lia.
  assert (i * G = c * size * G + r * G) as -> by (rewrite E1; ring). ring.
Qed.

Lemma mul_lt_cancel sr a b : 0 < sr -> sr * a < sr * b -> a < b.
Proof. intros. nia. Qed.

Lemma sched_err start size sr i m : 0 < sr -> 0 < size -> 0 <= i -> 0 <= m ->
  - ((i + m) / size - i / size) <= scheduled start size sr (i + m) - scheduled start size sr i - m * G / sr <= 1.
Proof.
  intros Hs Hz Hi Hm.
  destruct (sched_exact start size sr i Hs Hz Hi) as (e & He & E).
  destruct (sched_exact start size sr (i + m) Hs Hz ltac:(lia)) as (e' & He' & E').
  pose proof (Z.div_mod (m * G) sr ltac:(lia)) as E2. pose proof (Z.mod_pos_bound (m * G) sr Hs) as B2.
  pose proof (Z.mod_pos_bound (size * G) sr Hs) as BD.
  assert (Hd : i / size <= (i + m) / size) by (apply Z.div_le_mono; lia).
  set (T := scheduled start size sr i) in *. set (T' := scheduled start size sr (i + m)) in *.
  set (d := m * G / sr) in *. set (D := (size * G) mod sr) in *. set (e2 := (m * G) mod sr) in *.
  set (c := i / size) in *. set (c' := (i + m) / size) in *.
  assert (Hx : sr * (T' - T - d) = - ((c' - c) * D) - e' + e + e2).
  { replace (sr * (T' - T - d)) with (sr * (T' - start) - sr * (T - start) - sr * d) by ring.
    rewrite E, E'. lia. }
  assert (HD : 0 <= (c' - c) * D <= (c' - c) * sr) by nia.
  split.
  - assert (- (c' - c) - 1 < T' - T - d); [|lia]. apply (mul_lt_cancel sr); [exact Hs|].
    rewrite Hx. nia.
  - assert (T' - T - d < 2); [|lia]. apply (mul_lt_cancel sr); [exact Hs|]. rewrite Hx. nia.
Qed.

Lemma sched_gap start size sr i : 0 < sr -> 0 < size -> 0 <= i ->
  scheduled start size sr (i + 1) <= scheduled start size sr i + G / sr + 1.
Proof. intros Hs Hz Hi. pose proof (sched_err start size sr i 1 Hs Hz Hi ltac:(lia)). rewrite Z.mul_1_l in H. lia. Qed.

Lemma sched_mono start size sr i j : 0 < sr -> 0 < size -> 0 <= i <= j ->
  scheduled start size sr i <= scheduled start size sr j.
Proof.
  intros Hs Hz Hij. unfold scheduled.
  pose proof (Z.mod_pos_bound i size Hz) as Bi. pose proof (Z.mod_pos_bound j size Hz) as Bj.
  assert (Hc : i / size <= j / size) by (apply Z.div_le_mono; lia).
  pose proof (Z.div_mod i size ltac:(lia)) as E1. pose proof (Z.div_mod j size ltac:(lia)) as E2.
  set (ct := size * G / sr).
  assert (Hct : 0 <= ct) by (apply Z.div_pos; lia).
  destruct (Z.eq_dec (i / size) (j / size)) as [E|E].
  - rewrite E. assert (i mod size * G / sr <= j mod size * G / sr); [|lia].
    apply Z.div_le_mono; [exact Hs|]. assert (i mod size <= j mod size) by (rewrite E in E1; lia). nia.
  - assert (i mod size * G / sr <= ct) by (apply Z.div_le_mono; [exact Hs|nia]).
    assert (0 <= j mod size * G / sr) by (apply Z.div_pos; [nia|exact Hs]).
    assert (i / size * ct + ct <= j / size * ct) by nia. lia.
Qed.

(* ---------------- C23 ---------------- *)

Lemma consecutive_no_nan feed pos : (forall i, ~ nan_at feed i) -> consecutive feed pos ->
  Forall (fun p => p <> None) pos -> exists a, pos = map Some (seq a (length pos)).
Proof.
  intros Hn. induction pos as [|[i|] pos IH]; intros Hc Hf.
  - exists O. reflexivity.
  - inversion Hf as [|? ? _ Hf']; subst. destruct pos as [|p pos].
    + exists i. reflexivity.
    + cbn [consecutive] in Hc. destruct Hc as [[Hp|Hp] Hc]; [|elim (Hn _ Hp)].
      destruct (IH Hc Hf') as [a Ha]. cbn [length] in *. exists i.
      cbn [seq map] in Ha |- *. injection Ha as Ha1 Ha2. subst p. injection Ha1 as <-.
      f_equal. f_equal. exact Ha2.
  - inversion Hf; congruence.
Qed.

Lemma outputs_some feed pos ys : outputs feed pos (map Some ys) -> Forall (fun p => p <> None) pos /\
  (forall a, pos = map Some (seq a (length pos)) -> forall m y, nth_error ys m = Some y -> nth_error feed (a + m) = Some y).
Proof.
  unfold outputs. revert pos. induction ys as [|y ys IH]; intros pos H; inversion H as [|p o pos' out' Hp Hr]; subst.
  - split; [constructor|]. intros a _ [|m] z Hz; discriminate.
  - destruct p as [i|]; [|contradiction]. destruct (IH _ Hr) as [H1 H2]. split; [constructor; [discriminate|exact H1]|].
    intros a Ha m z Hz. cbn [length seq map] in Ha. injection Ha as -> Ha.
    destruct m as [|m]; cbn [nth_error] in Hz.
    + injection Hz as <-. rewrite Nat.add_0_r. exact (proj1 Hp).
    + rewrite Nat.add_succ_r. apply (H2 (S a) Ha m z Hz).
Qed.

Lemma sync_error start size sr c q now k calls ys q' b' :
  0 < sr -> 0 < size -> 0 <= c -> (0 < k)%nat ->
  Forall (fun x => ts_nan x = false) q ->
  (forall i x, nth_error q i = Some x -> snd x = scheduled start size sr (c + Z.of_nat i)) ->
  play sr true ((now, k) :: calls) q = Some (map Some ys, q', b') ->
  exists a, forall m y, nth_error ys m = Some y ->
    nth_error q (a + m) = Some y /\
    - ((c + Z.of_nat (a + m)) / size - (c + Z.of_nat a) / size)
      <= snd y - (now + Z.of_nat m * G / sr) <= G / sr + 1.
Proof.
  intros Hs Hz Hc Hk Hnan HT H.
  destruct (play_auto sr _ Hs _ _ _ _ _ H) as [HA _].
  destruct (auto_positions _ _ _ _ _ HA q 0%nat eq_refl) as (pos & Ho & Hcon & _ & _).
  destruct (outputs_some _ _ _ Ho) as [Hall Hnth].
  destruct (consecutive_no_nan q pos) as [a Ha]; [|exact Hcon|exact Hall|].
  { intros i (x & Hx & Hxn). apply nth_error_In in Hx. rewrite Forall_forall in Hnan. rewrite (Hnan _ Hx) in Hxn. discriminate. }
  exists a. specialize (Hnth a Ha).
  cbn [play] in H. destruct (stream sr true now k q) as [o1 q1 b1 n1| |] eqn:E1; try discriminate.
  destruct (play sr b1 calls q1) as [[[o2 q2] b2]|]; [|discriminate]. injection H as Hout _ _.
  destruct (stream_auto _ _ _ _ _ _ _ _ _ Hs E1) as [_ Hl].
  destruct o1 as [|s o1]; [cbn in Hl; lia|]. destruct ys as [|y0 ys]; [discriminate|].
  cbn [app map] in Hout. injection Hout as -> _.
  assert (Hy0 : now <= snd y0 <= now + G / sr).
  { unfold stream in E1.
    destruct (first_slot _ sr Hs true now k q _ _ _ _ _ ltac:(discriminate) E1) as (pre & x & rest & Hq & Hp & Hx & Hyx & Hny).
    subst x. split; [exact Hny|].
    destruct pre as [|p0 pre0] eqn:Epre.
    - rewrite Hq in E1. cbn [app] in E1.
      pose proof (sync_starts_late _ sr now k [] y0 rest _ _ _ _ _ Hs (Forall_nil _) Hx E1) as Hle.
      pose proof (dur_nonneg sr (Z.of_nat k) Hs ltac:(lia)).
      assert (0 <= G / sr) by (apply Z.div_pos; lia). lia.
    - rewrite <- Epre in *. 
      destruct (exists_last (l := pre) ltac:(subst; discriminate)) as (pre' & z & Epre').
      assert (Hz' : snd z < now).
      { rewrite Forall_forall in Hp. destruct (Hp z) as [Hzn|Hzn]; [rewrite Epre'; apply in_app_iff; right; left; reflexivity| |exact Hzn].
        rewrite Forall_forall in Hnan. rewrite (Hnan z) in Hzn; [discriminate|].
        rewrite Hq, Epre'. rewrite !in_app_iff. left. right. left. reflexivity. }
      assert (Hnz : nth_error q (length pre') = Some z).
      { rewrite Hq, Epre', <- app_assoc, nth_error_app2, Nat.sub_diag by lia. reflexivity. }
      assert (Hny0 : nth_error q (S (length pre')) = Some y0).
      { rewrite Hq, nth_error_app2 by (rewrite Epre', app_length; cbn; lia).
        rewrite Epre', app_length. cbn [length]. replace (S (length pre') - (length pre' + 1))%nat with O by lia. reflexivity. }
      pose proof (HT _ _ Hnz) as Tz. pose proof (HT _ _ Hny0) as Ty.
      pose proof (sched_gap start size sr (c + Z.of_nat (length pre')) Hs Hz ltac:(lia)) as Hgap.
      replace (c + Z.of_nat (S (length pre'))) with (c + Z.of_nat (length pre') + 1) in Ty by lia.
      lia. }
  intros m y Hm. pose proof (Hnth m y Hm) as Hq. split; [exact Hq|].
  pose proof (HT _ _ Hq) as Ty. pose proof (Hnth 0%nat y0 eq_refl) as Hq0. rewrite Nat.add_0_r in Hq0.
  pose proof (HT _ _ Hq0) as Ty0.
  pose proof (sched_err start size sr (c + Z.of_nat a) (Z.of_nat m) Hs Hz ltac:(lia) ltac:(lia)) as Herr.
  replace (c + Z.of_nat (a + m)) with (c + Z.of_nat a + Z.of_nat m) in * by lia.
  lia.
Qed.

Lemma div_add_le i m size : 0 < size -> 0 <= i -> 0 <= m -> (i + m) / size - i / size <= m / size + 1.
Proof.
  intros Hz Hi Hm.
  pose proof (Z.div_mod i size ltac:(lia)). pose proof (Z.div_mod m size ltac:(lia)).
  pose proof (Z.mod_pos_bound i size Hz). pose proof (Z.mod_pos_bound m size Hz).
  assert ((i + m) / size < i / size + m / size + 2); [|lia].
  apply Z.div_lt_upper_bound; [exact Hz|]. nia.
Qed.

(* ---------------- C19 ---------------- *)

Lemma nondec_sorted l : nondecreasing l <-> StronglySorted Z.le l.
Proof.
  induction l as [|a l IH]; [split; [constructor|intros; exact I]|].
  split.
  - intros H. destruct l as [|b l]; [repeat constructor|]. destruct H as [Hab H].
    apply IH in H. constructor; [exact H|]. constructor; [exact Hab|].
    inversion H as [|? ? _ Hf]; subst. eapply Forall_impl; [|exact Hf]. intros; lia.
  - intros H. inversion H as [|? ? Hs Hf]; subst. destruct l as [|b l]; [exact I|].
    split; [inversion Hf; assumption|]. apply IH. exact Hs.
Qed.

Lemma played_cons o out : played (o :: out) = match o with Some x => x :: played out | None => played out end.
Proof. unfold played. cbn. destruct o; reflexivity. Qed.

Lemma sorted_app_r {A} (R : A -> A -> Prop) d l : StronglySorted R (d ++ l) -> StronglySorted R l.
Proof. induction d; cbn; intros H; [exact H|]. inversion H; subst; auto. Qed.

Lemma auto_sorted b q out b' q' : Auto b q out b' q' ->
  (forall P : tsample -> Prop, Forall P q -> Forall P (played out)) /\
  (StronglySorted Z.le (map snd q) -> StronglySorted Z.le (map snd (played out))).
Proof.
  induction 1 as [b q|x q out b' q' Hx HA [IH1 IH2]|x q out b' q' Hx HA [IH1 IH2]|q out b' q' HA [IH1 IH2]|x q out b' q' Hx HA [IH1 IH2]|d q out b' q' HA [IH1 IH2]]; rewrite ?played_cons.
  - split; [constructor|constructor].
  - split.
    + intros P H. inversion H; subst. constructor; auto.
    + cbn [map]. intros H. inversion H as [|? ? Hs Hf]; subst. constructor; [auto|].
      rewrite Forall_map in *. apply IH1. exact Hf.
  - split; [intros P H; inversion H; auto|]. cbn [map]. intros H; inversion H; auto.
  - split; assumption.
  - split; [intros P H; inversion H; auto|]. cbn [map]. intros H; inversion H; auto.
  - split; [intros P H; apply Forall_app in H; apply IH1; apply H|].
    rewrite map_app. intros H. apply IH2. eapply sorted_app_r; exact H.
Qed.

(* ---------------- the server's schedule ---------------- *)

Lemma stream_music_nth start size sr fills : forall index i m,
  nth_error (stream_music start size sr index fills) i = Some m ->
  exists f, nth_error fills i = Some f /\ m = tick start size sr (index + Z.of_nat i) f.
Proof.
  induction fills as [|f fills IH]; intros index i m H; cbn [stream_music] in H; [destruct i; discriminate|].
  destruct i as [|i]; cbn [nth_error] in *.
  - injection H as <-. exists f. rewrite Z.add_0_r. auto.
  - destruct (IH _ _ _ H) as (g & Hg & ->). exists g. split; [exact Hg|]. f_equal. lia.
Qed.
Lemma stream_music_length start size sr fills : forall index, length (stream_music start size sr index fills) = length fills.
Proof. induction fills; intros; cbn; auto. Qed.

Lemma indices_nth size fills : forall base, indices_exact base fills ->
  Forall (fun f => zlen (snd (fst f)) = size) fills ->
  forall i f, nth_error fills i = Some f -> fst (fst f) = base + Z.of_nat i * size /\ zlen (snd f) = size.
Proof.
  induction fills as [|[[j low] high] fills IH]; intros base Hx Hs i f Hf; [destruct i; discriminate|].
  cbn [indices_exact] in Hx. destruct Hx as (-> & Hlen & Hx). inversion Hs as [|? ? H1 H2]; subst. cbn [fst snd] in *.
  destruct i as [|i]; cbn [nth_error] in Hf.
  - injection Hf as <-. cbn [fst snd]. split; [lia|]. unfold zlen in *. lia.
  - destruct (IH _ Hx H2 _ _ Hf) as [E1 E2]. split; [rewrite E1; lia|exact E2].
Qed.

Lemma combine_samples_length low : forall high, length low = length high -> length (combine_samples low high) = length low.
Proof. induction low as [|l low IH]; intros [|h high] H; cbn in *; try lia. rewrite IH; lia. Qed.

(** Timestamps of the stamped chunks of a stream. *)
Lemma stamped_scheduled sr start size cs f : 0 < sr -> 0 < size -> stamped_chunks sr cs f ->
  forall index, 0 <= index ->
  (forall i c, nth_error cs i = Some c -> c_start c = start + (index + Z.of_nat i) * (size * G / sr) /\ zlen (c_samples c) = size) ->
  forall i x, nth_error f i = Some x -> snd x = scheduled start size sr (index * size + Z.of_nat i).
Proof.
  intros Hs Hz H. induction H as [|c cs f fs Hst Hsts IH]; intros index Hi Hc i x Hx; [destruct i; discriminate|].
  destruct (Hc 0%nat c eq_refl) as [Hstart Hlen]. destruct Hst as [Hl Hn].
  assert (HL : Z.of_nat (length f) = size) by (unfold zlen in Hlen; lia).
  destruct (Nat.lt_ge_cases i (length f)) as [Hlt|Hge].
  - rewrite nth_error_app1 in Hx by exact Hlt. destruct (Hn _ _ Hx) as [_ <-].
    rewrite Hstart. unfold scheduled.
    rewrite (Z.add_comm (index * size)), Z.div_add, Z.mod_add by lia.
    rewrite (Z.div_small (Z.of_nat i)), (Z.mod_small (Z.of_nat i)) by lia.
    change (Z.of_nat 0) with 0. rewrite Z.add_0_l, !Z.add_0_r. reflexivity.
  - rewrite nth_error_app2 in Hx by exact Hge.
    specialize (IH (index + 1) ltac:(lia)).
    assert (Hc' : forall i c, nth_error cs i = Some c -> c_start c = start + (index + 1 + Z.of_nat i) * (size * G / sr) /\ zlen (c_samples c) = size).
    { intros j d Hd. destruct (Hc (S j) d Hd) as [H1 H2]. split; [rewrite H1; f_equal; f_equal; lia|exact H2]. }
    rewrite (IH Hc' _ _ Hx). f_equal. lia.
Qed.

(* ---------------- C22 ---------------- *)

Lemma auto_ge b q out b' q' lo : Auto b q out b' q' -> Forall (fun z : tsample => lo <= snd z) q ->
  Forall (fun z : tsample => lo <= snd z) (played out).
Proof. intros HA Hq. exact (proj1 (auto_sorted _ _ _ _ _ HA) _ Hq). Qed.

Lemma played_app a b : played (a ++ b) = played a ++ played b.
Proof. unfold played. rewrite map_app, concat_app. reflexivity. Qed.
Lemma played_silence k : played (repeat None k) = [].
Proof. induction k; cbn; auto. Qed.

Lemma sorted_ge_tail e y r : StronglySorted Z.le (map snd (e ++ y :: r : list tsample)) ->
  Forall (fun z => snd y <= snd z) (y :: r).
Proof.
  rewrite map_app. intros H. apply sorted_app_r in H. cbn [map] in H. inversion H as [|? ? _ Hf]; subst.
  constructor; [lia|]. rewrite Forall_map in Hf. exact Hf.
Qed.

Lemma first_buffer_lost sr k calls : 0 < sr -> (0 < k)%nat -> Forall (fun c => snd c = k) calls ->
  forall pre x rest out q' b',
  Forall (fun z => ts_nan z = true) pre -> ts_nan x = false ->
  StronglySorted Z.le (map snd (x :: rest)) ->
  play sr true calls (pre ++ x :: rest) = Some (out, q', b') ->
  Forall (fun z => snd x + samples_duration sr (Z.of_nat k) <= snd z) (played out).
Proof.
  intros Hs Hk Hcalls. induction Hcalls as [|[now k'] calls Hk' Hcalls IH]; intros pre x rest out q' b' Hpre Hx Hsort H; cbn [play] in H.
  - injection H as <- _ _. constructor.
  - cbn [snd] in Hk'. subst k'.
    destruct (stream sr true now k (pre ++ x :: rest)) as [o1 q1 b1 n1| |] eqn:E; try discriminate.
    destruct (play sr b1 calls q1) as [[[o2 q2] b2]|] eqn:E2; [|discriminate]. injection H as <- _ _.
    destruct (sync_call _ _ _ _ _ _ _ _ _ _ Hs Hk Hpre Hx E) as [(-> & -> & ->)|(e & y & r2 & He & H1 & H2 & HA)].
    + rewrite played_app, played_silence. cbn [app].
      exact (IH [] x rest _ _ _ (Forall_nil _) Hx Hsort E2).
    + destruct (play_auto sr _ Hs _ _ _ _ _ E2) as [HA2 _].
      eapply auto_ge; [eapply auto_trans; [exact HA|exact HA2]|].
      rewrite He in Hsort. eapply Forall_impl; [|exact (sorted_ge_tail _ _ _ Hsort)]. intros z Hz. cbn beta in *. lia.
Qed.

Fixpoint gaps_at_most (P : Z) (l : list tsample) : Prop :=
  match l with
  | a :: ((b :: _) as r) => snd b <= snd a + P /\ gaps_at_most P r
  | _ => True
  end.
Lemma gaps_app P l : forall pre, gaps_at_most P (pre ++ l) -> gaps_at_most P l.
Proof.
  induction pre as [|a pre IH]; intros H; [exact H|]. apply IH. destruct pre as [|b pre]; cbn [app] in *.
  - destruct l; cbn in *; tauto.
  - cbn [gaps_at_most] in H. exact (proj2 H).
Qed.

Lemma loss_bounded sr now k x rest y out q' b' now' P : 0 < sr -> 0 <= P ->
  Forall (fun z => ts_nan z = false) (x :: rest) -> gaps_at_most P (x :: rest) ->
  stream sr true now k (x :: rest) = Done (Some y :: out) q' b' now' ->
  snd y = snd x \/ snd y < now + P.
Proof.
  intros Hs HP Hnan Hg H. unfold stream in H.
  destruct (first_slot _ sr Hs true now k (x :: rest) _ _ _ _ _ ltac:(discriminate) H) as (pre & z & r & Hq & Hp & Hz & -> & Hny).
  destruct pre as [|p0 pre0] eqn:Epre.
  - cbn [app] in Hq. injection Hq as -> _. left; reflexivity.
  - rewrite <- Epre in *. destruct (exists_last (l := pre) ltac:(subst; discriminate)) as (pre' & w & Epre').
    right. rewrite Hq, Epre', <- app_assoc in Hg. cbn [app] in Hg.
    apply gaps_app in Hg. cbn [gaps_at_most] in Hg. destruct Hg as [Hg _].
    assert (snd w < now); [|lia].
    rewrite Forall_forall in Hp. destruct (Hp w) as [Hwn|Hwn]; [rewrite Epre'; apply in_app_iff; right; left; reflexivity| |exact Hwn].
    rewrite Forall_forall in Hnan. rewrite (Hnan w) in Hwn; [discriminate|].
    rewrite Hq, Epre'. rewrite !in_app_iff. left. right. left. reflexivity.
Qed.
