From Verif Require Import GoBase GoBaseFacts GoUtf8 WireModel InfoerModel InfoerSpec.
From Coq Require Import Permutation Sorted ZifyBool ZifyNat.
Local Open Scope Z_scope.
Ltac Zify.zify_post_hook ::= Z.div_mod_to_equations.

(** * Counting pauses *)

Lemma plays_at_app l t x : plays_at (l ++ [t]) x = if t_index t <=? x then t_playing t else plays_at l x.
Proof. unfold plays_at. rewrite fold_left_app. reflexivity. Qed.

Lemma plays_at_reset l x : (exists r, In r l /\ t_index r <= x) -> forall i j,
  fold_left (fun st p => if t_index p <=? x then t_playing p else st) l i
  = fold_left (fun st p => if t_index p <=? x then t_playing p else st) l j.
Proof.
  induction l as [|a l IH]; intros (r & Hin & Hr) i j; [destruct Hin|].
  cbn [fold_left]. destruct Hin as [->|Hin].
  - assert (E : t_index r <=? x = true) by lia. now rewrite E.
  - apply IH. eauto.
Qed.

(** paused samples as a sum *)
Lemma paused_nil l a b : b <= a -> paused_samples l a b = 0.
Proof. intros. unfold paused_samples. replace (Z.to_nat (b - a)) with O by lia. reflexivity. Qed.

Lemma paused_snoc l a b : a <= b ->
  paused_samples l a (b + 1) = paused_samples l a b + (if plays_at l b then 0 else 1).
Proof.
  intros H. unfold paused_samples.
  replace (Z.to_nat (b + 1 - a)) with (S (Z.to_nat (b - a))) by lia.
  rewrite seq_S, filter_app, zlen_app. cbn [filter plus].
  replace (a + Z.of_nat (0 + Z.to_nat (b - a))) with b by lia.
  replace (a + Z.of_nat (Z.to_nat (b - a))) with b by lia.
  destruct (plays_at l b); cbn [negb]; unfold zlen; cbn [length]; lia.
Qed.

Lemma paused_ext l l' a b :
  (forall x, a <= x < b -> plays_at l x = plays_at l' x) -> paused_samples l a b = paused_samples l' a b.
Proof.
  intros H. unfold paused_samples. f_equal. apply filter_ext_in. intros i Hi.
  apply in_seq in Hi. rewrite H; [reflexivity|lia].
Qed.

Lemma filter_len {A} (f : A -> bool) l : (length (filter f l) <= length l)%nat.
Proof. induction l as [|a l IH]; cbn; [lia|]. destruct (f a); cbn; lia. Qed.

Lemma paused_range l a b : a <= b -> 0 <= paused_samples l a b <= b - a.
Proof.
  intros H. unfold paused_samples, zlen.
  pose proof (filter_len (fun i => negb (plays_at l (a + Z.of_nat i))) (seq 0 (Z.to_nat (b - a)))) as L.
  rewrite seq_length in L. lia.
Qed.

(** constant stretch *)
Lemma paused_const l a b c v : a <= b -> b <= c ->
  (forall x, b <= x < c -> plays_at l x = v) ->
  paused_samples l a c = paused_samples l a b + (if v then 0 else c - b).
Proof.
  intros Hab Hbc. pattern c. revert c Hbc. apply (Zlt_lower_bound_ind _ b).
  intros c IH Hc Hv. destruct (Z.eq_dec c b) as [->|Hne].
  - destruct v; lia.
  - replace c with (c - 1 + 1) at 1 by lia. rewrite paused_snoc by lia.
    rewrite (IH (c - 1)) by (intros; try apply Hv; lia).
    rewrite (Hv (c - 1)) by lia. destruct v; lia.
Qed.

Definition below (l : list toggle) (s : Z) : Prop := Forall (fun t => t_index t <= s) l.

Lemma plays_at_above l t x : t_index t <= x -> plays_at (l ++ [t]) x = t_playing t.
Proof. intros. rewrite plays_at_app. destruct (Z.leb_spec (t_index t) x); [reflexivity|lia]. Qed.
Lemma plays_at_under l t x : x < t_index t -> plays_at (l ++ [t]) x = plays_at l x.
Proof. intros. rewrite plays_at_app. destruct (Z.leb_spec (t_index t) x); [lia|reflexivity]. Qed.

Lemma paused_app l t a s : a <= s -> t_index t <= s ->
  paused_samples (l ++ [t]) a s
  = paused_samples l a (Z.max (t_index t) a) + (if t_playing t then 0 else s - Z.max (t_index t) a).
Proof.
  intros H1 H2.
  rewrite (paused_const (l ++ [t]) a (Z.max (t_index t) a) s (t_playing t)) by (try lia; intros; apply plays_at_above; lia).
  f_equal. apply paused_ext. intros x Hx. apply plays_at_under. lia.
Qed.

Lemma plays_at_beyond l s x y : below l s -> s <= x -> s <= y -> plays_at l x = plays_at l y.
Proof.
  intros H Hx Hy. induction l as [|t l IH] using rev_ind; [reflexivity|].
  apply Forall_app in H as [H1 H2]. apply Forall_cons_iff in H2 as [H2 _]. rewrite !plays_at_above by lia. reflexivity.
Qed.

Lemma to_uint64_id z : 0 <= z < 2 ^ 64 -> to_uint64 z = z.
Proof. intros. unfold to_uint64. apply Z.mod_small. lia. Qed.

Lemma w64 z : - 2 ^ 63 <= z < 2 ^ 63 -> wrap64 z = z.
Proof. apply wrap64_id. Qed.

Lemma StronglySorted_snoc {A} (R : A -> A -> Prop) l x :
  StronglySorted R (l ++ [x]) <-> StronglySorted R l /\ Forall (fun a => R a x) l.
Proof.
  induction l as [|a l IH]; cbn.
  - split; [intros; split; constructor|intros; repeat constructor].
  - split.
    + intros H. inversion H as [|? ? H1 H2]; subst. apply IH in H1 as [H1 H3].
      apply Forall_app in H2 as [H2 H4]. apply Forall_cons_iff in H4 as [H4 _]. split; constructor; auto.
    + intros [H H']. inversion H; subst. inversion H'; subst. constructor; [apply IH; auto|].
      apply Forall_app. auto.
Qed.

Lemma StronglySorted_app {A} (R : A -> A -> Prop) l l' :
  StronglySorted R (l ++ l') -> StronglySorted R l /\ StronglySorted R l' /\ (forall a b, In a l -> In b l' -> R a b).
Proof.
  induction l as [|a l IH]; cbn; intros H.
  - repeat split; [constructor|auto|intros ? ? []].
  - inversion H as [|? ? H1 H2]; subst. destruct (IH H1) as (I1 & I2 & I3). apply Forall_app in H2 as [H2 H3].
    repeat split; auto.
    + constructor; auto.
    + intros x y [<-|Hx] Hy; [|auto]. rewrite Forall_forall in H3. auto.
Qed.

(** the state after the toggles below [sample] *)
Lemma count_invariant sample start l :
  0 <= start <= sample -> sample < 2 ^ 63 ->
  sorted_toggles l -> Forall (fun t => index_ok (t_index t)) l ->
  Forall (fun t => t_index t < sample) l ->
  let st := fold_left (handle_pause sample start) l {| ps_playing := true; ps_pauses := 0; ps_begin := 0 |} in
  (forall s, below l s -> ps_playing st = plays_at l s) /\
  (ps_playing st = true -> 0 <= ps_pauses st <= sample) /\
  (ps_playing st = false -> 0 <= ps_begin st < sample /\
       (exists y, In y l /\ t_index y = ps_begin st) /\
       (start <= ps_begin st -> 0 <= ps_pauses st <= ps_begin st - start) /\ (ps_begin st < start -> ps_pauses st = ps_begin st - start)) /\
  (forall s, start <= s -> below l s ->
     paused_samples l start s = if ps_playing st then ps_pauses st else ps_pauses st + (s - ps_begin st)).
Proof.
  intros Hss Hmax. induction l as [|t l IH] using rev_ind; intros Hs Hi Hlt.
  - cbn. repeat split; intros; try lia; try discriminate.
    unfold paused_samples. rewrite (filter_ext _ (fun _ => false)) by reflexivity.
    induction (seq 0 _); cbn; auto.
  - apply StronglySorted_snoc in Hs as [Hs Hle]. apply Forall_app in Hi as [Hi Hti].
    apply Forall_cons_iff in Hti as [Hti _]. apply Forall_app in Hlt as [Hlt Htl]. apply Forall_cons_iff in Htl as [Htl _].
    specialize (IH Hs Hi Hlt). rewrite fold_left_app. cbn [fold_left].
    set (st := fold_left _ _ _) in *. cbn zeta in IH. destruct IH as (IHp & IHb & IHc & IHs).
    unfold index_ok in Hti.
    assert (Hbl : below l (t_index t)) by (apply Hle).
    unfold handle_pause. rewrite to_uint64_id by lia. rewrite (w64 (t_index t)) by lia. rewrite (w64 start) by lia.
    assert (E : sample <=? t_index t = false) by lia. rewrite E. cbn [orb].
    destruct (Bool.eqb (ps_playing st) (t_playing t)) eqn:Eb.
    + apply eqb_prop in Eb. cbn zeta. split; [|split; [|split]].
      * intros s Hs'. apply Forall_app in Hs' as [Hs1 Hs2]. apply Forall_cons_iff in Hs2 as [Hs2 _].
        rewrite plays_at_above by lia. auto.
      * auto.
      * intros Hf. destruct (IHc Hf) as (A1 & (y & Hy & Ey) & A3 & A4). split; [lia|]. split; [|split; lia].
        exists y. split; [apply in_or_app; auto|auto].
      * intros s Hs1 Hs2. apply Forall_app in Hs2 as [Hs2 Hs3]. apply Forall_cons_iff in Hs3 as [Hs3 _].
        rewrite paused_app by lia.
        destruct (Z.max_spec (t_index t) start) as [[M ->]|[M ->]].
        -- rewrite (paused_nil l start start) by lia. rewrite <- Eb. rewrite <- (IHs s Hs1 Hs2).
           rewrite (paused_const l start start s (ps_playing st)); [rewrite paused_nil by lia; reflexivity|lia|lia|].
           intros x Hx. rewrite (plays_at_beyond l (t_index t) x (t_index t)) by (auto; lia). symmetry. auto.
        -- rewrite (IHs (t_index t)) by (auto; lia). rewrite <- Eb. destruct (ps_playing st); lia.
    + apply eqb_false_iff in Eb. cbn zeta. cbn [ps_playing ps_pauses ps_begin].
      split; [|split; [|split]].
      * intros s Hs'. apply Forall_app in Hs' as [Hs1 Hs2]. apply Forall_cons_iff in Hs2 as [Hs2 _].
        rewrite plays_at_above by lia. auto.
      * intros Hp. rewrite Hp in *. destruct (ps_playing st) eqn:Ep; [congruence|].
        destruct (IHc eq_refl) as (A1 & (y & Hy & Ey) & A3 & A4).
        pose proof (proj1 (Forall_forall _ _) Hbl y Hy) as A5. cbn beta in A5.
        pose proof (IHs (Z.max (t_index t) start)) as P.
        assert (Hb2 : below l (Z.max (t_index t) start)) by (eapply Forall_impl; [|exact Hbl]; cbn; intros; lia).
        specialize (P (Z.le_max_r _ _) Hb2).
        pose proof (paused_range l start (Z.max (t_index t) start) (Z.le_max_r _ _)) as R.
        destruct (t_index t <? start) eqn:Ei; [lia|].
        rewrite (w64 (_ - _)) by lia. rewrite Z.max_l in * by lia. rewrite w64 by lia. lia.
      * intros Hp. rewrite Hp in *. destruct (ps_playing st) eqn:Ep; [|congruence]. specialize (IHb eq_refl).
        split; [lia|]. split.
        -- exists t. split; [apply in_or_app; cbn; auto|reflexivity].
        -- split; intros Hst.
           ++ assert (t_index t <? start = false) as -> by lia.
              pose proof (IHs (t_index t) ltac:(lia) Hbl) as P.
              pose proof (paused_range l start (t_index t) ltac:(lia)). lia.
           ++ assert (t_index t <? start = true) as -> by lia. rewrite w64 by lia. lia.
      * intros s Hs1 Hs2. apply Forall_app in Hs2 as [Hs2 Hs3]. apply Forall_cons_iff in Hs3 as [Hs3 _].
        rewrite paused_app by lia.
        assert (Hb2 : below l (Z.max (t_index t) start)) by (eapply Forall_impl; [|exact Hbl]; cbn; intros; lia).
        pose proof (IHs (Z.max (t_index t) start) (Z.le_max_r _ _) Hb2) as P.
        pose proof (paused_range l start (Z.max (t_index t) start) (Z.le_max_r _ _)) as R.
        destruct (t_playing t) eqn:Et.
        -- destruct (ps_playing st) eqn:Ep; [congruence|]. destruct (IHc eq_refl) as (A1 & (y & Hy & Ey) & A3 & A4).
        pose proof (proj1 (Forall_forall _ _) Hbl y Hy) as A5. cbn beta in A5.
           destruct (t_index t <? start) eqn:Ei.
           ++ rewrite Z.max_r by lia. rewrite paused_nil by lia. lia.
           ++ rewrite Z.max_l in * by lia. rewrite (w64 (_ - _)) by lia. rewrite w64 by lia. lia.
        -- destruct (ps_playing st) eqn:Ep; [|congruence].
           destruct (t_index t <? start) eqn:Ei.
           ++ rewrite Z.max_r by lia. rewrite paused_nil by lia. rewrite w64 by lia. lia.
           ++ rewrite Z.max_l in * by lia. lia.
Qed.

Lemma plays_at_app_under l l' x : Forall (fun t => x < t_index t) l' -> plays_at (l ++ l') x = plays_at l x.
Proof.
  revert l. induction l' as [|t l' IH]; intros l H; [now rewrite app_nil_r|].
  inversion H; subst. change (t :: l') with ([t] ++ l'). rewrite app_assoc, IH by auto. now apply plays_at_under.
Qed.

Lemma handle_pause_beyond sample start l st : 0 <= sample < 2 ^ 63 -> Forall (fun t => sample <= t_index t) l ->
  fold_left (handle_pause sample start) l st = st.
Proof.
  intros Hs. revert st. induction l as [|t l IH]; intros st H; [reflexivity|].
  inversion H; subst. cbn [fold_left]. unfold handle_pause at 2. rewrite to_uint64_id by lia.
  assert (E : sample <=? t_index t = true) by lia. rewrite E. cbn. apply IH. auto.
Qed.

Lemma sorted_split l s : sorted_toggles l -> exists l1 l2, l = l1 ++ l2 /\
  Forall (fun t => t_index t < s) l1 /\ Forall (fun t => s <= t_index t) l2.
Proof.
  induction l as [|t l IH]; intros H; [exists [], []; repeat constructor|].
  inversion H as [|? ? H1 H2]; subst. destruct (Z.lt_ge_cases (t_index t) s).
  - destruct (IH H1) as (l1 & l2 & -> & F1 & F2). exists (t :: l1), l2. repeat split; auto.
  - exists [], (t :: l). repeat split; auto. constructor; [auto|]. eapply Forall_impl; [|exact H2]. cbn. intros; lia.
Qed.

Lemma pauses_in_song_right sample start l :
  0 <= start <= sample -> sample < 2 ^ 63 -> sorted_toggles l -> Forall (fun t => index_ok (t_index t)) l ->
  pauses_in_song sample start l = (paused_samples l start sample, plays_at l (sample - 1)).
Proof.
  intros Hs Hm Hl Hi. destruct (sorted_split l sample Hl) as (l1 & l2 & -> & F1 & F2).
  unfold pauses_in_song. rewrite fold_left_app. rewrite handle_pause_beyond by (auto; lia).
  apply StronglySorted_app in Hl as (Hl & _ & _). apply Forall_app in Hi as [Hi _].
  pose proof (count_invariant sample start l1 Hs Hm Hl Hi F1) as Inv. cbn zeta in Inv.
  set (st := fold_left _ _ _) in *. destruct Inv as (Ip & Ib & Ic & Is).
  assert (B1 : below l1 (sample - 1)) by (eapply Forall_impl; [|exact F1]; cbn; intros; lia).
  assert (B2 : below l1 sample) by (eapply Forall_impl; [|exact F1]; cbn; intros; lia).
  rewrite (plays_at_app_under l1 l2) by (eapply Forall_impl; [|exact F2]; cbn; intros; lia).
  rewrite (paused_ext (l1 ++ l2) l1) by (intros x Hx; apply plays_at_app_under; eapply Forall_impl; [|exact F2]; cbn; intros; lia).
  rewrite (Is sample) by (auto; lia). rewrite <- (Ip (sample - 1)) by auto.
  pose proof (paused_range l1 start sample ltac:(lia)) as R. rewrite (Is sample) in R by (auto; lia).
  destruct (ps_playing st); [reflexivity|].
  destruct (Ic eq_refl) as (A1 & _ & A3 & A4). rewrite (w64 (_ - _)) by lia. rewrite w64 by lia. reflexivity.
Qed.

(** * Songs *)

Lemma find_song_right sample l : Forall (fun s => index_ok (startIndex s)) l ->
  StronglySorted (fun a b => startIndex b <= startIndex a) l ->
  right_song sample l (find_song sample l).
Proof.
  induction l as [|s l IH]; intros Hi Hs; [right; split; [reflexivity|intros ? []]|].
  inversion Hi as [|? ? Hi1 Hi2]; subst. inversion Hs as [|? ? Hs1 Hs2]; subst. cbn [find_song].
  unfold index_ok in Hi1. rewrite w64 by lia. destruct (startIndex s <? sample) eqn:E.
  - left. split; [now left|]. split; [lia|]. intros s' [<-|Hin] Hlt; [lia|].
    rewrite Forall_forall in Hs2. auto.
  - destruct (IH Hi2 Hs1) as [(A & B & C)|(A & B)].
    + left. split; [now right|]. split; [auto|]. intros s' [<-|Hin] Hlt; [lia|auto].
    + right. split; [auto|]. intros s' [<-|Hin]; [lia|auto].
Qed.

Lemma StronglySorted_rev {A} (R : A -> A -> Prop) l : StronglySorted R l -> StronglySorted (fun a b => R b a) (rev l).
Proof.
  induction l as [|a l IH]; intros H; [constructor|]. inversion H as [|? ? H1 H2]; subst. cbn.
  apply StronglySorted_snoc. split; [auto|]. apply Forall_forall. intros x Hx. apply in_rev in Hx.
  rewrite Forall_forall in H2. auto.
Qed.

Lemma current_song_right sample l : Forall (fun s => index_ok (startIndex s)) l ->
  StronglySorted (fun a b => startIndex a <= startIndex b) l ->
  right_song sample l (current_song sample l).
Proof.
  intros Hi Hs. unfold current_song.
  assert (H : right_song sample (rev l) (find_song sample (rev l))).
  { apply find_song_right; [now apply Forall_rev|]. apply (StronglySorted_rev _ l Hs). }
  destruct H as [(A & B & C)|(A & B)].
  - left. split; [now apply in_rev|]. split; [auto|]. intros s' Hin. apply C. now apply in_rev in Hin.
  - right. split; [auto|]. intros s' Hin. apply B. now apply in_rev in Hin.
Qed.

Lemma right_song_perm sample l l' s : Permutation l l' -> right_song sample l s -> right_song sample l' s.
Proof.
  intros P [(A & B & C)|(A & B)].
  - left. split; [now apply (Permutation_in _ P)|]. split; [auto|]. intros s' Hin. apply C.
    now apply (Permutation_in _ (Permutation_sym P)).
  - right. split; [auto|]. intros s' Hin. apply B. now apply (Permutation_in _ (Permutation_sym P)).
Qed.

(** * Chunks *)

Lemma end_time_right sr c : 0 < sr -> chunk_ok c -> end_time sr c = chunk_end sr c.
Proof.
  intros Hsr (H1 & H2 & H3 & H4). unfold end_time, chunk_length, chunk_end, go_div, second in *.
  assert (L : 0 <= c_size c * 1000000000 / sr <= c_size c * 1000000000).
  { split; [apply Z.div_pos; lia|]. apply Z.div_le_upper_bound; [lia|]. nia. }
  rewrite (w64 (c_size c)) by lia. rewrite (w64 (c_size c * _)) by lia.
  rewrite Z.quot_div_nonneg by lia. rewrite w64 by lia. reflexivity.
Qed.

Lemma sample_at_right sr now c l : 0 < sr -> chunk_ok c -> near sr now c -> now <= chunk_end sr c ->
  sample_at sr now (c :: l) = position sr now c.
Proof.
  intros Hsr (H1 & H2 & H3 & H4) Hn He. unfold near in Hn. specialize (Hn He). clear He. unfold sample_at, position, go_div, second.
  assert (B : Z.abs (now - c_startTime c) < 2 ^ 62) by nia.
  assert (B2 : Z.abs ((now - c_startTime c) * sr) < 2 ^ 62) by (rewrite Z.abs_mul, (Z.abs_eq sr); lia).
  rewrite (w64 (now - _)) by lia. rewrite (w64 (_ * sr)) by lia. rewrite (w64 (c_startIndex c)) by lia.
  set (x := (now - c_startTime c) * sr) in *.
  assert (Q : Z.abs (Z.quot x 1000000000) <= Z.abs x).
  { rewrite <- Z.quot_abs by lia. rewrite Z.quot_div_nonneg by lia. cbn [Z.abs].
    apply Z.div_le_upper_bound; [lia|]. lia. }
  rewrite w64 by lia. reflexivity.
Qed.

Lemma remove_old_chunks_spec sr now l : exists r, l = r ++ remove_old_chunks sr now l
  /\ Forall (fun c => end_time sr c < now) r
  /\ (match remove_old_chunks sr now l with [] => True | c :: _ => now <= end_time sr c end).
Proof.
  induction l as [|c l (r & E & F & G)]; [exists []; repeat constructor|].
  cbn [remove_old_chunks]. destruct (now <=? end_time sr c) eqn:Ec.
  - exists []. repeat split; [constructor|lia].
  - exists (c :: r). cbn. split; [now f_equal|]. split; [constructor; [lia|auto]|auto].
Qed.

Lemma right_sample_perm sr now l l' s : Permutation l l' -> right_sample sr now l s -> right_sample sr now l' s.
Proof.
  intros P [(A & B)|(c & A & B & C & D)].
  - left. split; [auto|]. intros c Hc. apply B. now apply (Permutation_in _ (Permutation_sym P)).
  - right. exists c. split; [now apply (Permutation_in _ P)|]. repeat split; auto.
    intros c' Hc. apply D. now apply (Permutation_in _ (Permutation_sym P)).
Qed.

Lemma sample_read_right sr now r l : 0 < sr -> Forall chunk_ok (r ++ l) ->
  Forall (near sr now) l ->
  Forall (fun c => chunk_end sr c < now) r ->
  StronglySorted (fun a b => c_startIndex a <= c_startIndex b) l ->
  right_sample sr now (r ++ l) (sample_at sr now (remove_old_chunks sr now l)).
Proof.
  intros Hsr Hok Hn Hr Hs. destruct (remove_old_chunks_spec sr now l) as (p & E & F & G).
  set (k := remove_old_chunks sr now l) in *. clearbody k. subst l. apply Forall_app in Hok as [Hok1 Hok2].
  apply Forall_app in Hok2 as [Hok2 Hok3]. apply Forall_app in Hn as [_ Hn].
  apply StronglySorted_app in Hs as (_ & Hs & _).
  assert (Ended : forall c, In c (r ++ p) -> chunk_end sr c < now).
  { intros c Hc. apply in_app_iff in Hc as [Hc|Hc].
    - rewrite Forall_forall in Hr. auto.
    - rewrite Forall_forall in F, Hok2. rewrite <- end_time_right by auto. auto. }
  destruct k as [|c k].
  - left. split; [reflexivity|]. rewrite app_nil_r. auto.
  - inversion Hok3 as [|? ? K1 K2]; subst. inversion Hn as [|? ? N1 N2]; subst.
    rewrite end_time_right in G by auto. right. exists c.
    split; [apply in_or_app; right; apply in_or_app; right; now left|]. split; [auto|].
    split; [now apply sample_at_right|].
    intros c' Hc' Hne. rewrite app_assoc in Hc'. apply in_app_iff in Hc' as [Hc'|[<-|Hc']].
    + specialize (Ended c' Hc'). lia.
    + lia.
    + inversion Hs as [|? ? S1 S2]; subst. rewrite Forall_forall in S2. auto.
Qed.

(** * Forgetting pauses *)

Definition ins (x : toggle) : list toggle -> list toggle :=
  fix ins l := match l with
               | [] => [x]
               | y :: r => if t_index x <=? t_index y then x :: l else y :: ins r
               end.

Lemma ins_perm x l : Permutation (x :: l) (ins x l).
Proof.
  induction l as [|y l IH]; cbn; [reflexivity|]. destruct (t_index x <=? t_index y); [reflexivity|].
  rewrite perm_swap. now constructor.
Qed.

Lemma ins_sorted x l : sorted_toggles l -> sorted_toggles (ins x l).
Proof.
  induction l as [|y l IH]; intros H; [repeat constructor|]. cbn.
  inversion H as [|? ? H1 H2]; subst. destruct (t_index x <=? t_index y) eqn:E.
  - constructor; [auto|]. constructor; [lia|]. eapply Forall_impl; [|exact H2]. cbn; intros; lia.
  - constructor; [now apply IH|]. apply (Permutation_Forall (ins_perm x l)). constructor; [lia|auto].
Qed.

Lemma ins_plays x l y : sorted_toggles l ->
  (exists r, In r l /\ t_index x <= t_index r /\ t_index r <= y) -> plays_at (ins x l) y = plays_at l y.
Proof.
  unfold plays_at. generalize true as b. induction l as [|z l IH]; intros b Hs (r & Hin & H1 & H2); [destruct Hin|].
  cbn [ins]. destruct (t_index x <=? t_index z) eqn:E.
  - change (x :: z :: l) with ([x] ++ z :: l). rewrite fold_left_app. apply plays_at_reset. exists r. split; auto.
  - cbn [fold_left]. apply IH; [now inversion Hs|]. exists r. split; [|auto]. destruct Hin as [->|]; [lia|auto].
Qed.

Definition merge (r l : list toggle) : list toggle := fold_right ins l r.

Lemma merge_perm r l : Permutation (r ++ l) (merge r l).
Proof. induction r as [|x r IH]; cbn; [reflexivity|]. rewrite <- ins_perm. now constructor. Qed.
Lemma merge_sorted r l : sorted_toggles l -> sorted_toggles (merge r l).
Proof. intros H. induction r as [|x r IH]; cbn; [auto|]. now apply ins_sorted. Qed.
Lemma merge_plays r l y k : sorted_toggles l -> In k l -> t_index k <= y ->
  Forall (fun t => t_index t <= t_index k) r -> plays_at (merge r l) y = plays_at l y.
Proof.
  intros Hs Hk Hy Hr. induction r as [|x r IH]; [reflexivity|]. inversion Hr; subst. cbn [merge fold_right].
  rewrite ins_plays; [now apply IH|now apply merge_sorted|].
  exists k. split; [|auto]. apply (Permutation_in _ (merge_perm r l)). apply in_or_app; auto.
Qed.

(** [kept bound received l]: [l] is what is left of [received]; everything forgotten lies at
    or before a remaining toggle below [bound]. *)
Definition kept (bound : Z) (all l : list toggle) : Prop :=
  exists r, Permutation all (r ++ l) /\ sorted_toggles l /\
    (r = [] \/ exists k, In k l /\ t_index k < bound /\ Forall (fun t => t_index t <= t_index k) r).

Lemma kept_mono b b' all l : b <= b' -> kept b all l -> kept b' all l.
Proof.
  intros H (r & P & S & [->|(k & K1 & K2 & K3)]); exists r || exists []; (split; [auto|]; split; [auto|]).
  - now left.
  - right. exists k. repeat split; auto. lia.
Qed.

Lemma kept_stored b all l x l' : kept b all l -> stored t_index l x l' -> kept b (all ++ [x]) l'.
Proof.
  intros (r & P & S & H) [Pl Sl]. exists r. split.
  - rewrite P, <- app_assoc, Pl. reflexivity.
  - split; [exact Sl|]. destruct H as [->|(k & K1 & K2 & K3)]; [now left|]. right. exists k.
    split; [apply (Permutation_in _ Pl); apply in_or_app; auto|auto].
Qed.

Lemma last_resume_spec start l i p : 
  last_resume start l i p = p \/ exists n x, nth_error l n = Some x /\ last_resume start l i p = (i + n)%nat
     /\ t_playing x = true /\ t_index x < start.
Proof.
  revert i p. induction l as [|x l IH]; intros i p; [now left|]. cbn [last_resume].
  destruct (IH (S i) (if t_playing x && (t_index x <? start) then i else p)) as [E|(n & y & H1 & H2 & H3 & H4)].
  - rewrite E. destruct (t_playing x && (t_index x <? start)) eqn:E2; [|now left].
    apply andb_prop in E2 as [E2 E3]. right. exists O, x. repeat split; [lia|auto|lia].
  - right. exists (S n), y. repeat split; auto. lia.
Qed.

Lemma kept_prune b all l start : kept b all l -> kept (Z.max b start) all (remove_old_pauses start l).
Proof.
  intros (r & P & S & H). unfold remove_old_pauses.
  destruct (last_resume_spec start l 0 0) as [->|(n & x & Hn & -> & Hp & Hx)].
  - cbn [skipn]. apply (kept_mono b); [lia|]. exists r. auto.
  - cbn [plus]. rewrite <- (firstn_skipn n l) in P, S. apply StronglySorted_app in S as (S1 & S2 & S3).
    assert (Hin : In x (skipn n l)).
    {
      apply nth_error_split in Hn as (l1 & l2 & E & L). rewrite E, skipn_app. apply in_or_app. right.
      replace (n - length l1)%nat with O by lia. now left. }
    exists (r ++ firstn n l). split; [now rewrite <- app_assoc|]. split; [exact S2|]. right.
    assert (Q1 : Forall (fun t => t_index t <= t_index x) (firstn n l)).
    { apply Forall_forall. intros t Ht. now apply S3. }
    destruct H as [->|(k & K1 & K2 & K3)].
    + exists x. repeat split; auto. lia.
    + rewrite <- (firstn_skipn n l) in K1. apply in_app_iff in K1 as [K1|K1].
      * exists x. split; [auto|]. split; [lia|]. apply Forall_app. split; [|auto].
        eapply Forall_impl; [|exact K3]. cbn. intros t Ht. specialize (S3 k x K1 Hin). cbn in S3. lia.
      * destruct (Z.le_ge_cases (t_index k) (t_index x)).
        -- exists x. split; [auto|]. split; [lia|]. apply Forall_app. split; [|auto].
           eapply Forall_impl; [|exact K3]. cbn. intros; lia.
        -- exists k. split; [auto|]. split; [lia|]. apply Forall_app. split; [auto|].
           eapply Forall_impl; [|exact Q1]. cbn. intros; lia.
Qed.

Lemma kept_count start sample all l : 0 <= start <= sample -> sample < 2 ^ 63 -> (start < sample \/ sample = 0) ->
  Forall (fun t => index_ok (t_index t)) all -> kept start all l ->
  exists order, Permutation all order /\ sorted_toggles order /\
    pauses_in_song sample start l = (paused_samples order start sample, plays_at order (sample - 1)).
Proof.
  intros Hs Hm Hc Hi (r & P & S & H). exists (merge r l). split; [now rewrite <- merge_perm|].
  split; [now apply merge_sorted|].
  assert (Hl : Forall (fun t => index_ok (t_index t)) l).
  { apply (Permutation_Forall P) in Hi. now apply Forall_app in Hi as [_ Hi]. }
  rewrite pauses_in_song_right by auto. destruct H as [->|(k & K1 & K2 & K3)]; [reflexivity|].
  assert (Hk : 0 <= t_index k) by (rewrite Forall_forall in Hl; apply Hl in K1; unfold index_ok in K1; lia).
  f_equal.
  - apply paused_ext. intros x Hx. symmetry. apply (merge_plays r l x k); auto. lia.
  - destruct Hc as [Hc|Hc]; [|lia]. symmetry. apply (merge_plays r l _ k); auto. lia.
Qed.
