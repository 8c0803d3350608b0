(** Proofs for C130. *)
From Verif Require Import GoBase GoBaseFacts PlaylistModel PlaylistSpec PlaylistProofs PlaylistLoopProofs PlayerModel PlayerSpec E2EModel E2ESpec ProgrammeSpec.
Local Open Scope Z_scope.

Lemma audible_app a b : audible (a ++ b) = audible a ++ audible b.
Proof. apply filter_app. Qed.
Lemma audible_nan c : audible (nan_samples c) = [].
Proof. unfold nan_samples. induction (Z.to_nat c) as [|n IH]; [reflexivity|]. exact IH. Qed.

Lemma audible_gap c : audible (stream_of [EGap (nan_samples c)]) = [].
Proof. unfold stream_of, flat_map, samples_of_event. rewrite audible_app, audible_nan. reflexivity. Qed.
Lemma audible_filler c : audible (stream_of [EBlock (nan_samples c)]) = [].
Proof. unfold stream_of, flat_map, samples_of_event. rewrite audible_app, audible_nan. reflexivity. Qed.
Lemma announced_gap l : announced [EGap l] = [].
Proof. reflexivity. Qed.
Lemma announced_block l : announced [EBlock l] = [].
Proof. reflexivity. Qed.
Lemma stream_block l : stream_of [EBlock l] = l.
Proof. unfold stream_of, flat_map, samples_of_event. apply app_nil_r. Qed.

Section P.
Variable decode : song -> option (list sample).
Variable nan_break : Z.
Local Notation pstep := (pstep decode nan_break).
Local Notation prun := (prun decode nan_break).

(** [nj]: nobody jumps *)
Definition ended (nj : bool) := if nj then whole decode else beginning decode.
Definition now_at (p : pc) (cur : list song) (part : list sample) : Prop :=
  match p with
  | InSong r | TogStore r | TogCall r | BlockRead r => exists f, cur = [f] /\ decode f = Some (part ++ r)
  | Checking r n ok => (exists f, cur = [f] /\ decode f = Some (part ++ r)) /\ ((n < streamer_buffer_size)%nat -> r = []) /\ (ok = false -> r = [])
  | Crashed => (cur = [] /\ part = []) \/ exists f, cur = [f] /\ beginning decode f part
  | _ => cur = [] /\ part = []
  end.
Definition InvP (nj : bool) (s : pstate) (es : list event) : Prop :=
  (forall f, at_pc s = Opening f -> current_song s = f) /\ (nj = true -> tokens s = 0%nat /\ pending_jumps s = 0%nat) /\
  exists fs ps cur part,
    announced es = fs ++ cur /\ audible (stream_of es) = audible (concat ps ++ part) /\
    Forall2 (ended nj) fs ps /\ now_at (at_pc s) cur part.
Definition allowed (nj : bool) (a : action) : Prop := nj = true -> is_jump a = false.

Lemma announced_app a b : announced (a ++ b) = announced a ++ announced b.
Proof. unfold announced. now rewrite new_songs_of_app, map_app. Qed.
Lemma now_beginning r part cur : (exists f, cur = [f] /\ decode f = Some (part ++ r)) -> exists f, cur = [f] /\ beginning decode f part.
Proof. intros (f & -> & D). exists f. split; [reflexivity|]. now exists r. Qed.

Lemma step_prog nj s es a s' e : InvP nj s es -> allowed nj a -> pstep s a = Some (s', e) -> InvP nj s' (es ++ e).
Proof.
  intros (Op & Tk & fs & ps & cur & part & Nm & Au & F & At) Al H. apply pstep_stepped in H.
  unfold InvP. rewrite announced_app, stream_of_app, audible_app.
  destruct H; (split; [intros f0 Hf; try (cbn in Hf; congruence)|split; [intro Hn; try (specialize (Tk Hn)); try (specialize (Al Hn)); cbn; try discriminate Al; try exact Tk; intuition lia|]]);
    try (cbn in Hf |- *; apply Op; exact Hf); try (cbn in Hf |- *; congruence);
    try match goal with E : at_pc s = _ |- _ => rewrite E in At; cbn [now_at] in At end.
  - exists fs, ps, cur, part. cbn. rewrite !app_nil_r. auto.
  - exists fs, ps, cur, part. unfold g. rewrite audible_gap, announced_gap, !app_nil_r. cbn [pushed set_position at_pc]. rewrite H. cbn [now_at]. auto.
  - exists fs, ps, cur, part. cbn. rewrite !app_nil_r. auto.
  - exists fs, ps, cur, part. cbn. rewrite !app_nil_r. auto.
  - destruct At as [-> ->]. exists fs, ps, [f], []. rewrite (Op f H). rewrite !app_nil_r in *. cbn. rewrite ?app_nil_r. repeat split; try congruence; eauto.
  - exists fs, ps, cur, part. cbn. rewrite !app_nil_r. auto.
  - exists fs, ps, cur, part. cbn. rewrite !app_nil_r. auto.
  - exists fs, ps, cur, part. cbn. rewrite !app_nil_r. auto.
  - exists fs, ps, cur, part. cbn. rewrite !app_nil_r. auto.
  - (* a block *)
    destruct At as (f & -> & D). exists fs, ps, [f], (part ++ blk). rewrite announced_block, stream_block, app_nil_r, Au.
    split; [exact Nm|]. split; [now rewrite !audible_app, app_assoc|]. split; [exact F|]. cbn [set_pc at_pc now_at]. split; [|split].
    + exists f. split; [reflexivity|]. unfold blk. rewrite <- app_assoc, firstn_skipn. exact D.
    + unfold blk. rewrite firstn_length. intro L. apply skipn_all2. lia.
    + unfold blk. rewrite firstn_length. intro L. apply skipn_all2. destruct (Nat.eqb_spec (Nat.min streamer_buffer_size (length r)) 0) as [Z|Z]; [|discriminate]. change streamer_buffer_size with 512%nat in *. lia.
  - (* filler *)
    exists fs, ps, cur, part. unfold g. rewrite audible_filler, announced_block, !app_nil_r. cbn [set_pc at_pc now_at].
    split; [exact Nm|split; [exact Au|split; [exact F|split; [exact At|split; [intro; lia|discriminate]]]]].
  - (* a jump *)
    destruct At as [At _]. destruct nj; [destruct (Tk eq_refl); lia|]. destruct (now_beginning _ _ _ At) as (f & -> & B).
    exists (fs ++ [f]), (ps ++ [part]), [], []. rewrite audible_gap, announced_gap, !app_nil_r. cbn [set_pc at_pc now_at].
    split; [exact Nm|split; [|split; [|auto]]]; [rewrite Au, concat_app; cbn; now rewrite app_nil_r|]. apply Forall2_app; [exact F|]. constructor; [exact B|constructor].
  - (* the end of the song *)
    destruct At as [(f & -> & D) [R1 R2]]. assert (R : r = []) by (destruct H1; auto). subst r. rewrite app_nil_r in D.
    exists (fs ++ [f]), (ps ++ [part]), [], []. rewrite audible_gap, announced_gap, !app_nil_r. cbn [set_pc at_pc now_at].
    split; [exact Nm|split; [|split; [|auto]]]; [rewrite Au, concat_app; cbn; now rewrite app_nil_r|]. apply Forall2_app; [exact F|]. constructor; [|constructor].
    destruct nj; [exact D|]. exists []. now rewrite app_nil_r.
  - exists fs, ps, cur, part. cbn. rewrite !app_nil_r. split; [exact Nm|split; [exact Au|split; [exact F|apply At]]].
  - exists fs, ps, cur, part. cbn. rewrite !app_nil_r. auto.
  - exists fs, ps, cur, part. cbn. rewrite !app_nil_r. auto.
  - exists fs, ps, cur, part. cbn. rewrite !app_nil_r. auto.
  - exists fs, ps, cur, part. cbn. rewrite !app_nil_r. split; [exact Nm|split; [exact Au|split; [exact F|]]].
    destruct (at_pc s); cbn [now_at] in At; try (left; exact At); try (right; exact (now_beginning _ _ _ At)); [right; exact (now_beginning _ _ _ (proj1 At))|exact At].
  - exists fs, ps, cur, part. cbn. rewrite !app_nil_r. auto.
Qed.
Lemma prog_run nj l acts s es : Forall (allowed nj) acts -> prun (new_playlist l) acts = Some (s, es) -> InvP nj s es.
Proof.
  intros A R. change es with ([] ++ es). eapply (prun_inv decode nan_break (InvP nj) (allowed nj)); [|..|exact A|exact R].
  - intros. eapply step_prog; eassumption.
  - split; [discriminate|]. split; [split; reflexivity|]. exists [], [], [], []. repeat split; constructor.
Qed.

(** ** Only what was put in *)
Lemma next_in l p pos f : next_song l p = Ok (pos, f) -> f <> [] -> In f l.
Proof.
  unfold next_song. intros H N. destruct (zlen l =? 0); [congruence|]. cbn zeta in H. unfold slice_get in H.
  destruct (go_mod p (zlen l) <? 0); [discriminate|]. destruct (nth_error l _) as [x|] eqn:E; cbn in H; [|discriminate].
  injection H as <- <-. eapply nth_error_In; eassumption.
Qed.
Lemma edit_in l e l' r f : list_edit l e l' r -> In f l' -> In f l \/ puts_in f (AEdit e).
Proof.
  intros H I. destruct H as [l s|l s i l' (a & b & -> & La & ->)|i|l i x l' Ne (a & b & -> & La & ->)].
  - apply in_app_iff in I as [I|[<-|[]]]; [auto|right; left; reflexivity].
  - apply in_app_iff in I as [I|[<-|I]]; [left; apply in_or_app; auto|right; right; eexists; reflexivity|left; apply in_or_app; auto].
  - contradiction.
  - left. apply in_app_iff in I as [I|I]; apply in_or_app; [auto|right; right; exact I].
Qed.
Lemma announced_from acts : forall s s' es f, (forall g, at_pc s = Opening g -> current_song s = g) ->
  prun s acts = Some (s', es) -> In f (announced es) -> at_pc s = Opening f \/ In f (songs s) \/ Exists (puts_in f) acts.
Proof.
  induction acts as [|a acts IH]; intros s s' es f Op R I; cbn [PlaylistModel.prun] in R; [injection R as <- <-; contradiction|].
  destruct (pstep s a) as [[s1 e1]|] eqn:St; [|discriminate]. destruct (prun s1 acts) as [[s2 e2]|] eqn:R2; [|discriminate]. injection R as <- <-.
  assert (Op1 : forall g, at_pc s1 = Opening g -> current_song s1 = g).
  { apply pstep_stepped in St. destruct St; intros g0 Hg; cbn in Hg |- *; try congruence; try (apply Op; exact Hg). }
  rewrite announced_app in I. apply in_app_iff in I as [I|I].
  - apply pstep_stepped in St. destruct St; cbn in I; try contradiction. destruct I as [<-|[]]. left. rewrite (Op f0 H). exact H.
  - destruct (IH s1 s2 e2 f Op1 R2 I) as [A|[A|A]]; [| |right; right; now constructor 2].
    + apply pstep_stepped in St. destruct St; cbn in A; try congruence; try (left; exact A). right; left. injection A as <-. eapply next_in; eassumption.
    + apply pstep_stepped in St. destruct St; cbn in A; try (right; left; exact A).
      destruct (edit_in _ _ _ _ f (apply_edit_list_edit _ _ _ _ H0) A) as [B|B]; [auto|right; right; now constructor 1].
Qed.

(** ** Undisturbed runs go through the whole programme *)
Lemma check_step s r n ok : at_pc s = Checking r n ok -> tokens s = 0%nat ->
  pstep s PCheck = if (negb ok || (n <? streamer_buffer_size)%nat)%bool
    then Some (set_pc (pushed (set_position s (position s + 1)) (nan_samples nan_break)) AtTop, [EGap (nan_samples nan_break)])
    else Some (set_pc s (InSong r), []).
Proof. intros Pc Tk. unfold PlaylistModel.pstep. rewrite Pc, Tk. reflexivity. Qed.
Lemma sound_song n : forall r s, (length r <= n)%nat -> at_pc s = InSong r -> playing s = true -> tokens s = 0%nat ->
  exists acts s' es, loops acts /\ prun s acts = Some (s', es) /\ at_pc s' = AtTop /\ playing s' = true /\ tokens s' = 0%nat /\
    songs s' = songs s /\ position s' = position s + 1 /\ audible (stream_of es) = audible r /\ announced es = [].
Proof.
  induction n as [n IH] using lt_wf_ind. intros r s L Pc Pl Tk.
  (* to the block *)
  assert (X : exists a s1 e1, loops a /\ prun s a = Some (s1, e1) /\ at_pc s1 = BlockRead r /\ playing s1 = true /\ tokens s1 = 0%nat /\
    songs s1 = songs s /\ position s1 = position s /\ stream_of e1 = [] /\ announced e1 = []).
  { destruct (Bool.eqb (playing s) (playing_last s)) eqn:B.
    - exists [PCmp]. eexists _, _. split; [repeat constructor|]. split; [cbn [PlaylistModel.prun]; unfold PlaylistModel.pstep; rewrite Pc, B; reflexivity|]. auto 10.
    - exists [PCmp; PTogStore; PTogCall]. eexists _, _. split; [repeat constructor|]. split; [cbn [PlaylistModel.prun]; unfold PlaylistModel.pstep at 1; rewrite Pc, B; reflexivity|]. auto 10. }
  destruct X as (a & s1 & e1 & La & Ra & Pc1 & Pl1 & Tk1 & Sg1 & Po1 & St1 & An1).
  set (blk := firstn streamer_buffer_size r).
  set (s2 := set_pc (pushed s1 blk) (Checking (skipn streamer_buffer_size r) (length blk) (negb (Nat.eqb (length blk) 0)))).
  assert (R2 : pstep s1 PBlock = Some (s2, [EBlock blk])) by (unfold PlaylistModel.pstep; rewrite Pc1, Pl1; reflexivity).
  destruct (negb (negb (Nat.eqb (length blk) 0)) || (length blk <? streamer_buffer_size)%nat)%bool eqn:E.
  - assert (Sk : skipn streamer_buffer_size r = []).
    { apply skipn_all2. unfold blk in E. rewrite firstn_length in E. change streamer_buffer_size with 512%nat in *.
      destruct (Nat.eqb_spec (Nat.min 512 (length r)) 0) as [Q|Q]; [lia|]. cbn [negb orb] in E. apply Nat.ltb_lt in E. lia. }
    exists (a ++ [PBlock; PCheck]). eexists _, _. split; [apply Forall_app; split; [exact La|repeat constructor]|].
    split; [rewrite (prun_app decode nan_break), Ra; cbn [PlaylistModel.prun]; rewrite R2, (check_step s2 _ _ _ eq_refl Tk1), E; reflexivity|].
    unfold s2. cbn [pushed set_pc set_position at_pc playing tokens songs position]. repeat split; try assumption; try congruence.
    2:{ rewrite announced_app, An1. reflexivity. }
    rewrite stream_of_app, St1. cbn [app]. change [EBlock blk; EGap (nan_samples nan_break)] with ([EBlock blk] ++ [EGap (nan_samples nan_break)]).
    rewrite stream_of_app, audible_app, audible_gap, stream_block, app_nil_r.
    unfold blk. rewrite <- (firstn_skipn streamer_buffer_size r) at 2. now rewrite Sk, app_nil_r.
  - assert (Lb : length blk = 512%nat).
    { unfold blk in *. rewrite firstn_length in *. change streamer_buffer_size with 512%nat in *. apply orb_false_iff in E. destruct E as [_ E]. apply Nat.ltb_ge in E. lia. }
    assert (Lr : (512 <= length r)%nat) by (unfold blk in Lb; rewrite firstn_length in Lb; change streamer_buffer_size with 512%nat in *; lia).
    set (s3 := set_pc s2 (InSong (skipn streamer_buffer_size r))).
    assert (R3 : pstep s2 PCheck = Some (s3, [])).
    { rewrite (check_step s2 _ _ _ eq_refl Tk1), E. reflexivity. }
    assert (Ls : length (skipn streamer_buffer_size r) = (length r - 512)%nat) by (rewrite skipn_length; reflexivity).
    destruct (IH (n - 512)%nat ltac:(lia) (skipn streamer_buffer_size r) s3 ltac:(lia) eq_refl Pl1 Tk1) as (b & s4 & e4 & Lb4 & R4 & Pc4 & Pl4 & Tk4 & Sg4 & Po4 & St4 & An4).
    exists (a ++ [PBlock; PCheck] ++ b), s4, (e1 ++ [EBlock blk] ++ e4).
    split; [apply Forall_app; split; [exact La|apply Forall_app; split; [repeat constructor|exact Lb4]]|].
    split; [rewrite (prun_app decode nan_break), Ra; cbn [app PlaylistModel.prun]; rewrite R2, R3, R4; reflexivity|].
    split; [exact Pc4|split; [exact Pl4|split; [exact Tk4|split; [rewrite Sg4; exact Sg1|split; [rewrite Po4; change (position s3) with (position s1); now rewrite Po1|split]]]]].
    2:{ rewrite !announced_app, An1, An4. reflexivity. }
    rewrite !stream_of_app, St1, stream_block. cbn [app]. rewrite audible_app, St4, <- audible_app. unfold blk. now rewrite firstn_skipn.
Qed.

Lemma programme_S l k : programme decode l (S k) = programme decode l k ++ match decode (cyclic_song l 0 (Z.of_nat k)) with Some c => c | None => [] end.
Proof. unfold programme, upto. rewrite seq_S, map_app, flat_map_app. cbn. now rewrite app_nil_r. Qed.

Lemma programme_run l k : l <> [] -> ~ In [] l -> exists acts s es, loops acts /\
  prun (new_playlist l) (ASetPlaying true :: acts) = Some (s, es) /\ at_pc s = AtTop /\ playing s = true /\ tokens s = 0%nat /\ songs s = l /\ 0 <= position s /\
  position s mod zlen l = Z.of_nat k mod zlen l /\ audible (stream_of es) = audible (programme decode l k).
Proof.
  intros Ne Ni. assert (Zp : 0 < zlen l) by now apply zlen_pos. induction k as [|k (acts & s & es & La & R & Pc & Pl & Tk & Sg & Po & Pm & St)].
  - exists []. eexists _, _. split; [constructor|]. split; [reflexivity|]. cbn. repeat split; lia.
  - set (f := cyclic_song l 0 (Z.of_nat k)).
    assert (Nf : f <> []) by now apply cyclic_nonempty.
    assert (Cf : cyclic_song (songs s) (position s) 0 = f) by (rewrite Sg; unfold f; apply cyclic_cong; rewrite Pm; now rewrite Z.add_0_l).
    set (s1 := set_pc (set_current (set_position s (position s mod zlen (songs s))) f) (Opening f)).
    assert (R1 : pstep s PNext = Some (s1, [])).
    { unfold PlaylistModel.pstep. rewrite Pc, next_song_nonneg, Cf by congruence. destruct f; [congruence|reflexivity]. }
    assert (Pm1 : (position s mod zlen (songs s) + 1) mod zlen l = Z.of_nat (S k) mod zlen l).
    { rewrite Sg, Zplus_mod_idemp_l. rewrite Nat2Z.inj_succ. unfold Z.succ. apply mod_succ. exact Pm. }
    assert (Po1 : 0 <= position s mod zlen (songs s)) by (rewrite Sg; apply Z.mod_pos_bound; lia).
    rewrite programme_S. fold f.
    change (ASetPlaying true :: acts) with ([ASetPlaying true] ++ acts) in R.
    destruct (decode f) as [c|] eqn:D.
    + set (s2 := set_pc s1 (InSong c)).
      assert (R2 : pstep s1 POpen = Some (s2, [ENewSong (idx_write s1) (current_song s1) (zlen c)])) by (unfold PlaylistModel.pstep; cbn [s1 set_pc at_pc]; rewrite D; reflexivity).
      destruct (sound_song (length c) c s2 (le_n _) eq_refl Pl Tk) as (b & s3 & e3 & Lb & R3 & Pc3 & Pl3 & Tk3 & Sg3 & Po3 & St3 & An3).
      exists (acts ++ [PNext; POpen] ++ b), s3, (es ++ [ENewSong (idx_write s1) (current_song s1) (zlen c)] ++ e3).
      split; [apply Forall_app; split; [exact La|apply Forall_app; split; [repeat constructor|exact Lb]]|].
      change (ASetPlaying true :: acts ++ [PNext; POpen] ++ b) with ([ASetPlaying true] ++ acts ++ [PNext; POpen] ++ b). rewrite app_assoc.
      split; [rewrite (prun_app decode nan_break), R; cbn [app PlaylistModel.prun]; rewrite R1, R2, R3; reflexivity|].
      rewrite Sg3. unfold s2, s1 in Po3. cbn [set_pc set_current set_position position] in Po3. rewrite Po3. unfold s2, s1. cbn [set_pc set_current set_position songs].
      repeat split; try assumption; [lia|].
      rewrite !stream_of_app, !audible_app. rewrite St, St3. reflexivity.
    + set (s2 := set_pc (set_position s1 (position s1 + 1)) AtTop).
      assert (R2 : pstep s1 POpen = Some (s2, [])) by (unfold PlaylistModel.pstep; cbn [s1 set_pc at_pc]; rewrite D; reflexivity).
      exists (acts ++ [PNext; POpen]), s2, (es ++ []).
      split; [apply Forall_app; split; [exact La|repeat constructor]|].
      change (ASetPlaying true :: acts ++ [PNext; POpen]) with ([ASetPlaying true] ++ acts ++ [PNext; POpen]). rewrite app_assoc.
      split; [rewrite (prun_app decode nan_break), R; cbn [app PlaylistModel.prun]; rewrite R1, R2; reflexivity|].
      unfold s2, s1. cbn [set_pc set_current set_position songs position at_pc playing tokens]. repeat split; try assumption; [lia|].
      rewrite !app_nil_r. exact St.
Qed.

(** ** The announced songs are a stretch of the programme *)
Lemma names_programme l k : forall fs ps, Forall2 (whole decode) fs ps -> fs = played_in_order decode l 0 k -> concat ps = programme decode l k.
Proof.
  induction k as [|k IH]; intros fs ps F E.
  - cbn in E. subst fs. inversion F. reflexivity.
  - rewrite (played_S decode) in E. rewrite programme_S. destruct (decode (cyclic_song l 0 (Z.of_nat k))) as [c|] eqn:D.
    + rewrite E in F. apply Forall2_app_inv_l in F. destruct F as (p1 & p2 & F1 & F2 & ->). inversion F2 as [|? x ? y W F3]; subst. inversion F3; subst.
      rewrite concat_app. cbn. rewrite app_nil_r. rewrite (IH _ _ F1 eq_refl). unfold whole in W. congruence.
    + rewrite app_nil_r in *. now apply (IH fs).
Qed.
Lemma programme_prefix l fs f ps p k : Forall2 (whole decode) fs ps -> fs ++ [f] = played_in_order decode l 0 k -> beginning decode f p ->
  exists rest, programme decode l k = concat ps ++ p ++ rest.
Proof.
  revert k. induction k as [|k IH]; intros F E B.
  - destruct fs; discriminate.
  - rewrite (played_S decode) in E. rewrite programme_S. destruct (decode (cyclic_song l 0 (Z.of_nat k))) as [c|] eqn:D.
    + apply app_inj_tail in E. destruct E as [E ->]. destruct B as [r B]. exists r. rewrite D in B. injection B as ->.
      now rewrite (names_programme l k fs ps F E).
    + rewrite app_nil_r in *. exact (IH F E B).
Qed.
End P.

(** ** What is heard *)
Lemma sub_refl {A} (l : list A) : subsequence l l.
Proof. induction l; constructor; assumption. Qed.
Lemma sub_leaves {A} (n : nat) (a b : list A) : subsequence a (skipn n b) -> subsequence a b.
Proof. revert b; induction n as [|n IH]; intros b H; [exact H|]. destruct b as [|x b]; [exact H|]. apply sub_leave, IH, H. Qed.
Lemma sub_prefix {A} (a b c : list A) : subsequence a b -> subsequence a (b ++ c).
Proof. induction 1; cbn; constructor; assumption. Qed.
Lemma sub_filter {A} (f : A -> bool) a b : subsequence a b -> subsequence (filter f a) (filter f b).
Proof. induction 1 as [|x a b _ IH|x a b _ IH]; cbn; [constructor|destruct (f x); [constructor|]; exact IH|destruct (f x); [constructor|]; exact IH]. Qed.
Lemma skipn_nth {A} (l : list A) n x : nth_error l n = Some x -> skipn n l = x :: skipn (S n) l.
Proof. revert l; induction n as [|n IH]; intros [|y l] H; try discriminate; cbn in *; [congruence|]. rewrite (IH _ H). reflexivity. Qed.
Lemma heard_sub stream start size sr pos out lo : plays stream start size sr pos out -> increasing lo pos ->
  subsequence (sounding out) (skipn lo stream) /\ Forall (fun x => is_nan (fst x) = false) (sounding out).
Proof.
  intro P. revert lo. induction P as [|p o pos out Hp P IH]; intros lo Inc.
  - split; constructor.
  - destruct p as [n|], o as [x|]; try destruct Hp; cbn [sounding flat_map app] in *.
    + destruct Inc as [Le Inc]. destruct H0 as [Nn _]. destruct (IH _ Inc) as [Q1 Q2]. split; [|now constructor].
      apply (sub_leaves (n - lo)). rewrite skipn_skipn. replace (n - lo + lo)%nat with n by lia. rewrite (skipn_nth _ _ _ H). now apply sub_keep.
    + exact (IH _ Inc).
Qed.
Lemma audible_id l : Forall (fun x : sample => is_nan (fst x) = false) l -> audible l = l.
Proof. induction 1 as [|x l E _ IH]; [reflexivity|]. unfold audible in *. cbn. now rewrite E, IH. Qed.
