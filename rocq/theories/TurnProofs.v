(** Proofs for C131. *)
From Verif Require Import GoBase GoBaseFacts PlaylistModel PlaylistSpec PlaylistProofs PlaylistLoopProofs ProgrammeSpec ProgrammeProofs.
Local Open Scope Z_scope.

Section T.
Variable decode : song -> option (list sample).
Variable nan_break : Z.
Local Notation pstep := (pstep decode nan_break).
Local Notation prun := (prun decode nan_break).

Definition soft (a : action) : Prop := forall p, a = ASetPosWrite p -> 0 <= p.

Lemma next_pos l p pos f : 0 <= p -> next_song l p = Ok (pos, f) -> 0 <= pos.
Proof.
  intros P H. destruct l as [|x l]; [injection H as <- _; exact P|].
  rewrite next_song_nonneg in H by (congruence || exact P). injection H as <- _. apply Z.mod_pos_bound. apply zlen_pos. discriminate.
Qed.
Lemma pos_step s a s' e : 0 <= position s -> soft a -> pstep s a = Some (s', e) -> 0 <= position s'.
Proof.
  intros P A H. apply pstep_stepped in H. destruct H; cbn; try exact P; try lia; try (eapply next_pos; eassumption).
  exact (A p eq_refl).
Qed.
Lemma pos_run acts : forall s s' es, 0 <= position s -> Forall soft acts -> prun s acts = Some (s', es) -> 0 <= position s'.
Proof.
  induction acts as [|a acts IH]; intros s s' es P A R; cbn [PlaylistModel.prun] in R; [injection R as <- _; exact P|].
  destruct (pstep s a) as [[s1 e1]|] eqn:St; [|discriminate]. destruct (prun s1 acts) as [[s2 e2]|] eqn:R2; [|discriminate]. injection R as <- _.
  inversion A as [|? ? A1 A2]; subst. eapply IH; [|exact A2|exact R2]. eapply pos_step; eassumption.
Qed.

(** the loop at its head, at place [k] *)
Definition ready (s : pstate) (l : list song) (k : Z) : Prop :=
  at_pc s = AtTop /\ playing s = true /\ tokens s = 0%nat /\ songs s = l /\ 0 <= position s /\ position s mod zlen l = k mod zlen l.

(** One place of the playlist *)
Lemma one_place s l k : l <> [] -> ~ In [] l -> ready s l k ->
  let f := cyclic_song l 0 k in
  exists acts s' es, loops acts /\ prun s acts = Some (s', es) /\ ready s' l (k + 1) /\
    announced es = (match decode f with Some _ => [f] | None => [] end) /\
    audible (stream_of es) = audible (match decode f with Some c => c | None => [] end).
Proof.
  intros Ne Ni (Pc & Pl & Tk & Sg & Po & Pm) f. assert (Zp : 0 < zlen l) by now apply zlen_pos.
  assert (Nf : f <> []) by now apply cyclic_nonempty.
  assert (Cf : cyclic_song (songs s) (position s) 0 = f) by (rewrite Sg; unfold f; apply cyclic_cong; rewrite Pm; now rewrite Z.add_0_l).
  set (s1 := set_pc (set_current (set_position s (position s mod zlen (songs s))) f) (Opening f)).
  assert (R1 : pstep s PNext = Some (s1, [])).
  { unfold PlaylistModel.pstep. rewrite Pc, next_song_nonneg, Cf by congruence. destruct f; [congruence|reflexivity]. }
  assert (Pm1 : (position s mod zlen (songs s) + 1) mod zlen l = (k + 1) mod zlen l).
  { rewrite Sg, Zplus_mod_idemp_l. apply mod_succ. exact Pm. }
  assert (Po1 : 0 <= position s mod zlen (songs s)) by (rewrite Sg; apply Z.mod_pos_bound; lia).
  destruct (decode f) as [c|] eqn:D.
  - set (s2 := set_pc s1 (InSong c)).
    assert (R2 : pstep s1 POpen = Some (s2, [ENewSong (idx_write s1) (current_song s1) (zlen c)])) by (unfold PlaylistModel.pstep; cbn [s1 set_pc at_pc]; rewrite D; reflexivity).
    destruct (sound_song decode nan_break (length c) c s2 (le_n _) eq_refl Pl Tk) as (b & s3 & e3 & Lb & R3 & Pc3 & Pl3 & Tk3 & Sg3 & Po3 & St3 & An3).
    exists ([PNext; POpen] ++ b), s3, ([ENewSong (idx_write s1) (current_song s1) (zlen c)] ++ e3).
    split; [apply Forall_app; split; [repeat constructor|exact Lb]|].
    split; [cbn [app PlaylistModel.prun]; rewrite R1, R2, R3; reflexivity|].
    split.
    + unfold ready. rewrite Sg3. unfold s2, s1 in Po3. cbn [set_pc set_current set_position position] in Po3. rewrite Po3. unfold s2, s1. cbn [set_pc set_current set_position songs].
      repeat split; try assumption. lia.
    + rewrite announced_app, An3, stream_of_app, audible_app, St3. split; reflexivity.
  - set (s2 := set_pc (set_position s1 (position s1 + 1)) AtTop).
    assert (R2 : pstep s1 POpen = Some (s2, [])) by (unfold PlaylistModel.pstep; cbn [s1 set_pc at_pc]; rewrite D; reflexivity).
    exists [PNext; POpen], s2, []. split; [repeat constructor|]. split; [cbn [app PlaylistModel.prun]; rewrite R1, R2; reflexivity|].
    split; [|split; reflexivity]. unfold ready, s2, s1. cbn [set_pc set_current set_position songs position at_pc playing tokens]. repeat split; try assumption. lia.
Qed.

(** Several places *)
Lemma some_places l (k : nat) : l <> [] -> ~ In [] l -> forall s p, ready s l p ->
  exists acts s' es, loops acts /\ prun s acts = Some (s', es) /\ ready s' l (p + Z.of_nat k) /\ (length (announced es) <= k)%nat.
Proof.
  intros Ne Ni. induction k as [|k IH]; intros s p R.
  - exists [], s, []. rewrite Z.add_0_r. split; [constructor|]. split; [reflexivity|]. split; [exact R|]. cbn. lia.
  - destruct (one_place s l p Ne Ni R) as (a1 & s1 & e1 & L1 & R1 & Q1 & A1 & _).
    destruct (IH s1 _ Q1) as (a2 & s2 & e2 & L2 & R2 & Q2 & A2).
    exists (a1 ++ a2), s2, (e1 ++ e2). split; [apply Forall_app; auto|]. split; [rewrite (prun_app decode nan_break), R1, R2; reflexivity|].
    split; [replace (p + Z.of_nat (S k)) with (p + 1 + Z.of_nat k) by lia; exact Q2|].
    rewrite announced_app, app_length, A1. destruct (decode _); cbn [length]; lia.
Qed.

(** Back to the head *)
Definition fine (s : pstate) (l : list song) : Prop := playing s = true /\ tokens s = 0%nat /\ songs s = l /\ 0 <= position s.
Definition gets_to_top (s : pstate) (l : list song) (n : nat) : Prop :=
  exists acts s' es, loops acts /\ prun s acts = Some (s', es) /\ at_pc s' = AtTop /\ fine s' l /\ (length (announced es) <= n)%nat.
Lemma gets_step s l a s1 e n m : is_loop_action a = true -> pstep s a = Some (s1, e) -> (length (announced e) + n <= m)%nat -> gets_to_top s1 l n -> gets_to_top s l m.
Proof.
  intros La St Le (acts & s' & es & L & R & T & F & An). exists (a :: acts), s', (e ++ es). split; [now constructor|].
  split; [cbn [PlaylistModel.prun]; rewrite St, R; reflexivity|]. split; [exact T|]. split; [exact F|]. rewrite announced_app, app_length. lia.
Qed.
Lemma insong_top s l r : fine s l -> at_pc s = InSong r -> gets_to_top s l 0.
Proof.
  intros (Pl & Tk & Sg & Po) Pc. destruct (sound_song decode nan_break (length r) r s (le_n _) Pc Pl Tk) as (b & s3 & e3 & Lb & R3 & Pc3 & Pl3 & Tk3 & Sg3 & Po3 & St3 & An3).
  exists b, s3, e3. split; [exact Lb|]. split; [exact R3|]. split; [exact Pc3|]. split; [repeat split; try assumption; [congruence|lia]|]. rewrite An3. cbn. lia.
Qed.
Lemma top_top s l n : fine s l -> at_pc s = AtTop -> gets_to_top s l n.
Proof. intros F Pc. exists [], s, []. split; [constructor|]. split; [reflexivity|]. split; [exact Pc|]. split; [exact F|]. cbn. lia. Qed.
Lemma checking_top s l r n ok : fine s l -> at_pc s = Checking r n ok -> gets_to_top s l 0.
Proof.
  intros (Pl & Tk & Sg & Po) Pc. pose proof (check_step decode nan_break s r n ok Pc Tk) as C. destruct (_ || _)%bool.
  - eapply (gets_step _ _ PCheck); [reflexivity|exact C|apply le_n|]. apply top_top; [|reflexivity]. repeat split; try assumption. cbn. lia.
  - eapply (gets_step _ _ PCheck); [reflexivity|exact C|apply le_n|]. apply (insong_top _ l r); [|reflexivity]. repeat split; assumption.
Qed.
Lemma block_top s l r : fine s l -> at_pc s = BlockRead r -> gets_to_top s l 0.
Proof.
  intros (Pl & Tk & Sg & Po) Pc. eapply (gets_step _ _ PBlock); [reflexivity|unfold PlaylistModel.pstep; rewrite Pc, Pl; reflexivity|apply le_n|].
  eapply checking_top; [|reflexivity]. repeat split; assumption.
Qed.
Lemma to_top s l : fine s l -> at_pc s <> Crashed -> gets_to_top s l 1.
Proof.
  intros F Nc. assert (W : forall n, gets_to_top s l n -> (n <= 1)%nat -> gets_to_top s l 1).
  { intros n (acts & s' & es & L & R & T & F' & An) Hn. exists acts, s', es. repeat (split; [assumption|]). lia. }
  pose proof F as (Pl & Tk & Sg & Po). destruct (at_pc s) as [|f|r|r|r|r|r n ok|] eqn:Pc.
  - now apply top_top.
  - destruct (decode f) as [c|] eqn:D.
    + eapply (gets_step s l POpen _ _ 0); [reflexivity|unfold PlaylistModel.pstep; rewrite Pc, D; reflexivity|apply le_n|]. eapply insong_top; [|reflexivity]. repeat split; assumption.
    + eapply (gets_step s l POpen _ _ 1); [reflexivity|unfold PlaylistModel.pstep; rewrite Pc, D; reflexivity|apply le_n|]. apply top_top; [|reflexivity]. repeat split; try assumption. cbn. lia.
  - apply (W 0%nat); [|lia]. eapply insong_top; eassumption.
  - apply (W 0%nat); [|lia]. eapply (gets_step _ _ PTogStore); [reflexivity|unfold PlaylistModel.pstep; rewrite Pc; reflexivity|apply le_n|].
    eapply (gets_step _ _ PTogCall); [reflexivity|unfold PlaylistModel.pstep; cbn [set_pc at_pc]; reflexivity|apply le_n|]. eapply block_top; [|reflexivity]. repeat split; assumption.
  - apply (W 0%nat); [|lia]. eapply (gets_step _ _ PTogCall); [reflexivity|unfold PlaylistModel.pstep; rewrite Pc; reflexivity|apply le_n|]. eapply block_top; [|reflexivity]. repeat split; assumption.
  - apply (W 0%nat); [|lia]. eapply block_top; eassumption.
  - apply (W 0%nat); [|lia]. eapply checking_top; eassumption.
  - congruence.
Qed.

(** Jumps that wait: each interrupts one song after its next block *)
Definition calm (s : pstate) (l : list song) (t : nat) : Prop := playing s = true /\ tokens s = t /\ songs s = l /\ 0 <= position s.
Definition reach (s : pstate) (n : nat) (Q : pstate -> Prop) : Prop :=
  exists acts s' es, loops acts /\ prun s acts = Some (s', es) /\ Q s' /\ (length (announced es) <= n)%nat.
Lemma reach_now s n (Q : pstate -> Prop) : Q s -> reach s n Q.
Proof. intro H. exists [], s, []. split; [constructor|]. split; [reflexivity|]. split; [exact H|]. cbn. lia. Qed.
Lemma reach_step s a s1 e n m Q : is_loop_action a = true -> pstep s a = Some (s1, e) -> (length (announced e) + n <= m)%nat -> reach s1 n Q -> reach s m Q.
Proof.
  intros La St Le (acts & s' & es & L & R & H & An). exists (a :: acts), s', (e ++ es). split; [now constructor|].
  split; [cbn [PlaylistModel.prun]; rewrite St, R; reflexivity|]. split; [exact H|]. rewrite announced_app, app_length. lia.
Qed.
Lemma reach_then s n m k (P Q : pstate -> Prop) : (n + m <= k)%nat -> reach s n P -> (forall s', P s' -> reach s' m Q) -> reach s k Q.
Proof.
  intros Le (a1 & s1 & e1 & L1 & R1 & P1 & A1) H. destruct (H s1 P1) as (a2 & s2 & e2 & L2 & R2 & Q2 & A2).
  exists (a1 ++ a2), s2, (e1 ++ e2). split; [apply Forall_app; auto|]. split; [rewrite (prun_app decode nan_break), R1, R2; reflexivity|].
  split; [exact Q2|]. rewrite announced_app, app_length. lia.
Qed.
Definition top (l : list song) (t : nat) (s : pstate) : Prop := at_pc s = AtTop /\ calm s l t.

Lemma checking_jump s l t r n ok : calm s l (S t) -> at_pc s = Checking r n ok -> reach s 0 (top l t).
Proof.
  intros (Pl & Tk & Sg & Po) Pc. eapply (reach_step _ PCheck _ _ 0); [reflexivity|unfold PlaylistModel.pstep; rewrite Pc, Tk; reflexivity|apply le_n|].
  apply reach_now. split; [reflexivity|]. repeat split; try assumption. cbn. lia.
Qed.
Lemma block_jump s l t r : calm s l (S t) -> at_pc s = BlockRead r -> reach s 0 (top l t).
Proof.
  intros (Pl & Tk & Sg & Po) Pc. eapply (reach_step _ PBlock); [reflexivity|unfold PlaylistModel.pstep; rewrite Pc, Pl; reflexivity|apply le_n|].
  eapply checking_jump; [|reflexivity]. repeat split; assumption.
Qed.
Lemma insong_jump s l t r : calm s l (S t) -> at_pc s = InSong r -> reach s 0 (top l t).
Proof.
  intros C Pc. pose proof C as (Pl & Tk & Sg & Po). destruct (Bool.eqb (playing s) (playing_last s)) eqn:B.
  - eapply (reach_step _ PCmp); [reflexivity|unfold PlaylistModel.pstep; rewrite Pc, B; reflexivity|apply le_n|]. eapply block_jump; [|reflexivity]. exact C.
  - eapply (reach_step _ PCmp); [reflexivity|unfold PlaylistModel.pstep; rewrite Pc, B; reflexivity|apply le_n|].
    eapply (reach_step _ PTogStore); [reflexivity|unfold PlaylistModel.pstep; cbn [set_pc at_pc]; reflexivity|apply le_n|].
    eapply (reach_step _ PTogCall); [reflexivity|unfold PlaylistModel.pstep; cbn [set_pc at_pc]; reflexivity|apply le_n|].
    eapply block_jump; [|reflexivity]. exact C.
Qed.

(** one place, either skipped or interrupted *)
Lemma place_jump s l t : l <> [] -> ~ In [] l -> top l (S t) s ->
  let f := cyclic_song l 0 (position s) in
  match decode f with
  | Some _ => reach s 1 (top l t)
  | None => reach s 0 (fun s' => top l (S t) s' /\ position s' mod zlen l = (position s + 1) mod zlen l)
  end.
Proof.
  intros Ne Ni (Pc & Pl & Tk & Sg & Po) f. assert (Zp : 0 < zlen l) by now apply zlen_pos.
  assert (Nf : f <> []) by now apply cyclic_nonempty.
  assert (Cf : cyclic_song (songs s) (position s) 0 = f) by (rewrite Sg; unfold f; apply cyclic_cong; now rewrite Z.add_0_l).
  set (s1 := set_pc (set_current (set_position s (position s mod zlen (songs s))) f) (Opening f)).
  assert (R1 : pstep s PNext = Some (s1, [])).
  { unfold PlaylistModel.pstep. rewrite Pc, next_song_nonneg, Cf by congruence. destruct f; [congruence|reflexivity]. }
  assert (Po1 : 0 <= position s mod zlen l) by (apply Z.mod_pos_bound; lia).
  destruct (decode f) as [c|] eqn:D.
  - eapply (reach_step _ PNext _ _ 1); [reflexivity|exact R1|apply le_n|].
    eapply (reach_step _ POpen _ _ 0); [reflexivity|unfold PlaylistModel.pstep; cbn [s1 set_pc at_pc]; rewrite D; reflexivity|apply le_n|].
    eapply insong_jump; [|reflexivity]. unfold calm, s1. cbn. rewrite Sg. auto.
  - eapply (reach_step _ PNext _ _ 0); [reflexivity|exact R1|apply le_n|].
    eapply (reach_step _ POpen _ _ 0); [reflexivity|unfold PlaylistModel.pstep; cbn [s1 set_pc at_pc]; rewrite D; reflexivity|apply le_n|].
    apply reach_now. unfold top, calm, s1. cbn. rewrite Sg. repeat split; try assumption; [lia|]. apply Zplus_mod_idemp_l.
Qed.

Section Some_playable.
Variables (l : list song) (i : nat) (c : list sample).
Hypotheses (Ni : ~ In [] l) (Li : (i < length l)%nat) (Di : decode (nth i l []) = Some c).

Lemma jump_used t : forall d s, (Z.to_nat ((Z.of_nat i - position s) mod zlen l) <= d)%nat -> top l (S t) s -> reach s 1 (top l t).
Proof.
  assert (Ne : l <> []) by (intros ->; cbn in Li; lia). assert (Zp : 0 < zlen l) by now apply zlen_pos.
  induction d as [|d IH]; intros s Hd T; pose proof (place_jump s l t Ne Ni T) as P; cbn zeta in P.
  - assert (E : cyclic_song l 0 (position s) = nth i l []).
    { unfold cyclic_song. f_equal. rewrite Z.add_0_l.
      assert (Z : (Z.of_nat i - position s) mod zlen l = 0) by (pose proof (Z.mod_pos_bound (Z.of_nat i - position s) (zlen l) Zp); lia).
      apply Z.mod_divide in Z; [|lia]. destruct Z as [q Z]. replace (position s) with (Z.of_nat i + (-q) * zlen l) by lia.
      rewrite Z_mod_plus_full, Z.mod_small by (unfold zlen; lia). apply Nat2Z.id. }
    rewrite E, Di in P. exact P.
  - destruct (decode (cyclic_song l 0 (position s))) as [c'|] eqn:D; [exact P|].
    eapply (reach_then s 0 1 1); [lia|exact P|]. intros s' [T' Pm].
    assert (Nz : (Z.of_nat i - position s) mod zlen l <> 0).
    { intro Z. apply Z.mod_divide in Z; [|lia]. destruct Z as [q Z].
      assert (E : cyclic_song l 0 (position s) = nth i l []).
      { unfold cyclic_song. f_equal. rewrite Z.add_0_l. replace (position s) with (Z.of_nat i + (-q) * zlen l) by lia.
        rewrite Z_mod_plus_full, Z.mod_small by (unfold zlen; lia). apply Nat2Z.id. }
      rewrite E, Di in D. discriminate. }
    apply IH; [|exact T']. clear - Hd Pm Nz Zp.
    assert (E : (Z.of_nat i - position s') mod zlen l = (Z.of_nat i - position s) mod zlen l - 1).
    { rewrite <- Zminus_mod_idemp_r, Pm, Zminus_mod_idemp_r. replace (Z.of_nat i - (position s + 1)) with (Z.of_nat i - position s - 1) by lia.
      rewrite <- (Zminus_mod_idemp_l (Z.of_nat i - position s)). apply Z.mod_small.
      pose proof (Z.mod_pos_bound (Z.of_nat i - position s) (zlen l) Zp). lia. }
    rewrite E. lia.
Qed.
Lemma jumps_used t : forall s, top l t s -> reach s t (top l 0).
Proof.
  induction t as [|t IH]; intros s T; [now apply reach_now|].
  eapply (reach_then s 1 t (S t)); [lia|eapply jump_used; [apply le_n|exact T]|exact IH].
Qed.

(** From anywhere to the head with all jumps used: at most the current song and one song for each jump. *)
Lemma to_top_jumps s t : calm s l t -> at_pc s <> Crashed -> reach s (S t) (top l 0).
Proof.
  intros C Nc. destruct t as [|t].
  - destruct (to_top s l C Nc) as (a & s' & es & L & R & T & F & An). exists a, s', es. repeat (split; [assumption|]). split; [split; assumption|exact An].
  - assert (W : forall s', top l t s' -> reach s' t (top l 0)) by exact (jumps_used t).
    pose proof C as (Pl & Tk & Sg & Po). destruct (at_pc s) as [|f|r|r|r|r|r n ok|] eqn:Pc.
    + destruct (jumps_used (S t) s) as (a & s' & es & H1 & H2 & H3 & H4); [split; assumption|]. exists a, s', es. repeat (split; [assumption|]). lia.
    + destruct (decode f) as [c'|] eqn:D.
      * eapply (reach_step s POpen _ _ t); [reflexivity|unfold PlaylistModel.pstep; rewrite Pc, D; reflexivity|cbn; lia|].
        eapply (reach_then _ 0 t t); [lia| |exact W]. eapply insong_jump; [|reflexivity]. exact C.
      * eapply (reach_step s POpen _ _ (S t)); [reflexivity|unfold PlaylistModel.pstep; rewrite Pc, D; reflexivity|cbn; lia|].
        apply jumps_used. split; [reflexivity|]. repeat split; try assumption. cbn. lia.
    + eapply (reach_then s 0 t); [lia| |exact W]. eapply insong_jump; eassumption.
    + eapply (reach_then s 0 t); [lia| |exact W].
      eapply (reach_step _ PTogStore); [reflexivity|unfold PlaylistModel.pstep; rewrite Pc; reflexivity|apply le_n|].
      eapply (reach_step _ PTogCall); [reflexivity|unfold PlaylistModel.pstep; cbn [set_pc at_pc]; reflexivity|apply le_n|]. eapply block_jump; [|reflexivity]. exact C.
    + eapply (reach_then s 0 t); [lia| |exact W].
      eapply (reach_step _ PTogCall); [reflexivity|unfold PlaylistModel.pstep; rewrite Pc; reflexivity|apply le_n|]. eapply block_jump; [|reflexivity]. exact C.
    + eapply (reach_then s 0 t); [lia| |exact W]. eapply block_jump; eassumption.
    + eapply (reach_then s 0 t); [lia| |exact W]. eapply checking_jump; eassumption.
    + congruence.
Qed.
End Some_playable.

Lemma gets_turn s l t f c : calm s l t -> at_pc s <> Crashed -> ~ In [] l -> In f l -> decode f = Some c ->
  exists acts s' es names before, loops acts /\ prun s acts = Some (s', es) /\ at_pc s' = AtTop /\
    announced es = names ++ [f] /\ (length names <= length l + t)%nat /\ audible (stream_of es) = before ++ audible c.
Proof.
  intros F Nc Ni I D. assert (Ne : l <> []) by (destruct l; [contradiction|discriminate]). assert (Zp : 0 < zlen l) by now apply zlen_pos.
  destruct (In_nth l f [] I) as (i & Li & Ni').
  destruct (to_top_jumps l i c Ni Li ltac:(now rewrite Ni') s t F Nc) as (a1 & s1 & e1 & L1 & R1 & (T1 & Pl1 & Tk1 & Sg1 & Po1) & A1).
  set (p := position s1). set (k := Z.to_nat ((Z.of_nat i - p) mod zlen l)).
  assert (Bk : 0 <= (Z.of_nat i - p) mod zlen l < zlen l) by (apply Z.mod_pos_bound; exact Zp).
  destruct (some_places l k Ne Ni s1 p) as (a2 & s2 & e2 & L2 & R2 & Q2 & A2); [repeat split; assumption|].
  assert (E : cyclic_song l 0 (p + Z.of_nat k) = f).
  { unfold cyclic_song. rewrite <- Ni'. f_equal. unfold k. rewrite Z2Nat.id, Z.add_0_l, Zplus_mod_idemp_r by lia.
    replace (p + (Z.of_nat i - p)) with (Z.of_nat i) by lia. rewrite Z.mod_small by (unfold zlen; lia). apply Nat2Z.id. }
  destruct (one_place s2 l _ Ne Ni Q2) as (a3 & s3 & e3 & L3 & R3 & Q3 & A3 & St3). rewrite E, D in A3, St3.
  exists (a1 ++ a2 ++ a3), s3, (e1 ++ e2 ++ e3), (announced e1 ++ announced e2), (audible (stream_of (e1 ++ e2))).
  split; [repeat (apply Forall_app; split; [assumption|]); exact L3|].
  split; [rewrite (prun_app decode nan_break), R1, (prun_app decode nan_break), R2, R3; reflexivity|]. split; [apply Q3|].
  split; [rewrite !announced_app, A3; now rewrite app_assoc|].
  split; [rewrite app_length; unfold k, zlen in *; lia|].
  rewrite app_assoc, stream_of_app, audible_app, St3. reflexivity.
Qed.

(** the loop left alone can do only one thing *)
Lemma loop_runs_agree a : forall b s sa sb ea eb, loops a -> loops b -> (length a <= length b)%nat ->
  prun s a = Some (sa, ea) -> prun s b = Some (sb, eb) -> exists c ec, b = a ++ c /\ prun sa c = Some (sb, ec) /\ eb = ea ++ ec.
Proof.
  induction a as [|x a IH]; intros b s sa sb ea eb La Lb Le Ra Rb.
  - injection Ra as <- <-. exists b, eb. auto.
  - destruct b as [|y b]; [cbn in Le; lia|]. cbn [PlaylistModel.prun] in Ra, Rb.
    destruct (pstep s x) as [[s1 e1]|] eqn:Sx; [|discriminate]. destruct (pstep s y) as [[s2 e2]|] eqn:Sy; [|discriminate].
    inversion La as [|? ? Lx La']; subst. inversion Lb as [|? ? Ly Lb']; subst.
    assert (x = y) by (apply (loop_action_unique decode nan_break s x y Lx Ly); congruence). subst y. rewrite Sx in Sy. injection Sy as <- <-.
    destruct (prun s1 a) as [[s3 e3]|] eqn:R3; [|discriminate]. injection Ra as <- <-.
    destruct (prun s1 b) as [[s4 e4]|] eqn:R4; [|discriminate]. injection Rb as <- <-.
    destruct (IH b s1 _ _ _ _ La' Lb' ltac:(cbn in Le; lia) R3 R4) as (c & ec & -> & Rc & ->). exists c, ec. split; [reflexivity|]. split; [exact Rc|apply app_assoc].
Qed.
End T.
