(** Proofs for C124. *)
From Verif Require Import GoBase GoBaseFacts PlaylistModel CancelModel CancelSpec.
Local Open Scope nat_scope.

Lemma some_pair_inj {A B} (a c : A) (b d : B) : Some (a, b) = Some (c, d) -> a = c /\ b = d.
Proof. intro H. now injection H as -> ->. Qed.

Ltac split_step H := repeat match type of H with
  | context [match next_song ?l ?q with _ => _ end] => destruct (next_song l q) as [[? [|? ?]]|]
  | context [match apply_edit ?l ?e with _ => _ end] => destruct (apply_edit l e) as [[? ?]|]
  | context [match pending_jumps ?q with _ => _ end] => destruct (pending_jumps q)
  | context [match ?d ?f with Some _ => _ | None => _ end] => let E := fresh "E" in destruct (d f) eqn:E
  | context [if ?b then _ else _] => let E := fresh "E" in destruct b eqn:E
  end; try discriminate H; apply some_pair_inj in H as [<- <-].

Section Cancel.
Variable decode : song -> option (list sample).
Variable nan_break : Z.
Notation pstep := (pstep decode nan_break).
Notation prun := (prun decode nan_break).
Notation cstep := (cstep decode nan_break).
Notation crun := (crun decode nan_break).

Lemma crun_app a : forall s b, crun s (a ++ b) =
  match crun s a with None => None | Some (s1, e1) => match crun s1 b with None => None | Some (s2, e2) => Some (s2, e1 ++ e2) end end.
Proof.
  induction a as [|x a IH]; intros s b; cbn [app CancelModel.crun].
  - destruct (crun s b) as [[s2 e2]|]; reflexivity.
  - destruct (cstep s x) as [[s1 e1]|]; [|reflexivity]. rewrite IH.
    destruct (crun s1 a) as [[s2 e2]|]; [|reflexivity]. destruct (crun s2 b) as [[s3 e3]|]; [|reflexivity]. now rewrite app_assoc.
Qed.

(** What a step is, in terms of the loop of PlaylistModel. *)
Lemma cstep_inv s a s' es : cstep s a = Some (s', es) ->
  (a = CCancel /\ es = [] /\ inner s' = inner s /\ cancelled s' = true /\ tested s' = tested s /\ returned s' = returned s)
  \/ (a = CTest /\ es = [] /\ at_pc (inner s) = AtTop /\ tested s = false /\ returned s = false /\ inner s' = inner s
      /\ cancelled s' = cancelled s /\ tested s' = negb (cancelled s) /\ returned s' = cancelled s)
  \/ (exists b, a = CAct b /\ pstep (inner s) b = Some (inner s', es) /\ cancelled s' = cancelled s /\ returned s' = returned s
      /\ (loop_step b = true -> returned s = false)
      /\ (b = PNext -> tested s = true /\ tested s' = false) /\ (b <> PNext -> tested s' = tested s)).
Proof.
  destruct a as [|b|]; cbn [CancelModel.cstep].
  - destruct (at_pc (inner s)) eqn:P; try discriminate. destruct (tested s) eqn:T; [discriminate|]. destruct (returned s) eqn:R; [discriminate|].
    cbn [orb]. unfold is_canceled. destruct (cancelled s) eqn:C; intros [= <- <-]; right; left; cbn; repeat split; auto.
  - destruct (loop_step b && returned s) eqn:L; [discriminate|]. intro H. right. right. exists b. split; [reflexivity|].
    assert (L' : loop_step b = true -> returned s = false) by (intro Hb; rewrite Hb in L; exact L).
    destruct b; try (destruct (pstep (inner s) _) as [[pz0 ez0]|]; [|discriminate]; injection H as <- <-; cbn;
      repeat split; try assumption; try reflexivity; intros; congruence).
    destruct (tested s) eqn:T; [|discriminate]. destruct (pstep (inner s) PNext) as [[p e]|]; [|discriminate]. injection H as <- <-. cbn.
    repeat split; try assumption; try reflexivity; intros; congruence.
  - intros [= <- <-]. left. cbn. repeat split.
Qed.

(** *** It is the loop of PlaylistModel *)
Lemma crun_prun acts : forall s s' es, crun s acts = Some (s', es) -> prun (inner s) (without_context acts) = Some (inner s', es).
Proof.
  induction acts as [|a acts IH]; intros s s' es; cbn [CancelModel.crun].
  - intros [= <- <-]. reflexivity.
  - destruct (cstep s a) as [[s1 e1]|] eqn:H1; [|discriminate]. destruct (crun s1 acts) as [[s2 e2]|] eqn:H2; [|discriminate].
    intros [= <- <-]. apply IH in H2.
    destruct (cstep_inv _ _ _ _ H1) as [(-> & -> & E & _)|[(-> & -> & _ & _ & _ & E & _)|(b & -> & Hb & _)]].
    + cbn [without_context app]. now rewrite <- E.
    + cbn [without_context app]. now rewrite <- E.
    + cbn [without_context PlaylistModel.prun]. now rewrite Hb, H2.
Qed.

Definition running (s : cstate) : Prop := returned s = false /\ cancelled s = false.
Lemma prun_crun acts : forall s p es, running s -> prun (inner s) acts = Some (p, es) ->
  exists cacts s', crun s cacts = Some (s', es) /\ inner s' = p /\ without_context cacts = acts /\ ~ In CCancel cacts /\ running s'.
Proof.
  induction acts as [|a acts IH]; intros s p es [R C]; cbn [PlaylistModel.prun].
  - intros [= <- <-]. exists [], s. repeat split; try assumption; try reflexivity. intros [].
  - destruct (pstep (inner s) a) as [[p1 e1]|] eqn:H1; [|discriminate]. destruct (prun p1 acts) as [[p2 e2]|] eqn:H2; [|discriminate].
    intros [= <- <-].
    assert (Hs : exists pre s1, crun s (pre ++ [CAct a]) = Some (s1, e1) /\ inner s1 = p1 /\ without_context pre = [] /\ ~ In CCancel pre /\ running s1).
    { assert (Hd : a <> PNext \/ tested s = true -> exists s1, crun s [CAct a] = Some (s1, e1) /\ inner s1 = p1 /\ running s1).
      { intro Hd. cbn [CancelModel.crun CancelModel.cstep]. rewrite R, andb_false_r.
        destruct a; try (rewrite H1; eexists; rewrite app_nil_r; split; [reflexivity|]; split; [reflexivity|]; split; assumption || reflexivity).
        destruct Hd as [Hd|Hd]; [congruence|]. rewrite Hd, H1. eexists. rewrite app_nil_r. split; [reflexivity|]. split; [reflexivity|]. split; assumption || reflexivity. }
      destruct (tested s) eqn:T.
      - destruct (Hd (or_intror eq_refl)) as (s1 & A & B & D). exists [], s1. repeat split; try assumption; try apply D. intros [].
      - destruct a; try (destruct Hd as (s1 & A & B & D); [left; discriminate|]; exists [], s1; repeat split; try assumption; try apply D; intros []).
        assert (P : at_pc (inner s) = AtTop).
        { cbn [PlaylistModel.pstep] in H1. destruct (at_pc (inner s)); try discriminate H1. reflexivity. }
        eexists [CTest], _. cbn [app CancelModel.crun CancelModel.cstep]. rewrite P, T, R. cbn [orb]. unfold is_canceled. rewrite C.
        cbn [inner tested returned cancelled loop_step andb]. rewrite H1. cbn [app]. rewrite app_nil_r.
        split; [reflexivity|]. split; [reflexivity|]. split; [reflexivity|]. split; [intros [X|[]]; discriminate|]. split; reflexivity. }
    destruct Hs as (pre & s1 & Hr & E1 & W & N & Run). rewrite <- E1 in H2.
    destruct (IH s1 p2 e2 Run H2) as (cacts & s2 & A & B & D & F & G).
    exists ((pre ++ [CAct a]) ++ cacts), s2. rewrite crun_app, Hr, A. split; [reflexivity|]. split; [exact B|]. split.
    { rewrite <- D. clear -W. induction pre as [|x pre IH]; [reflexivity|]. destruct x; cbn in W |- *; try discriminate W; exact (IH W). }
    split; [|exact G]. rewrite !in_app_iff. intros [[X|[X|[]]]|X]; [contradiction|discriminate|contradiction].
Qed.

(** *** It returns only when cancelled *)
Lemma crun_not_cancelled acts : forall s s' es, crun s acts = Some (s', es) -> ~ In CCancel acts ->
  cancelled s = false -> returned s = false -> cancelled s' = false /\ returned s' = false.
Proof.
  induction acts as [|a acts IH]; intros s s' es; cbn [CancelModel.crun].
  - intros [= <- <-]. auto.
  - destruct (cstep s a) as [[s1 e1]|] eqn:H1; [|discriminate]. destruct (crun s1 acts) as [[s2 e2]|] eqn:H2; [|discriminate].
    intros [= <- <-] N C R. apply (IH _ _ _ H2); [intro X; apply N; now right| |];
    destruct (cstep_inv _ _ _ _ H1) as [(-> & _)|[(-> & _ & _ & _ & _ & _ & A & _ & B)|(b & -> & _ & A & B & _)]]; try congruence;
      exfalso; apply N; now left.
Qed.

(** *** At most one more song *)
Definition songs_left (s : cstate) : nat :=
  if returned s then 0 else
  match at_pc (inner s) with AtTop => if tested s then 1 else 0 | Opening _ => 1 | _ => 0 end.

Lemma announced_app a b : announced (a ++ b) = announced a + announced b.
Proof. induction a as [|e a IH]; [reflexivity|]. destruct e; cbn; rewrite ?IH; reflexivity. Qed.

(** The loop has tested the context only while it stands at the top. *)
Definition wf (s : cstate) : Prop := tested s = true -> at_pc (inner s) = AtTop \/ at_pc (inner s) = Crashed.
Lemma cstep_wf s a s' es : wf s -> cstep s a = Some (s', es) -> wf s'.
Proof.
  unfold wf. intros W H. destruct (cstep_inv _ _ _ _ H) as [(-> & -> & E & C' & T & R)|[(-> & -> & P & T & R & E & C' & T' & R')|(b & -> & Hb & C' & R & Lr & Tn & To)]].
  - now rewrite E, T.
  - rewrite E. now left.
  - intro T'. destruct b; try (destruct (Tn eq_refl); congruence); rewrite To in T' by discriminate; destruct (W T') as [P|P];
      cbn [PlaylistModel.pstep] in Hb; rewrite P in Hb; try discriminate Hb; split_step Hb; cbn; rewrite ?P; auto.
Qed.
Lemma crun_wf acts : forall s s' es, wf s -> crun s acts = Some (s', es) -> wf s'.
Proof.
  induction acts as [|a acts IH]; intros s s' es W; cbn [CancelModel.crun].
  - intros [= <- <-]. exact W.
  - destruct (cstep s a) as [[s1 e1]|] eqn:H1; [|discriminate]. destruct (crun s1 acts) as [[s2 e2]|] eqn:H2; [|discriminate].
    intros [= <- <-]. exact (IH _ _ _ (cstep_wf _ _ _ _ W H1) H2).
Qed.

Lemma cstep_songs s a s' es : wf s -> cancelled s = true -> cstep s a = Some (s', es) ->
  cancelled s' = true /\ announced es + songs_left s' <= songs_left s.
Proof.
  intros Wt C H. unfold wf in Wt. destruct (cstep_inv _ _ _ _ H) as [(-> & -> & E & C' & T & R)|[(-> & -> & P & T & R & E & C' & T' & R')|(b & -> & Hb & C' & R & Lr & Tn & To)]].
  - split; [exact C'|]. unfold songs_left. rewrite E, T, R. cbn. lia.
  - split; [congruence|]. unfold songs_left. rewrite R', C. cbn. lia.
  - split; [congruence|]. unfold songs_left. rewrite R.
    destruct b; cbn [loop_step] in Lr; cbn [PlaylistModel.pstep] in Hb; destruct (at_pc (inner s)) eqn:P; try discriminate Hb;
      try (destruct (Tn eq_refl) as [Tn1 Tn2]; rewrite Tn1); try rewrite To by discriminate;
      try (rewrite (Lr eq_refl));
      split_step Hb; cbn; rewrite ?P; try (destruct (returned s)); try (destruct (tested s)); try rewrite Tn2; cbn; try lia;
      destruct (Wt eq_refl); discriminate.
Qed.
Lemma crun_songs acts : forall s s' es, wf s -> cancelled s = true -> crun s acts = Some (s', es) -> announced es + songs_left s' <= songs_left s.
Proof.
  induction acts as [|a acts IH]; intros s s' es W C; cbn [CancelModel.crun].
  - intros [= <- <-]. cbn. lia.
  - destruct (cstep s a) as [[s1 e1]|] eqn:H1; [|discriminate]. destruct (crun s1 acts) as [[s2 e2]|] eqn:H2; [|discriminate].
    intros [= <- <-]. pose proof (cstep_wf _ _ _ _ W H1) as W1. apply (cstep_songs _ _ _ _ W C) in H1 as [C1 H1]. apply (IH _ _ _ W1 C1) in H2. rewrite announced_app. lia.
Qed.

(** *** It ends soon *)
Variable longest : nat.
Hypothesis Hlong : forall f l, decode f = Some l -> length l <= longest.

Definition rest_ok (p : pc) : Prop :=
  match p with InSong r | TogStore r | TogCall r | BlockRead r | Checking r _ _ => length r <= longest | _ => True end.
Lemma pstep_rest s a s' es : rest_ok (at_pc s) -> pstep s a = Some (s', es) -> rest_ok (at_pc s').
Proof.
  intros R H. destruct a; cbn [PlaylistModel.pstep] in H; destruct (at_pc s) eqn:P; try discriminate H;
    split_step H; cbn [rest_ok at_pc set_pc pushed set_position set_current set_tokens set_playing set_playing_last set_songs] in R |- *;
    rewrite ?P; cbn [rest_ok] in R |- *; try exact I; try exact R; try (eapply Hlong; eassumption).
  rewrite skipn_length. lia.
Qed.
Lemma crun_rest acts : forall s s' es, rest_ok (at_pc (inner s)) -> crun s acts = Some (s', es) -> rest_ok (at_pc (inner s')).
Proof.
  induction acts as [|a acts IH]; intros s s' es R; cbn [CancelModel.crun].
  - intros [= <- <-]. exact R.
  - destruct (cstep s a) as [[s1 e1]|] eqn:H1; [|discriminate]. destruct (crun s1 acts) as [[s2 e2]|] eqn:H2; [|discriminate].
    intros [= <- <-]. apply (IH _ _ _) with (2 := H2).
    destruct (cstep_inv _ _ _ _ H1) as [(_ & _ & -> & _)|[(_ & _ & _ & _ & _ & -> & _)|(b & _ & Hb & _)]]; try exact R.
    exact (pstep_rest _ _ _ _ R Hb).
Qed.

Definition in_song_steps (r : list sample) : nat := 5 * (length r / streamer_buffer_size + 1) + 1.
Definition blocks_max : nat := longest / streamer_buffer_size.
Definition steps_to_go (s : cstate) : nat :=
  if returned s then 0 else
  match at_pc (inner s) with
  | Crashed => 0
  | AtTop => if tested s then 5 * (blocks_max + 1) + 3 else 1
  | Opening _ => 5 * (blocks_max + 1) + 2
  | InSong r => in_song_steps r
  | TogStore r => in_song_steps r - 1
  | TogCall r => in_song_steps r - 2
  | BlockRead r => in_song_steps r - 3
  | Checking r n ok => if (negb ok || (n <? streamer_buffer_size))%bool then 2 else in_song_steps r + 1
  end.

Lemma song_steps_le r : length r <= longest -> in_song_steps r <= 5 * (blocks_max + 1) + 1.
Proof.
  intro H. unfold in_song_steps. pose proof (Nat.div_le_mono (length r) longest streamer_buffer_size ltac:(discriminate) H) as D. fold blocks_max in D.
  revert D. generalize (length r / streamer_buffer_size). intros n D. lia.
Qed.
Lemma song_steps_ge r : 6 <= in_song_steps r.
Proof. unfold in_song_steps. generalize (length r / streamer_buffer_size). intro n. lia. Qed.
Lemma song_steps_block r : streamer_buffer_size <= length r -> in_song_steps (skipn streamer_buffer_size r) + 5 = in_song_steps r.
Proof.
  intro H. unfold in_song_steps. rewrite skipn_length.
  assert (E : length r / streamer_buffer_size = S ((length r - streamer_buffer_size) / streamer_buffer_size)).
  { replace (length r) with ((length r - streamer_buffer_size) + 1 * streamer_buffer_size) at 1 by lia.
    rewrite Nat.div_add by discriminate. apply Nat.add_1_r. }
  rewrite E. generalize ((length r - streamer_buffer_size) / streamer_buffer_size). intro n. lia.
Qed.

Lemma cstep_to_go s a s' es : wf s -> cancelled s = true -> playing (inner s) = true -> rest_ok (at_pc (inner s)) ->
  a <> CAct (ASetPlaying false) -> cstep s a = Some (s', es) ->
  (if own_step a then 1 else 0) + steps_to_go s' <= steps_to_go s
  /\ cancelled s' = true /\ playing (inner s') = true /\ rest_ok (at_pc (inner s')).
Proof.
  intros Wt C Pl Ro Na H. unfold wf in Wt. destruct (cstep_inv _ _ _ _ H) as [(-> & -> & E & C' & T & R)|[(-> & -> & P & T & R & E & C' & T' & R')|(b & -> & Hb & C' & R & Lr & Tn & To)]].
  - rewrite E. split; [|auto]. unfold steps_to_go. rewrite E, T, R. cbn [own_step]. lia.
  - rewrite E. split; [|rewrite C'; auto]. unfold steps_to_go. rewrite R', C, R, P, T. cbn [own_step]. lia.
  - rewrite C'. split; [|split; [exact C|split; [|exact (pstep_rest _ _ _ _ Ro Hb)]]].
    + unfold steps_to_go. rewrite R. cbn [own_step].
      destruct b; cbn [loop_step] in Lr |- *; try (rewrite (Lr eq_refl)); try (destruct (returned s); [lia|]);
        cbn [PlaylistModel.pstep] in Hb; destruct (at_pc (inner s)) eqn:P; try discriminate Hb;
        try (destruct (Tn eq_refl) as [Tn1 Tn2]; rewrite Tn1); try rewrite To by discriminate;
        try rewrite Pl in Hb; split_step Hb; cbn [at_pc set_pc pushed set_position set_current set_tokens set_playing set_playing_last set_songs];
        rewrite ?P, ?Tn2; try (destruct (tested s); [destruct (Wt eq_refl); congruence|]); try (destruct (tested s)); try lia.
      all: try (match goal with X : decode _ = Some ?r |- _ => pose proof (song_steps_le r (Hlong _ _ X)) end; lia).
      all: try (match goal with |- context [in_song_steps ?r] => pose proof (song_steps_ge r) end; lia).
      all: try (destruct (negb ok || (n <? streamer_buffer_size))%bool; [lia|pose proof (song_steps_ge rest); lia]).
      all: try (match goal with X : (negb ?o || _)%bool = _ |- _ => rewrite X end;
                match goal with |- context [in_song_steps ?r] => pose proof (song_steps_ge r) | _ => idtac end; lia).
      all: rewrite firstn_length; pose proof (song_steps_ge rest) as G.
      all: destruct (Nat.le_gt_cases streamer_buffer_size (length rest)) as [Hle|Hgt];
        [rewrite Nat.min_l by exact Hle; pose proof (song_steps_block rest Hle) as B;
         destruct (negb (negb (streamer_buffer_size =? 0)) || (streamer_buffer_size <? streamer_buffer_size))%bool; lia
        |rewrite Nat.min_r by lia; replace (length rest <? streamer_buffer_size) with true by (symmetry; apply Nat.ltb_lt; exact Hgt);
         rewrite orb_true_r; lia].
    + destruct b; cbn [PlaylistModel.pstep] in Hb; destruct (at_pc (inner s)) eqn:P; try discriminate Hb;
        split_step Hb; cbn; try exact Pl; try assumption; match goal with |- ?x = true => destruct x; [reflexivity|congruence] end.
Qed.

Lemma crun_to_go acts : forall s s' es, wf s -> cancelled s = true -> playing (inner s) = true -> rest_ok (at_pc (inner s)) ->
  not_paused acts -> crun s acts = Some (s', es) -> own_steps acts + steps_to_go s' <= steps_to_go s.
Proof.
  induction acts as [|a acts IH]; intros s s' es W C Pl Ro Np; cbn [CancelModel.crun].
  - intros [= <- <-]. cbn. lia.
  - destruct (cstep s a) as [[s1 e1]|] eqn:H1; [|discriminate]. destruct (crun s1 acts) as [[s2 e2]|] eqn:H2; [|discriminate].
    intros [= <- <-]. pose proof (cstep_wf _ _ _ _ W H1) as W1. destruct (cstep_to_go _ _ _ _ W C Pl Ro (fun X => Np (or_introl X)) H1) as (A & C1 & Pl1 & Ro1).
    specialize (IH _ _ _ W1 C1 Pl1 Ro1 ltac:(intro X; apply Np; now right) H2).
    unfold own_steps in *. cbn [filter]. destruct (own_step a); cbn [length]; lia.
Qed.

Lemma to_go_bound s : rest_ok (at_pc (inner s)) -> steps_to_go s <= 5 * blocks_max + 8.
Proof.
  intro R. unfold steps_to_go. destruct (returned s); [lia|].
  destruct (at_pc (inner s)) as [|f|r|r|r|r|r n ok|]; cbn [rest_ok] in R; try (pose proof (song_steps_le r R)); try lia.
  - destruct (tested s); lia.
  - destruct (negb ok || (n <? streamer_buffer_size))%bool; lia.
Qed.

(** Some step of the loop is always possible. *)
Lemma own_step_possible s : returned s = false -> at_pc (inner s) <> Crashed -> exists a, own_step a = true /\ cstep s a <> None.
Proof.
  intros R N. destruct (at_pc (inner s)) eqn:P.
  - destruct (tested s) eqn:T.
    + exists (CAct PNext). split; [reflexivity|]. cbn [CancelModel.cstep loop_step andb]. rewrite R, T. cbn [PlaylistModel.pstep]. rewrite P.
      destruct (next_song _ _) as [[q [|c f]]|]; discriminate.
    + exists CTest. split; [reflexivity|]. cbn [CancelModel.cstep]. rewrite P, T, R. cbn [orb]. destruct (is_canceled s); discriminate.
  - exists (CAct POpen). split; [reflexivity|]. cbn [CancelModel.cstep loop_step andb]. rewrite R. cbn [PlaylistModel.pstep]. rewrite P.
    destruct (decode f); discriminate.
  - exists (CAct PCmp). split; [reflexivity|]. cbn [CancelModel.cstep loop_step andb]. rewrite R. cbn [PlaylistModel.pstep]. rewrite P.
    destruct (Bool.eqb _ _); discriminate.
  - exists (CAct PTogStore). split; [reflexivity|]. cbn [CancelModel.cstep loop_step andb]. rewrite R. cbn [PlaylistModel.pstep]. rewrite P. discriminate.
  - exists (CAct PTogCall). split; [reflexivity|]. cbn [CancelModel.cstep loop_step andb]. rewrite R. cbn [PlaylistModel.pstep]. rewrite P. discriminate.
  - exists (CAct PBlock). split; [reflexivity|]. cbn [CancelModel.cstep loop_step andb]. rewrite R. cbn [PlaylistModel.pstep]. rewrite P.
    destruct (playing (inner s)); discriminate.
  - exists (CAct PCheck). split; [reflexivity|]. cbn [CancelModel.cstep loop_step andb]. rewrite R. cbn [PlaylistModel.pstep]. rewrite P.
    destruct (0 <? tokens (inner s)); [discriminate|]. destruct (negb ok || _)%bool; discriminate.
  - congruence.
Qed.

(** *** Paused *)
Definition stuck_paused (s : cstate) : Prop :=
  returned s = false /\ playing (inner s) = false /\ tokens (inner s) = 0 /\ pending_jumps (inner s) = 0 /\
  match at_pc (inner s) with
  | InSong _ | TogStore _ | TogCall _ | BlockRead _ => True
  | Checking _ n ok => ok = true /\ n = streamer_buffer_size
  | _ => False
  end.
Lemma cstep_stuck s a s' es : stuck_paused s -> left_paused a = true -> cstep s a = Some (s', es) ->
  stuck_paused s' \/ at_pc (inner s') = Crashed /\ returned s' = false.
Proof.
  intros (R & Pl & Tk & Pj & P) L H. unfold stuck_paused.
  destruct (cstep_inv _ _ _ _ H) as [(-> & -> & E & C' & T & R')|[(-> & -> & P' & _)|(b & -> & Hb & C' & R' & Lr & Tn & To)]].
  - left. rewrite E, R'. auto.
  - rewrite P' in P. destruct P.
  - rewrite R'. destruct b; cbn [left_paused] in L; try discriminate L; cbn [PlaylistModel.pstep] in Hb;
      destruct (at_pc (inner s)) eqn:Q; try discriminate Hb; try destruct P; try rewrite Pl in Hb; try rewrite Tk in Hb;
      try (subst; change ((0 <? 0)%nat) with false in Hb; cbn [negb orb Nat.ltb Nat.leb] in Hb);
      try rewrite Nat.ltb_irrefl in Hb; cbv iota in Hb; split_step Hb; cbn; rewrite ?Q, ?Pl; auto;
      try (left; repeat split; auto; fail).
    all: try (left; repeat split; auto; match goal with |- ?b = false => destruct b; [discriminate L|reflexivity] end).
    all: vm_compute in E; discriminate E.
Qed.
Lemma crashed_stays s a s' es : at_pc (inner s) = Crashed -> cstep s a = Some (s', es) -> at_pc (inner s') = Crashed /\ returned s' = returned s.
Proof.
  intros P H. destruct (cstep_inv _ _ _ _ H) as [(-> & -> & E & C' & T & R)|[(-> & _ & P' & _)|(b & -> & Hb & C' & R & _)]].
  - rewrite E. auto.
  - congruence.
  - destruct b; cbn [PlaylistModel.pstep] in Hb; rewrite P in Hb; discriminate Hb.
Qed.
Lemma crun_crashed acts : forall s s' es, at_pc (inner s) = Crashed -> crun s acts = Some (s', es) -> returned s' = returned s.
Proof.
  induction acts as [|a acts IH]; intros s s' es P; cbn [CancelModel.crun].
  - intros [= <- <-]. reflexivity.
  - destruct (cstep s a) as [[s1 e1]|] eqn:H1; [|discriminate]. destruct (crun s1 acts) as [[s2 e2]|] eqn:H2; [|discriminate].
    intros [= <- <-]. destruct (crashed_stays _ _ _ _ P H1) as [P1 R1]. rewrite (IH _ _ _ P1 H2). exact R1.
Qed.
Lemma crun_stuck acts : forall s s' es, stuck_paused s -> Forall (fun a => left_paused a = true) acts ->
  crun s acts = Some (s', es) -> returned s' = false.
Proof.
  induction acts as [|a acts IH]; intros s s' es St F; cbn [CancelModel.crun].
  - intros [= <- <-]. apply St.
  - destruct (cstep s a) as [[s1 e1]|] eqn:H1; [|discriminate]. destruct (crun s1 acts) as [[s2 e2]|] eqn:H2; [|discriminate].
    intros [= <- <-]. apply Forall_cons_iff in F as [F1 F2].
    destruct (cstep_stuck _ _ _ _ St F1 H1) as [St1|[P1 R1]]; [exact (IH _ _ _ St1 F2 H2)|].
    rewrite (crun_crashed _ _ _ _ P1 H2). exact R1.
Qed.
End Cancel.
