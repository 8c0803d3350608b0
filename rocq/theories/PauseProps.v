(** C102: pause silences the stream, resume takes it up where it stopped. *)
From Verif Require Import GoBase GoBaseFacts PlaylistModel PlaylistSpec PlaylistProofs PlaylistProps PlaylistLoopProofs QueueModel ChanModel
  PlayerModel PlayerSpec PlayerProofs PlayerProps.
From Coq Require Import ZifyBool ZifyNat.
Local Open Scope Z_scope.

(** A sample the players turn into silence (both channels NaN). *)
Definition silent (x : sample) : Prop := is_nan (fst x) = true /\ is_nan (snd x) = true.

Lemma silent_nans n : Forall silent (repeat nan_sample n).
Proof. induction n; constructor; [split; reflexivity|assumption]. Qed.

Ltac pause_step H := apply pstep_stepped in H; destruct H.
Ltac psimp := cbn [at_pc songs position tokens pending_jumps playing playing_last current_song idx_write
  set_pc set_position set_current set_tokens set_playing set_playing_last set_songs pushed] in *.

(** As long as nobody resumes, everything streamed is silence: whatever is queued, removed,
    jumped to or ends.  (A block is pushed in one step here: the at most 512 samples of a
    block being pushed when the pause is made count as streamed before it; C132 pushes them one
    by one.) *)
Theorem C102_silent_while_paused : forall decode nan_break acts s s' es,
  playing s = false -> Forall (fun a => a <> ASetPlaying true) acts ->
  prun decode nan_break s acts = Some (s', es) ->
  Forall silent (stream_of es).
Proof.
  intros decode nb acts. induction acts as [|a acts IH]; intros s s' es Hp Ha Hr; cbn [prun] in Hr.
  - injection Hr as _ <-. constructor.
  - destruct (pstep decode nb s a) as [[s1 e1]|] eqn:E; [|discriminate].
    destruct (prun decode nb s1 acts) as [[s2 e2]|] eqn:E2; [|discriminate]. injection Hr as <- <-.
    inversion Ha as [|? ? Ha1 Ha2]; subst. rewrite stream_of_app. apply Forall_app.
    assert (K : Forall silent (stream_of e1) /\ playing s1 = false).
    { pause_step E; psimp; (split; [|congruence || (destruct b; congruence)]); cbn [stream_of flat_map samples_of_event];
        rewrite ?app_nil_r; unfold nan_samples; try apply silent_nans; try constructor.
      all: congruence. }
    destruct K as [K1 K2]. split; [exact K1|]. eapply IH; eassumption.
Qed.
Print Assumptions C102_silent_while_paused.

(** ** Within one song, without jumps *)
Section Within.
Variable decode : song -> option (list sample).
Variable nb : Z.
Variable l : list sample.

(** Playing: [out ++ remaining = l]. *)
Definition on_air (s : pstate) (out : list sample) : Prop :=
  tokens s = 0%nat /\ pending_jumps s = 0%nat /\ playing s = true /\
  match at_pc s with
  | InSong r | TogStore r | TogCall r | BlockRead r => out ++ r = l
  | Checking r n ok => out ++ r = l /\ ((n < 512)%nat -> r = []) /\ (ok = false -> r = [])
  | AtTop => out = l ++ repeat nan_sample (Z.to_nat nb)
  | Opening _ => False
  | Crashed => True
  end.

Lemma on_air_run : forall acts s s' es out, on_air s out ->
  Forall (fun a => is_jump a = false /\ is_pnext a = false /\ a <> ASetPlaying false) acts ->
  prun decode nb s acts = Some (s', es) -> on_air s' (out ++ stream_of es).
Proof.
  induction acts as [|a acts IH]; intros s s' es out HP Ha Hr; cbn [prun] in Hr.
  - injection Hr as <- <-. cbn [stream_of flat_map]. rewrite app_nil_r. exact HP.
  - destruct (pstep decode nb s a) as [[s1 e1]|] eqn:E; [|discriminate].
    destruct (prun decode nb s1 acts) as [[s2 e2]|] eqn:E2; [|discriminate]. injection Hr as <- <-.
    inversion Ha as [|? ? (Ha1 & Ha2 & Ha3) Ha4]; subst. rewrite stream_of_app, app_assoc. eapply IH; [|exact Ha4|exact E2].
    destruct HP as (T0 & J0 & P0 & HP). unfold on_air.
    pause_step E; psimp; cbn [is_jump is_pnext] in *; try discriminate;
      rewrite ?T0, ?J0 in *; cbn [stream_of flat_map samples_of_event]; rewrite ?app_nil_r;
      repeat (split; [reflexivity || assumption || congruence|]);
      repeat match goal with H : at_pc _ = _ |- _ => rewrite H in HP end; try exact HP; try contradiction; try lia; try congruence.
    + unfold blk. rewrite <- app_assoc, firstn_skipn. split; [exact HP|]. split.
      * intros Hn. rewrite firstn_length in Hn. apply skipn_all2. unfold streamer_buffer_size in *. lia.
      * intros Hn. destruct (Nat.eqb_spec (length (firstn streamer_buffer_size r)) 0) as [E0|]; [|discriminate].
        rewrite firstn_length in E0. apply skipn_all2. unfold streamer_buffer_size in *. lia.
    + destruct HP as (HP1 & HP2 & HP3). unfold nan_samples. f_equal. rewrite <- HP1.
      assert (r = []) as ->; [|rewrite app_nil_r; reflexivity].
      destruct H1 as [H1|H1]; [apply HP3; exact H1|apply HP2; unfold streamer_buffer_size in H1; lia].
    + apply HP.
    + split; [destruct b; congruence|exact HP].
Qed.

(** Paused: all of [l] remains. *)
Definition held (s : pstate) : Prop :=
  tokens s = 0%nat /\ pending_jumps s = 0%nat /\ playing s = false /\
  match at_pc s with
  | InSong r | TogStore r | TogCall r | BlockRead r => r = l
  | Checking r n ok => r = l /\ n = 512%nat /\ ok = true
  | Crashed => True
  | _ => False
  end.

Lemma held_run : forall acts s s' es, held s ->
  Forall (fun a => is_jump a = false /\ a <> ASetPlaying true) acts ->
  prun decode nb s acts = Some (s', es) -> held s'.
Proof.
  induction acts as [|a acts IH]; intros s s' es HP Ha Hr; cbn [prun] in Hr.
  - injection Hr as <- <-. exact HP.
  - destruct (pstep decode nb s a) as [[s1 e1]|] eqn:E; [|discriminate].
    destruct (prun decode nb s1 acts) as [[s2 e2]|] eqn:E2; [|discriminate]. injection Hr as <- <-.
    inversion Ha as [|? ? (Ha1 & Ha3) Ha4]; subst. eapply IH; [|exact Ha4|exact E2].
    destruct HP as (T0 & J0 & P0 & HP). unfold held.
    pause_step E; psimp; cbn [is_jump is_pnext] in *; try discriminate;
      rewrite ?T0, ?J0 in *;
      repeat (split; [reflexivity || assumption || congruence|]);
      repeat match goal with H : at_pc _ = _ |- _ => rewrite H in HP end; try exact HP; try contradiction; try lia; try congruence.
    all: try (split; [destruct b; congruence|exact HP]).
    all: try (destruct HP as (HP1 & HP2 & HP3); unfold streamer_buffer_size in *; destruct H1; [congruence|lia]).
    all: try (apply HP).
    all: try (split; [exact HP|]; split; reflexivity).
Qed.
End Within.

(** As long as nobody pauses or jumps, the rest of a song is streamed without a sample of
    silence in between, then exactly the break. *)
Theorem C102_no_silence_while_playing : forall decode nan_break l s acts s' es,
  at_pc s = InSong l -> tokens s = 0%nat -> pending_jumps s = 0%nat -> playing s = true ->
  Forall (fun a => is_jump a = false /\ is_pnext a = false /\ a <> ASetPlaying false) acts ->
  prun decode nan_break s acts = Some (s', es) -> at_pc s' = AtTop ->
  stream_of es = l ++ repeat nan_sample (Z.to_nat nan_break).
Proof.
  intros decode nb l s acts s' es Hpc Ht Hj Hpl Ha Hr Hend.
  destruct (on_air_run decode nb l acts s s' es [] ltac:(repeat split; try assumption; rewrite Hpc; reflexivity) Ha Hr) as (_ & _ & _ & K).
  rewrite Hend in K. exact K.
Qed.
Print Assumptions C102_no_silence_while_playing.

(** Resuming takes the song up at the very sample where the pause stopped it, however long
    the pause was and whatever was edited meanwhile: silence, then the rest of the song
    without a gap, then the break. *)
Theorem C102_resumed_where_stopped : forall decode nan_break l s paused resumed s' es,
  at_pc s = InSong l -> tokens s = 0%nat -> pending_jumps s = 0%nat -> playing s = false ->
  Forall (fun a => is_jump a = false /\ a <> ASetPlaying true) paused ->
  Forall (fun a => is_jump a = false /\ is_pnext a = false /\ a <> ASetPlaying false) resumed ->
  prun decode nan_break s (paused ++ ASetPlaying true :: resumed) = Some (s', es) -> at_pc s' = AtTop ->
  exists silence, Forall silent silence /\ stream_of es = silence ++ l ++ repeat nan_sample (Z.to_nat nan_break).
Proof.
  intros decode nb l s a1 a2 s' es Hpc Ht Hj Hpl Ha1 Ha2 Hr Hend.
  rewrite prun_app in Hr. destruct (prun decode nb s a1) as [[s1 e1]|] eqn:E1; [|discriminate].
  destruct (prun decode nb s1 (ASetPlaying true :: a2)) as [[s2 e2]|] eqn:E2; [|discriminate]. injection Hr as <- <-.
  exists (stream_of e1). split.
  - refine (C102_silent_while_paused decode nb a1 s s1 e1 Hpl _ E1). eapply Forall_impl; [|exact Ha1]. intros a H; apply H.
  - rewrite stream_of_app. f_equal. cbn [prun] in E2.
    destruct (held_run decode nb l a1 s s1 e1 ltac:(repeat split; try assumption; rewrite Hpc; reflexivity) Ha1 E1) as (T1 & J1 & P1 & K).
    destruct (pstep decode nb s1 (ASetPlaying true)) as [[s3 e3]|] eqn:E3; [|discriminate].
    destruct (prun decode nb s3 a2) as [[s4 e4]|] eqn:E4; [|discriminate]. injection E2 as <- <-.
    assert (O : on_air nb l s3 [] /\ e3 = []).
    { unfold pstep in E3. cbn [set_pc at_pc] in E3. destruct (at_pc s1) eqn:Epc; try discriminate; try contradiction;
        injection E3 as <- <-; unfold on_air; psimp; rewrite ?Epc in *; repeat split; try assumption; try (apply K).
      all: destruct K as (-> & -> & ->); intros; try discriminate; lia. }
    destruct O as [O ->].
    destruct (on_air_run decode nb l a2 _ _ _ _ O Ha2 E4) as (_ & _ & _ & K2). rewrite Hend in K2. exact K2.
Qed.
Print Assumptions C102_resumed_where_stopped.

(** The players play the server's silence as silence: if every sample a player receives is
    silent, everything it hands to the sound card is silence. *)
Theorem C102_players_silent : forall sr synchronising calls feed out q' b', 0 < sr ->
  Forall (fun x => silent (fst x)) feed -> play sr synchronising calls feed = Some (out, q', b') ->
  Forall (fun o => o = None) out.
Proof.
  intros sr b calls feed out q' b' Hs Hf Hp.
  destruct (C20_consecutive sr b calls feed out q' b' Hs Hp) as [_ (pos & Ho & _ & _)].
  unfold outputs in Ho. clear Hp. induction Ho as [|i o pos out Hio Ho IH]; constructor; [|apply IH].
  destruct i, o; try reflexivity; try contradiction. destruct Hio as [Hi Hn].
  apply nth_error_In in Hi. rewrite Forall_forall in Hf. apply Hf in Hi. destruct Hi as [Hi _]. unfold ts_nan in Hn. congruence.
Qed.
Print Assumptions C102_players_silent.

(** 600 samples; paused at the start of the song, resumed two blocks later. *)
Example C102_nonvacuous : exists s0 e0 s' es,
  prun ex_decode 3 (new_playlist [long]) [PNext; POpen] = Some (s0, e0) /\
  playing s0 = false /\ (exists l, at_pc s0 = InSong l /\ length l = 600%nat /\ Forall (fun x => ~ silent x) (firstn 3 l)) /\
  prun ex_decode 3 s0 ([PCmp; PTogStore; PTogCall; PBlock; PCheck; PCmp; PBlock; AEdit (EAdd sa); PCheck] ++ ASetPlaying true ::
    [PCmp; PTogStore; PTogCall; PBlock; PCheck; PCmp; PBlock; PCheck]) = Some (s', es) /\ at_pc s' = AtTop /\
  zlen (stream_of es) = 512 + 512 + 600 + 3.
Proof.
  do 4 eexists. split; [vm_compute; reflexivity|]. split; [reflexivity|]. split.
  - eexists. split; [reflexivity|]. split; [reflexivity|]. repeat constructor; intros [H _]; vm_compute in H; discriminate.
  - split; [vm_compute; reflexivity|]. split; reflexivity.
Qed.
