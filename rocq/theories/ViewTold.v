(** What the announcements of a playlist tell about its stream (for C100). *)
From Verif Require Import GoBase GoBaseFacts PlaylistModel PlaylistSpec PlaylistProofs PlaylistLoopProofs.
From Coq Require Import ZifyBool ZifyNat ZifyN.
Local Open Scope Z_scope.

Section T.
Variable decode : song -> option (list sample).
Variable nan_break : Z.
Notation pstep := (pstep decode nan_break).
Notation prun := (prun decode nan_break).
Ltac inv_step H := apply pstep_stepped in H; destruct H.
Ltac psimpl := cbn [at_pc songs position tokens pending_jumps playing playing_last current_song idx_write
  set_pc set_position set_current set_tokens set_playing set_playing_last set_songs pushed] in *.

(** All pause announcements lie before the end of the stream. *)
Definition toggles_before (es : list event) : Prop := Forall (fun t => snd t < zlen (stream_of es)) (toggles_of es).

(** [told es r]: the events of a server that announces truly; [r] is what is left of the
    song being streamed. *)
Inductive told : list event -> option (list sample) -> Prop :=
| t_nil : told [] None
| t_song es f l : told es None -> decode f = Some l ->
    told (es ++ [ENewSong (zlen (stream_of es)) f (zlen l)]) (Some l)
| t_toggle es r b : told es (Some r) -> toggles_before es ->
    told (es ++ [EToggle b (zlen (stream_of es))]) (Some r)
| t_filler es r : told es (Some r) -> announced_paused es = true ->
    told (es ++ [EBlock (repeat nan_sample 512)]) (Some r)
| t_block es r : told es (Some r) -> announced_paused es = false ->
    told (es ++ [EBlock (firstn 512 r)]) (Some (skipn 512 r))
| t_gap es r g : told es r -> g <> [] -> told (es ++ [EGap g]) None.

Definition InvTold (s : pstate) (es : list event) : Prop :=
  at_pc s = Crashed /\ (exists r, told es r) \/
  exists r, told es r /\
  match at_pc s with
  | AtTop | Opening _ => r = None /\ toggles_before es
  | InSong x | TogStore x | TogCall x => r = Some x /\ toggles_before es
  | BlockRead x => r = Some x
  | Checking x n ok => r = Some x /\ (n = 0%nat -> ok = false) /\ ((0 < n)%nat -> toggles_before es)
  | Crashed => True
  end.

Lemma toggles_le es r : told es r -> Forall (fun t => snd t <= zlen (stream_of es)) (toggles_of es).
Proof.
  induction 1 as [|es f l H IH Hd|es r b H IH Hb|es r H IH Hp|es r H IH Hp|es r g H IH Hg];
    [constructor|..]; rewrite toggles_of_app, stream_of_app, zlen_app; apply Forall_app; split;
    try (eapply Forall_impl; [|exact IH]; intros t Ht; pose proof (zlen_nonneg (stream_of [EBlock (repeat nan_sample 512)]));
         match goal with |- context [zlen (stream_of [?e])] => pose proof (zlen_nonneg (stream_of [e])) end; cbn beta in *; lia);
    try constructor; try constructor; cbn [snd]; match goal with |- context [zlen (stream_of [?e])] => pose proof (zlen_nonneg (stream_of [e])) end; lia.
Qed.

Lemma before_more es r e : told es r -> toggles_of e = [] -> stream_of e <> [] -> toggles_before (es ++ e).
Proof.
  intros H He Hs. unfold toggles_before. rewrite toggles_of_app, He, app_nil_r, stream_of_app, zlen_app.
  pose proof (zlen_pos _ Hs). eapply Forall_impl; [|exact (toggles_le _ _ H)]. cbn beta. lia.
Qed.
Lemma before_song es i f n : toggles_before es -> toggles_before (es ++ [ENewSong i f n]).
Proof. unfold toggles_before. rewrite toggles_of_app, stream_of_app. cbn. rewrite !app_nil_r. auto. Qed.

Hypothesis break_pos : 0 < nan_break.

Lemma step_told inside s es a s' e :
  InvIdx decode 0 s es -> InvPause inside s es -> InvTold s es ->
  pstep s a = Some (s', e) -> InvTold s' (es ++ e).
Proof.
  intros (Hop & Hidx & _) [_ Hpc] [[Hc _]|(r & Ht & Hm)] H.
  { unfold PlaylistModel.pstep in H. rewrite Hc in H. destruct a; discriminate. }
  rewrite Z.add_0_l in Hidx. unfold InvTold.
  assert (NB : nan_samples nan_break <> []) by (apply nan_samples_nonempty; exact break_pos).
  inv_step H; psimpl; rewrite ?app_nil_r.
  - left. split; [reflexivity|eauto].
  - right. exists None. rewrite H in *. destruct Hm as [-> Hb]. split.
    + eapply t_gap; [exact Ht|apply nan_samples_nonempty; reflexivity].
    + split; [reflexivity|]. eapply before_more; [exact Ht|reflexivity|].
      cbn [stream_of flat_map samples_of_event]. rewrite app_nil_r. apply nan_samples_nonempty; reflexivity.
  - right. rewrite H in Hm. exists r. auto.
  - right. rewrite H in Hm. exists r. auto.
  - right. rewrite H in Hm. destruct Hm as [-> Hb]. exists (Some l).
    rewrite Hidx, (Hop f H). split; [apply t_song; assumption|]. split; [reflexivity|]. apply before_song. exact Hb.
  - right. rewrite H in Hm. destruct Hm as [-> Hb]. exists (Some r0). auto.
  - right. rewrite H in Hm. destruct Hm as [-> Hb]. exists (Some r0). auto.
  - right. rewrite H in Hm. exists r. auto.
  - right. rewrite H in Hm. destruct Hm as [-> Hb]. exists (Some r0). rewrite Hidx. split; [apply t_toggle; assumption|reflexivity].
  - right. rewrite H in *. subst r. destruct Hpc as (_ & E1 & E2). exists (Some (skipn streamer_buffer_size r0)).
    split; [apply t_block; [exact Ht|rewrite E2, <- E1, H0; reflexivity]|]. split; [reflexivity|]. split.
    + intros ->. reflexivity.
    + intros Hn. eapply before_more; [exact Ht|reflexivity|]. cbn [stream_of flat_map samples_of_event]. rewrite app_nil_r.
      intros E. rewrite E in Hn. cbn in Hn. lia.
  - right. rewrite H in *. subst r. destruct Hpc as (_ & E1 & E2). exists (Some r0).
    split; [apply t_filler; [exact Ht|rewrite E2, <- E1, H0; reflexivity]|]. split; [reflexivity|]. split; [discriminate|].
    intros _. eapply before_more; [exact Ht|reflexivity|discriminate].
  - right. exists None. split; [eapply t_gap; [exact Ht|exact NB]|]. split; [reflexivity|].
    eapply before_more; [exact Ht|reflexivity|]. cbn [stream_of flat_map samples_of_event]. rewrite app_nil_r. exact NB.
  - right. exists None. split; [eapply t_gap; [exact Ht|exact NB]|]. split; [reflexivity|].
    eapply before_more; [exact Ht|reflexivity|]. cbn [stream_of flat_map samples_of_event]. rewrite app_nil_r. exact NB.
  - right. rewrite H in Hm. destruct Hm as (-> & _ & Hb). exists (Some r0). split; [exact Ht|]. split; [reflexivity|].
    apply Hb. unfold streamer_buffer_size in *. lia.
  - right. exists r. split; [exact Ht|exact Hm].
  - right. exists r. split; [exact Ht|exact Hm].
  - right. exists r. split; [exact Ht|exact Hm].
  - left. split; [reflexivity|eauto].
  - right. exists r. split; [exact Ht|exact Hm].
Qed.

Lemma run_told acts : forall inside s es0 s' es,
  InvIdx decode 0 s es0 -> InvPause inside s es0 -> InvTold s es0 -> no_flag_race inside acts ->
  prun s acts = Some (s', es) -> InvTold s' (es0 ++ es).
Proof.
  induction acts as [|a acts IH]; intros inside s es0 s' es HX HI HT Hn Hr; cbn [PlaylistModel.prun] in Hr.
  - injection Hr as <- <-. rewrite app_nil_r. exact HT.
  - destruct (pstep s a) as [[s1 e1]|] eqn:E; [|discriminate].
    destruct (prun s1 acts) as [[s2 e2]|] eqn:E2; [|discriminate].
    injection Hr as <- <-. rewrite app_assoc.
    eapply IH; [eapply step_idx; eassumption|eapply step_pause; [exact HI| |exact E]|eapply step_told; eassumption| |exact E2].
    + destruct a; try exact I. cbn in Hn. apply Hn.
    + destruct a; cbn [no_flag_race inside_after] in *; try exact Hn. apply Hn.
Qed.

Lemma playlist_told l acts s es : no_flag_race false acts ->
  prun (new_playlist l) acts = Some (s, es) -> exists r, told es r.
Proof.
  intros Hn Hr.
  destruct (run_told acts false (new_playlist l) [] s es) as [[_ H]|(r & H & _)]; auto.
  - split; [intros f Hf; discriminate|]. split; [reflexivity|exact I].
  - apply inv_pause_init.
  - right. exists None. split; [constructor|]. split; [reflexivity|constructor].
  - eauto.
Qed.
End T.
