(** C11: every pause and every resume can go wrong in the same way. *)
From Verif Require Import GoBase GoBaseFacts PlaylistModel PlaylistSpec PlaylistProofs PlaylistLoopProofs PlaylistProps.
Local Open Scope Z_scope.

Section Tight.
Variable decode : song -> option (list sample).
Variable nan_break : Z.

(** the flag and the remembered flag agree, and the loop is not about to announce *)
Definition silent_at (p : bool) (s : pstate) : Prop :=
  playing s = p /\ playing_last s = p /\
  match at_pc s with TogStore _ | TogCall _ => False | _ => True end.

Lemma silent_step p s a s' es : silent_at p s -> a <> ASetPlaying (negb p) ->
  pstep decode nan_break s a = Some (s', es) -> silent_at p s' /\ toggles_of es = [].
Proof.
  intros (H1 & H2 & H3) Ha H. unfold silent_at. unfold pstep in H.
  destruct a as [ | | | | | | |b|q| |e].
  - destruct (at_pc s) eqn:Epc; try discriminate. destruct (next_song (songs s) (position s)) as [[pos f]|].
    + destruct f; injection H as <- <-; cbn; rewrite ?Epc; repeat split; auto.
    + injection H as <- <-; cbn; auto.
  - destruct (at_pc s) eqn:Epc; try discriminate. destruct (decode f); injection H as <- <-; cbn; auto.
  - destruct (at_pc s) eqn:Epc; try discriminate. rewrite H1, H2, Bool.eqb_reflx in H. injection H as <- <-. cbn. auto.
  - destruct (at_pc s) eqn:Epc; try discriminate. contradiction.
  - destruct (at_pc s) eqn:Epc; try discriminate. contradiction.
  - destruct (at_pc s) eqn:Epc; try discriminate. destruct (playing s) eqn:Ep; injection H as <- <-;
      cbn [at_pc set_pc pushed playing playing_last toggles_of flat_map app]; (split; [split; [congruence|split; [assumption|exact I]]|reflexivity]).
  - destruct (at_pc s) eqn:Epc; try discriminate.
    destruct (0 <? tokens s)%nat; [injection H as <- <-; cbn; auto|].
    destruct (negb ok || (n <? streamer_buffer_size)%nat)%bool; injection H as <- <-; cbn; auto.
  - assert (b = p) by (destruct b, p; try reflexivity; exfalso; apply Ha; reflexivity). subst b.
    destruct (at_pc s) eqn:Epc; try discriminate; injection H as <- <-; cbn; rewrite Epc; auto.
  - destruct (at_pc s) eqn:Epc; try discriminate; injection H as <- <-; cbn; rewrite Epc; auto.
  - destruct (at_pc s) eqn:Epc; try discriminate; destruct (pending_jumps s); try discriminate;
      destruct (tokens s <? 2)%nat; try discriminate; injection H as <- <-; cbn; rewrite Epc; auto.
  - destruct (at_pc s) eqn:Epc; try discriminate; destruct (apply_edit (songs s) e) as [[l r]|];
      injection H as <- <-; cbn; rewrite ?Epc; auto.
Qed.

Lemma silent_run p acts : forall s s' es, silent_at p s -> ~ In (ASetPlaying (negb p)) acts ->
  prun decode nan_break s acts = Some (s', es) -> silent_at p s' /\ toggles_of es = [].
Proof.
  induction acts as [|a acts IH]; intros s s' es H Hn E.
  - injection E as <- <-. auto.
  - cbn [prun] in E. destruct (pstep decode nan_break s a) as [[s1 e1]|] eqn:E1; [|discriminate].
    destruct (prun decode nan_break s1 acts) as [[s2 e2]|] eqn:E2; [|discriminate]. injection E as <- <-.
    destruct (silent_step p s a s1 e1 H) as [A B]; [intros ->; apply Hn; now left|exact E1|].
    destruct (IH s1 s2 e2 A) as [C D]; [intro; apply Hn; now right|exact E2|].
    split; [exact C|]. now rewrite toggles_of_app, B, D.
Qed.

(** Whenever the loop is about to announce that playback has been paused or resumed, in any state
    of the playlist: if SetPlaying is called the other way just before and back just after the
    announcement, the announcement says the opposite of what is streamed; and it is not corrected, whatever
    happens, until the user changes the flag again. *)
Theorem C11_every_announcement_can_lie_refuted : forall s rest p,
  at_pc s = TogCall rest -> playing s = p -> playing_last s = p ->
  exists s1, prun decode nan_break s [ASetPlaying (negb p); PTogCall; ASetPlaying p] = Some (s1, [EToggle (negb p) (idx_write s)]) /\
    forall acts s2 es, ~ In (ASetPlaying (negb p)) acts -> prun decode nan_break s1 acts = Some (s2, es) ->
      toggles_of es = [] /\ playing s2 = p /\
      forall r, at_pc s2 = BlockRead r -> exists s3,
        pstep decode nan_break s2 PBlock = Some (s3, [EBlock (if p then firstn 512 r else repeat nan_sample 512)]).
Proof.
  intros s rest p Hpc Hp Hl. eexists. split.
  - unfold prun, pstep. rewrite Hpc. cbn [at_pc set_playing set_pc playing idx_write app]. rewrite Hpc. cbn [app]. reflexivity.
  - intros acts s2 es Hn H.
    match type of H with prun _ _ ?s1 _ = _ => destruct (silent_run p acts s1 s2 es) as [(A & B & C) D]; [|exact Hn|exact H|] end.
    + split; [reflexivity|]. split; [exact Hl|exact I].
    + split; [exact D|]. split; [exact A|]. intros r Hr. unfold pstep. rewrite Hr, A.
      destruct p; eexists; reflexivity.
Qed.
End Tight.

(** Every toggle passes through such a state: the first pause of a playlist, for instance. *)
Example C11_every_example : exists s es, prun ex_decode 3 (new_playlist [sa]) [PNext; POpen; PCmp; PTogStore] = Some (s, es) /\
  (exists rest, at_pc s = TogCall rest) /\ playing s = false /\ playing_last s = false.
Proof. eexists. eexists. split; [vm_compute; reflexivity|]. split; [eexists; reflexivity|]. split; reflexivity. Qed.

Print Assumptions C11_every_announcement_can_lie_refuted.
