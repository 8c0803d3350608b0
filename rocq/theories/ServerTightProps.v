(** The failures of C39, C67, C68 and C70 are not accidents of one history: from every state of
    the server and with any songs and toggles the scheduler can bring them about. *)
From Verif Require Import GoBase GoBaseFacts GoUtf8 WireModel SenderModel InfoerModel InfoerSpec ServerModel ServerSpec ServerProofs ServerProps.
Local Open Scope Z_scope.

Ltac step_by c := eexists; split; [assumption|]; split; [c|].

Lemma removable_all m l t : Forall (fun p => t_index p <= start_of m) l -> t_playing t = true -> t_index t <= start_of m ->
  removable (Some m) (l ++ [t]) = length l.
Proof.
  intros Hl Hp Ht. unfold removable.
  assert (G : forall i p, removable_loop (start_of m) (l ++ [t]) i p = (i + length l)%nat).
  { induction Hl as [|x l Hx _ IH]; intros i p.
    - cbn [app removable_loop length]. replace (start_of m <? t_index t) with false by lia. rewrite Hp. cbn. lia.
    - cbn [app removable_loop length]. replace (start_of m <? t_index x) with false by lia.
      destruct (t_playing x); cbn [negb andb]; rewrite IH; lia. }
  apply G.
Qed.

(* ------------------------------------------------------------------ *)
(** ** C70 *)

(** In every state, whatever the two songs: if the goroutine of the second song stores its
    announcement before that of the first one has sent, every subscribed client is told the second
    song twice and the first one never. *)
Theorem C70_any_two_songs_refuted : forall w m1 m2, w_crashed w = false -> is_subscribed (w_client w) = true ->
  exists w', goes_on w [StartSong m1; StartSong m2; NewSong m1; NewSong m2; SongBroadcast; SongBroadcast] w' /\
    w_received w' = w_received w ++ [m2; m2] /\
    w_song_starts w' = w_song_starts w /\ w_song_broadcasts w' = w_song_broadcasts w.
Proof.
  intros w m1 m2 Hc Hs. eexists. split.
  - apply (goes_exec w _ [] w); [constructor|].
    step_by ltac:(apply SStartSong). step_by ltac:(apply SStartSong).
    step_by ltac:(eapply (SNewSong _ _ (w_song_starts w) [m2]); cbn [upd_song w_song_starts]; now rewrite <- app_assoc).
    step_by ltac:(eapply (SNewSong _ _ (w_song_starts w) []); reflexivity).
    step_by ltac:(eapply SSongBroadcast; reflexivity).
    step_by ltac:(eapply SSongBroadcast; reflexivity). reflexivity.
  - unfold heard. cbn [upd_song upd_client w_received w_client w_song_starts w_song_broadcasts]. rewrite Hs, app_nil_r.
    rewrite <- app_assoc. repeat split.
Qed.

Lemma newest_kept w tr w' : goes_on w tr w' -> (forall m, ~ In (NewSong m) tr) -> w_newest w' = w_newest w.
Proof.
  induction 1 as [|tr w1 l w2 H IH Hc Hs]; intro Hn; [reflexivity|].
  rewrite <- IH by (intros m I; apply (Hn m), in_or_app; now left).
  inversion Hs; subst; try reflexivity. exfalso. apply (Hn m), in_or_app. right. now left.
Qed.

(** In every state, whatever the two songs: if collecting the metadata of the first song takes
    longer, the first song is what clients are told last, and what new clients are told until
    another song starts. *)
Theorem C70_any_slow_song_refuted : forall w m1 m2, w_crashed w = false ->
  exists w', goes_on w [StartSong m1; StartSong m2; NewSong m2; SongBroadcast; NewSong m1; SongBroadcast] w' /\
    w_song_starts w' = w_song_starts w /\ w_song_broadcasts w' = w_song_broadcasts w /\
    (is_subscribed (w_client w) = true -> w_received w' = w_received w ++ [m2; m1]) /\
    forall tr w2, goes_on w' tr w2 -> (forall m, ~ In (NewSong m) tr) -> w_newest w2 = Some m1.
Proof.
  intros w m1 m2 Hc. eexists. split.
  - apply (goes_exec w _ [] w); [constructor|].
    step_by ltac:(apply SStartSong). step_by ltac:(apply SStartSong).
    step_by ltac:(eapply (SNewSong _ _ (w_song_starts w ++ [m1]) []); reflexivity).
    step_by ltac:(eapply SSongBroadcast; reflexivity).
    step_by ltac:(eapply (SNewSong _ _ (w_song_starts w) []); cbn [upd_song upd_client w_song_starts]; now rewrite app_nil_r).
    step_by ltac:(eapply SSongBroadcast; reflexivity). reflexivity.
  - unfold heard. cbn [upd_song upd_client w_received w_client w_song_starts w_song_broadcasts]. rewrite !app_nil_r.
    split; [reflexivity|]. split; [reflexivity|]. split.
    + intros ->. now rewrite <- app_assoc.
    + intros tr w2 G Hn. rewrite (newest_kept _ _ _ G Hn). reflexivity.
Qed.

(* ------------------------------------------------------------------ *)
(** ** C67 *)

(** In every state, any two toggles can be recorded in the wrong order. *)
Theorem C67_any_two_toggles_refuted : forall w t1 t2, w_crashed w = false ->
  exists w', goes_on w [Toggle t1; PauseBroadcast t1; Toggle t2; PauseBroadcast t2; Append t2; Append t1] w' /\
    w_pauses w' = w_pauses w ++ [t2; t1] /\ w_appends w' = w_appends w /\ w_pause_broadcasts w' = w_pause_broadcasts w.
Proof.
  intros w t1 t2 Hc. eexists. split.
  - apply (goes_exec w _ [] w); [constructor|].
    step_by ltac:(apply SToggle). step_by ltac:(eapply (SPauseBroadcast _ _ (w_pause_broadcasts w) []); reflexivity).
    step_by ltac:(apply SToggle). step_by ltac:(eapply (SPauseBroadcast _ _ (w_pause_broadcasts w) []);
      cbn [upd_toggle upd_client w_pause_broadcasts]; now rewrite app_nil_r).
    step_by ltac:(eapply (SAppend _ _ (w_appends w ++ [t1]) []); reflexivity).
    step_by ltac:(eapply (SAppend _ _ (w_appends w) []); cbn [upd_pauses w_appends]; now rewrite app_nil_r).
    reflexivity.
  - cbn [upd_toggle upd_client upd_pauses w_pauses w_appends w_pause_broadcasts]. rewrite !app_nil_r, <- app_assoc. repeat split.
Qed.

(** If the first is a resume, the second a pause, both before the newest song, pruning then forgets
    the pause: everyone who subscribes later is told that the paused stream plays. *)
Theorem C67_pause_forgotten_refuted : forall w m t1 t2, w_crashed w = false -> w_newest w = Some m ->
  Forall (fun p => t_index p <= start_of m) (w_pauses w) ->
  t_playing t1 = true -> t_playing t2 = false -> t_index t1 <= t_index t2 -> t_index t2 <= start_of m ->
  exists w', goes_on w [Toggle t1; PauseBroadcast t1; Toggle t2; PauseBroadcast t2; Append t2; Append t1;
                        Count; Remove (S (length (w_pauses w))); Count] w' /\
    w_pauses w' = [t1] /\ w_prunes w' = w_prunes w /\ w_removals w' = w_removals w /\
    forall x, t_index t2 <= x ->
      plays_at (w_pauses w ++ [t1; t2]) x = false /\ plays_at (w_pauses w') x = true.
Proof.
  intros w m t1 t2 Hc Hn Hp P1 P2 H12 H2.
  assert (F : Forall (fun p => t_index p <= start_of m) (w_pauses w ++ [t2])).
  { apply Forall_app. split; [exact Hp|]. apply Forall_cons; [exact H2|apply Forall_nil]. }
  assert (L : length (w_pauses w ++ [t2]) = S (length (w_pauses w))) by (rewrite app_length; cbn [length]; lia).
  pose proof (removable_all m (w_pauses w ++ [t2]) t1 F P1 ltac:(lia)) as R. rewrite L in R.
  assert (R0 : removable (Some m) [t1] = O) by (apply (removable_all m []); [apply Forall_nil|exact P1|lia]).
  assert (RF : remove_first (S (length (w_pauses w))) ((w_pauses w ++ [t2]) ++ [t1]) = Ok [t1]).
  { rewrite remove_first_ok by (rewrite !app_length; cbn [length]; lia).
    rewrite <- L, skipn_app, skipn_all, Nat.sub_diag. reflexivity. }
  eexists. split.
  - apply (goes_exec w _ [] w); [constructor|].
    step_by ltac:(apply SToggle). step_by ltac:(eapply (SPauseBroadcast _ _ (w_pause_broadcasts w) []); reflexivity).
    step_by ltac:(apply SToggle). step_by ltac:(eapply (SPauseBroadcast _ _ (w_pause_broadcasts w) []);
      cbn [upd_toggle upd_client w_pause_broadcasts]; now rewrite app_nil_r).
    step_by ltac:(eapply (SAppend _ _ (w_appends w ++ [t1]) []); reflexivity).
    step_by ltac:(eapply (SAppend _ _ (w_appends w) []); cbn [upd_pauses w_appends]; now rewrite app_nil_r).
    step_by ltac:(eapply SCount; reflexivity). cbn [upd_toggle upd_client upd_pauses w_pauses w_newest w_appends w_removals w_crashed w_prunes].
    rewrite Hn, R. cbn [Nat.ltb Nat.leb].
    step_by ltac:(eapply (SRemove _ _ (w_removals w) []); [reflexivity|exact RF]).
    cbn [upd_pauses w_appends w_prunes w_crashed].
    step_by ltac:(eapply SCount; reflexivity). reflexivity.
  - cbn [upd_toggle upd_client upd_pauses w_pauses w_newest w_appends w_removals w_prunes]. rewrite Hn, R0, app_nil_r.
    cbn [Nat.ltb Nat.leb]. split; [reflexivity|]. split; [reflexivity|]. split; [reflexivity|].
    intros x Hx. unfold plays_at. rewrite fold_left_app. cbn [fold_left].
    replace (t_index t2 <=? x) with true by lia. replace (t_index t1 <=? x) with true by lia. now split.
Qed.

(* ------------------------------------------------------------------ *)
(** ** C68 *)

Definition all_songs (w : world) : Prop :=
  Forall (fun m => is_song m = true) (w_song_starts w) /\ (forall m, w_newest w = Some m -> is_song m = true).

Definition only_songs_start (tr : list label) : Prop := forall m, In (StartSong m) tr -> is_song m = true.

Lemma never_told t w tr w' : goes_on w tr w' -> w_client w = Done -> all_songs w -> only_songs_start tr ->
  ~ In t (w_pause_broadcasts w) -> ~ In (Toggle t) tr -> ~ In (pause_message t) (w_received w) ->
  w_client w' = Done /\ all_songs w' /\ ~ In t (w_pause_broadcasts w') /\ ~ In (pause_message t) (w_received w').
Proof.
  induction 1 as [|tr w1 l w2 H IH Hc Hs]; intros HD HA HO HB HT HR; [repeat split; auto; apply HA|].
  destruct IH as (D & [A1 A2] & B & R); auto.
  { intros m I. apply HO, in_or_app. now left. }
  { intro I. apply HT, in_or_app. now left. }
  assert (K : forall m, is_song m = true -> m <> pause_message t) by (intros m Hm ->; discriminate Hm).
  inversion Hs; subst; unfold all_songs, heard;
    cbn [upd_song upd_pauses upd_toggle upd_client w_client w_newest w_song_starts w_pause_broadcasts w_received];
    try congruence.
  - split; [exact D|]. split; [split; [|exact A2]|split; assumption].
    apply Forall_app. split; [exact A1|]. apply Forall_cons; [|apply Forall_nil]. apply HO, in_or_app. right. now left.
  - rewrite H0 in A1. apply Forall_app in A1 as [A1 A3]. apply Forall_cons_iff in A3 as [A3 A4].
    split; [exact D|]. split; [split; [now apply Forall_app|]|split; assumption].
    intros m' [= <-]. exact A3.
  - rewrite D. cbn [is_subscribed]. split; [reflexivity|]. split; [split; assumption|]. split; [exact B|].
    intro I. apply in_app_or in I as [I|[I|[]]]; [contradiction|]. apply (K m); [now apply A2|exact I].
  - split; [exact D|]. split; [split; assumption|]. split; [|exact R].
    intro I. apply in_app_or in I as [I|[I|[]]]; [contradiction|]. subst. apply HT, in_or_app. right. now left.
  - rewrite D. cbn [is_subscribed]. split; [reflexivity|]. split; [split; assumption|]. rewrite H0 in B. split.
    + intro I. apply B. apply in_app_or in I as [I|I]; apply in_or_app; [now left|right; now right].
    + intro I. apply in_app_or in I as [I|[I|[]]]; [contradiction|]. apply B, in_or_app. right. left.
      destruct t0, t. unfold pause_message in I. cbn in I. injection I as -> ->. reflexivity.
  - split; [exact D|]. split; [split; assumption|]. split; assumption.
  - split; [exact D|]. split; [split; assumption|]. split; assumption.
  - split; [exact D|]. split; [split; assumption|]. split; assumption.
  - split; [exact D|]. split; [split; assumption|]. split; assumption.
Qed.

(** In every state in which the client has not yet subscribed, for every toggle: if it is broadcast
    before the subscription and recorded after the pauses were sent, the client has not been told
    of it, and never will be, whatever happens afterwards - unless playback is toggled so again. *)
Theorem C68_any_toggle_missed_refuted : forall w t, w_crashed w = false -> w_client w = Fresh -> all_songs w ->
  ~ In t (w_pause_broadcasts w) -> ~ In t (w_pauses w) -> ~ In (pause_message t) (w_received w) ->
  exists w', goes_on w [Toggle t; PauseBroadcast t; Subscribe; SendSong; SendPauses; Append t] w' /\
    w_client w' = Done /\ In t (w_pauses w') /\
    forall tr w2, goes_on w' tr w2 -> only_songs_start tr -> ~ In (Toggle t) tr ->
      ~ In (pause_message t) (w_received w2).
Proof.
  intros w t Hc Hf [A1 A2] Hb Hp Hr. eexists. split; [|split; [|split]].
  - apply (goes_exec w _ [] w); [constructor|].
    step_by ltac:(apply SToggle). step_by ltac:(eapply (SPauseBroadcast _ _ (w_pause_broadcasts w) []); reflexivity).
    step_by ltac:(apply SSubscribe; exact Hf). step_by ltac:(apply SSendSong; reflexivity).
    step_by ltac:(apply SSendPauses; reflexivity).
    step_by ltac:(eapply (SAppend _ _ (w_appends w) []); reflexivity). reflexivity.
  - reflexivity.
  - cbn [upd_pauses w_pauses]. apply in_or_app. right. now left.
  - intros tr w2 G HO HT. refine (proj2 (proj2 (proj2 (never_told t _ _ _ G _ _ HO _ HT _)))).
    + reflexivity.
    + split; [exact A1|exact A2].
    + cbn [upd_pauses upd_client upd_toggle w_pause_broadcasts]. rewrite app_nil_r. exact Hb.
    + unfold heard. cbn [upd_pauses upd_client upd_toggle w_received w_client w_newest w_pauses]. rewrite Hf. cbn [is_subscribed].
      rewrite !app_nil_r. intro I. apply in_app_or in I as [I|I].
      * apply in_app_or in I as [I|I]; [contradiction|].
        destruct (w_newest w) as [m|]; [|contradiction]. destruct I as [I|[]]. specialize (A2 m eq_refl). rewrite I in A2. discriminate A2.
      * apply in_map_iff in I as (t0 & E & I). apply Hp. destruct t0, t. unfold pause_message in E. cbn in E.
        injection E as -> ->. exact I.
Qed.

(* ------------------------------------------------------------------ *)
(** ** C39 *)

(** In every state with a retained pause and everything recorded before the newest song: if
    playback is toggled twice in quick succession, the second time to resume, and both prunings
    count before either removes, the server crashes. *)
Theorem C39_two_toggles_crash_refuted : forall w m t1 t2, w_crashed w = false -> w_newest w = Some m ->
  w_pauses w <> [] -> Forall (fun p => t_index p <= start_of m) (w_pauses w) ->
  t_index t1 <= start_of m -> t_index t2 <= start_of m -> t_playing t2 = true ->
  exists w' k,
    goes_on w [Toggle t1; PauseBroadcast t1; Toggle t2; PauseBroadcast t2; Append t1; Append t2;
               Count; Count; Remove k; Remove k] w' /\ w_crashed w' = true.
Proof.
  intros w m t1 t2 Hc Hn Hne Hp H1 H2 P2.
  assert (F : Forall (fun p => t_index p <= start_of m) (w_pauses w ++ [t1])).
  { apply Forall_app. split; [exact Hp|]. apply Forall_cons; [exact H1|apply Forall_nil]. }
  assert (L : length (w_pauses w ++ [t1]) = S (length (w_pauses w))) by (rewrite app_length; cbn [length]; lia).
  pose proof (removable_all m (w_pauses w ++ [t1]) t2 F P2 H2) as R. rewrite L in R.
  assert (NZ : (0 < length (w_pauses w))%nat) by (destruct (w_pauses w); [congruence|cbn [length]; lia]).
  assert (RF : remove_first (S (length (w_pauses w))) ((w_pauses w ++ [t1]) ++ [t2]) = Ok [t2]).
  { rewrite remove_first_ok by (rewrite !app_length; cbn [length]; lia).
    rewrite <- L, skipn_app, skipn_all, Nat.sub_diag. reflexivity. }
  assert (RP : remove_first (S (length (w_pauses w))) [t2] = Panic) by (apply remove_first_panic; cbn [length]; lia).
  eexists. exists (S (length (w_pauses w))). split.
  - apply (goes_exec w _ [] w); [constructor|].
    step_by ltac:(apply SToggle). step_by ltac:(eapply (SPauseBroadcast _ _ (w_pause_broadcasts w) []); reflexivity).
    step_by ltac:(apply SToggle). step_by ltac:(eapply (SPauseBroadcast _ _ (w_pause_broadcasts w) []);
      cbn [upd_toggle upd_client w_pause_broadcasts]; now rewrite app_nil_r).
    step_by ltac:(eapply (SAppend _ _ (w_appends w) [t2]); cbn [upd_toggle upd_client w_appends]; now rewrite <- app_assoc).
    step_by ltac:(eapply (SAppend _ _ (w_appends w) []); reflexivity).
    step_by ltac:(eapply SCount; reflexivity). cbn [upd_toggle upd_client upd_pauses w_pauses w_newest w_appends w_removals w_crashed w_prunes].
    rewrite Hn, R. cbn [Nat.ltb Nat.leb].
    step_by ltac:(eapply SCount; reflexivity). cbn [upd_toggle upd_client upd_pauses w_pauses w_newest w_appends w_removals w_crashed w_prunes].
    rewrite Hn, R. cbn [Nat.ltb Nat.leb].
    step_by ltac:(eapply (SRemove _ _ (w_removals w) [_]); [cbn [upd_pauses w_removals]; rewrite <- app_assoc; reflexivity|exact RF]).
    step_by ltac:(eapply (SRemovePanic _ _ (w_removals w) []); [reflexivity|exact RP]).
    reflexivity.
  - reflexivity.
Qed.

(** A state reached by a run, with a song, a recorded pause and a resume, meets all hypotheses. *)
Example Tight_example : exists tr w, wrun tr w /\ w_crashed w = false /\ w_newest w = Some (a_song 10) /\
  w_pauses w = [tg false 3] /\ Forall (fun p => t_index p <= start_of (a_song 10)) (w_pauses w) /\
  w_client w = Fresh /\ all_songs w /\ ~ In (tg true 5) (w_pause_broadcasts w) /\ ~ In (tg true 5) (w_pauses w) /\
  ~ In (pause_message (tg true 5)) (w_received w).
Proof.
  exists [StartSong (a_song 10); NewSong (a_song 10); SongBroadcast;
     Toggle (tg false 3); PauseBroadcast (tg false 3); Append (tg false 3); Count].
  eexists. split.
  - apply (wrun_exec _ [] init_world); [constructor|]. cbn.
    song_steps.
    one_step ltac:(apply SToggle). one_step ltac:(eapply (SPauseBroadcast _ _ []); reflexivity).
    one_step ltac:(eapply (SAppend _ _ []); reflexivity). one_step ltac:(eapply SCount; reflexivity). reflexivity.
  - cbn. split; [reflexivity|]. split; [reflexivity|]. split; [reflexivity|].
    split; [apply Forall_cons; [cbn; lia|apply Forall_nil]|]. split; [reflexivity|].
    split; [split; [apply Forall_nil|intros m [= <-]; reflexivity]|].
    split; [intros []|]. split; [|intros []]. intros [E|[]]. discriminate E.
Qed.

Print Assumptions C70_any_two_songs_refuted.
Print Assumptions C70_any_slow_song_refuted.
Print Assumptions C67_any_two_toggles_refuted.
Print Assumptions C67_pause_forgotten_refuted.
Print Assumptions C68_any_toggle_missed_refuted.
Print Assumptions C39_two_toggles_crash_refuted.

(* ------------------------------------------------------------------ *)
(** ** C39: songs announced while a pruning counts *)
Lemma reads_lower lo : forall reads l i p, length reads = length l -> Forall (fun s => lo <= s) reads -> (p <= i)%nat ->
  (removable_loop lo l i p <= removable_reads (combine reads l) i p)%nat.
Proof.
  induction reads as [|s reads IH]; intros [|x l] i p Hl Hr Hp; try discriminate; [cbn; lia|].
  cbn [combine removable_loop removable_reads]. inversion Hr as [|? ? Hs Hr']; subst. cbn in Hl.
  destruct (lo <? t_index x) eqn:E1.
  - cbn [negb andb]. assert (G : forall q l' j b, (b <= j)%nat -> (b <= removable_reads (combine q l') j b)%nat).
    { clear. induction q as [|s q IH]; intros [|x l'] j b Hb; cbn; try lia.
      destruct (negb (s <? t_index x) && t_playing x)%bool; [specialize (IH l' (S j) j ltac:(lia)); lia|].
      destruct (s <? t_index x); [lia|apply IH; lia]. }
    destruct (s <? t_index x); cbn [negb andb]; [lia|]. destruct (t_playing x); [specialize (G reads l (S i) i ltac:(lia)); lia|apply G; lia].
  - replace (s <? t_index x) with false by lia. cbn [negb andb]. destruct (t_playing x); apply IH; auto; lia.
Qed.

Lemma reads_upper hi : forall reads l i p, length reads = length l -> Forall (fun s => s <= hi) reads -> (p <= i)%nat ->
  (removable_reads (combine reads l) i p <= removable_loop hi l i p)%nat.
Proof.
  induction reads as [|s reads IH]; intros [|x l] i p Hl Hr Hp; try discriminate; [cbn; lia|].
  cbn [combine removable_loop removable_reads]. inversion Hr as [|? ? Hs Hr']; subst. cbn in Hl.
  assert (G : forall l' j b, (b <= j)%nat -> (b <= removable_loop hi l' j b)%nat).
  { clear. induction l' as [|x l' IH]; intros j b Hb; cbn; try lia.
    destruct (negb (hi <? t_index x) && t_playing x)%bool; [specialize (IH (S j) j ltac:(lia)); lia|].
    destruct (hi <? t_index x); [lia|apply IH; lia]. }
  destruct (s <? t_index x) eqn:E1.
  - cbn [negb andb]. destruct (hi <? t_index x); cbn [negb andb]; [lia|].
    destruct (t_playing x); [specialize (G l (S i) i ltac:(lia)); lia|apply G; lia].
  - replace (hi <? t_index x) with false by lia. cbn [negb andb]. destruct (t_playing x); apply IH; auto; lia.
Qed.

Lemma reads_found hi : forall reads l i p, Forall (fun s => s <= hi) reads ->
  removable_reads (combine reads l) i p = p \/
  exists l1 x l2, l = l1 ++ x :: l2 /\ removable_reads (combine reads l) i p = (i + length l1)%nat /\ t_index x <= hi.
Proof.
  induction reads as [|s reads IH]; intros [|x l] i p Hr; try (now left). inversion Hr as [|? ? Hs Hr']; subst.
  cbn [combine removable_reads]. destruct (s <? t_index x) eqn:E; cbn [negb andb]; [now left|].
  destruct (t_playing x); (destruct (IH l (S i) (if t_playing x then i else p) Hr') as [R|(l1 & y & l2 & -> & R & B)]).
  - destruct (IH l (S i) i Hr') as [->|(l1 & y & l2 & -> & -> & B)].
    + right. exists [], x, l. repeat split; cbn [length]; lia.
    + right. exists (x :: l1), y, l2. repeat split; cbn [length]; lia.
  - destruct (IH (l1 ++ y :: l2) (S i) i Hr') as [->|(l3 & z & l4 & -> & -> & B')].
    + right. exists [], x, (l1 ++ y :: l2). repeat split; cbn [length]; lia.
    + right. exists (x :: l3), z, l4. repeat split; cbn [length]; lia.
  - destruct (IH l (S i) p Hr') as [->|(l1 & y & l2 & -> & -> & B)]; [now left|].
    right. exists (x :: l1), y, l2. repeat split; cbn [length]; lia.
  - destruct (IH (l1 ++ y :: l2) (S i) p Hr') as [->|(l3 & z & l4 & -> & -> & B')]; [now left|].
    right. exists (x :: l3), z, l4. repeat split; cbn [length]; lia.
Qed.

(** A pruning during whose counting songs start, none starting before [first] or after [last]: it
    removes at least the pauses one would remove that knows only [first], at most those one would
    remove that knows [last], and what remains answers every question about samples from the
    start of [last] on as before. *)
Theorem C39_songs_start_while_counting : forall first last reads l,
  length reads = length l -> Forall (fun s => start_of first <= s <= start_of last) reads ->
  let k := removable_reads (combine reads l) 0 0 in
  (removable (Some first) l <= k <= removable (Some last) l)%nat
  /\ (exists l', remove_first k l = Ok l' /\ forall x, start_of last <= x -> plays_at l' x = plays_at l x).
Proof.
  intros first last reads l Hl Hr k.
  assert (Lo : Forall (fun s => start_of first <= s) reads) by (eapply Forall_impl; [|exact Hr]; cbn; lia).
  assert (Hi : Forall (fun s => s <= start_of last) reads) by (eapply Forall_impl; [|exact Hr]; cbn; lia).
  assert (K : (removable (Some first) l <= k <= removable (Some last) l)%nat).
  { split; [apply reads_lower; auto|apply reads_upper; auto]. }
  split; [exact K|]. exists (skipn k l). split.
  - apply remove_first_ok. pose proof (removable_le (Some last) l). lia.
  - intros x Hx. unfold k. destruct (reads_found (start_of last) reads l 0 0 Hi) as [->|(l1 & y & l2 & -> & -> & B)]; [reflexivity|].
    cbn [plus]. rewrite skipn_app, skipn_all, Nat.sub_diag. cbn [skipn app]. symmetry. apply plays_suffix. lia.
Qed.
Print Assumptions C39_songs_start_while_counting.

(** Two songs; the second starts while the pruning is at the third of four pauses. *)
Example C39_counting_nonvacuous :
  let l := [tg false 1; tg true 2; tg false 3; tg true 4] in
  removable (Some (a_song 2)) l = 1%nat /\ removable (Some (a_song 10)) l = 3%nat
  /\ removable_reads (combine [2; 2; 10; 10] l) 0 0 = 3%nat
  /\ removable_reads (combine [2; 2; 2; 10] l) 0 0 = 1%nat.
Proof. repeat split. Qed.
