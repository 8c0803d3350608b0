From Verif Require Import GoBase GoBaseFacts GoUtf8 WireModel InfoerModel InfoerSpec InfoerProofs.
From Coq Require Import Permutation Sorted ZifyBool ZifyNat.
Local Open Scope Z_scope.

Definition msg_ok (m : message) : Prop :=
  match m with
  | NewSongInfo f _ _ _ _ => index_ok f
  | ChunkInfo t f n => chunk_ok {| c_startTime := t; c_startIndex := f; c_size := n |}
  | PauseInfo _ t => index_ok t
  | _ => True
  end.

Lemma messages_app a b : messages (a ++ b) = messages a ++ messages b.
Proof. unfold messages. apply flat_map_app. Qed.
Lemma rs_app a b : received_songs (a ++ b) = received_songs a ++ received_songs b.
Proof. apply flat_map_app. Qed.
Lemma rc_app a b : received_chunks (a ++ b) = received_chunks a ++ received_chunks b.
Proof. apply flat_map_app. Qed.
Lemma rt_app a b : received_toggles (a ++ b) = received_toggles a ++ received_toggles b.
Proof. apply flat_map_app. Qed.
Lemma messages_handled ms : messages (map Handled ms) = ms.
Proof. induction ms as [|m ms IH]; [reflexivity|]. unfold messages in *. cbn. now f_equal. Qed.

Lemma ok_songs ms : Forall msg_ok ms -> Forall (fun s => index_ok (startIndex s)) (received_songs ms).
Proof. induction 1 as [|m ms Hm _ IH]; [constructor|]. cbn. destruct m; cbn; auto. Qed.
Lemma ok_chunks ms : Forall msg_ok ms -> Forall chunk_ok (received_chunks ms).
Proof. induction 1 as [|m ms Hm _ IH]; [constructor|]. cbn. destruct m; cbn; auto. Qed.
Lemma ok_toggles ms : Forall msg_ok ms -> Forall (fun t => index_ok (t_index t)) (received_toggles ms).
Proof. induction 1 as [|m ms Hm _ IH]; [constructor|]. cbn. destruct m; cbn; auto. Qed.

Definition clocks (tr : list event) : list Z := flat_map (fun e => match e with PruneChunks now => [now] | _ => [] end) tr.

(** ** Per-list effects of one handled message *)
Lemma handled_songs s m s' : handled s m s' ->
  (StronglySorted (fun a b => startIndex a <= startIndex b) (songs s) -> StronglySorted (fun a b => startIndex a <= startIndex b) (songs s'))
  /\ Permutation (songs s ++ received_songs [m]) (songs s').
Proof.
  intros H. destruct H as [f file len ly md l [P S]|t f n l St|p t l St|v|m Hm]; cbn; rewrite ?app_nil_r; auto.
  destruct m; cbn in *; rewrite ?app_nil_r; auto; discriminate.
Qed.
Lemma handled_chunks s m s' : handled s m s' ->
  (StronglySorted (fun a b => c_startIndex a <= c_startIndex b) (chunks s) -> StronglySorted (fun a b => c_startIndex a <= c_startIndex b) (chunks s'))
  /\ Permutation (chunks s ++ received_chunks [m]) (chunks s') /\ (received_chunks [m] = [] -> chunks s' = chunks s).
Proof.
  intros H. destruct H as [f file len ly md l St|t f n l [P S]|p t l St|v|m Hm]; cbn; rewrite ?app_nil_r; auto.
  - split; [auto|]. split; [auto|]. discriminate.
  - destruct m; cbn in *; rewrite ?app_nil_r; auto; discriminate.
Qed.
Lemma handled_kept b all s m s' : handled s m s' -> kept b all (pauses s) -> kept b (all ++ received_toggles [m]) (pauses s').
Proof.
  intros H K. destruct H as [f file len ly md l St|t f n l St|p t l St|v|m Hm]; cbn; rewrite ?app_nil_r; auto.
  - eapply kept_stored; eauto.
  - destruct m; cbn in *; rewrite ?app_nil_r; auto; discriminate.
Qed.
Lemma handled_volume s m s' ms : handled s m s' -> volume s = received_volume ms -> volume s' = received_volume (ms ++ [m]).
Proof.
  intros H E. unfold received_volume in *. rewrite fold_left_app. rewrite <- E.
  destruct H as [f file len ly md l St|t f n l St|p t l St|v|m Hm]; cbn; auto.
  destruct m; cbn in *; auto; discriminate.
Qed.

(** ** Invariant of all runs *)
Record Inv (sr : Z) (tr : list event) (s : state) (d : display) (out : list info) : Prop := {
  inv_songs : Permutation (received_songs (messages tr)) (songs s);
  inv_songs_sorted : StronglySorted (fun a b => startIndex a <= startIndex b) (songs s);
  inv_chunks : exists r, Permutation (received_chunks (messages tr)) (r ++ chunks s)
      /\ Forall (fun c => exists now, In now (clocks tr) /\ end_time sr c < now) r;
  inv_chunks_sorted : StronglySorted (fun a b => c_startIndex a <= c_startIndex b) (chunks s);
  inv_volume : volume s = received_volume (messages tr);
  inv_display : match d with
                | HasSong _ sample cur | PausesPruned _ sample cur =>
                    cur = no_song \/ In cur (songs s) /\ startIndex cur < sample
                | _ => True
                end;
  inv_pauses : exists b, kept b (received_toggles (messages tr)) (pauses s) /\
      (b <= 0 \/ exists q, In q (songs s) /\ b <= startIndex q /\
         ((exists i, In i out /\ startIndex q < i_sample i)
          \/ match d with PausesPruned _ sample _ => startIndex q < sample | _ => False end))
}.

Lemma make_info_sample sr now sample cur pz pl v : i_sample (make_info sr now sample cur pz pl v) = sample.
Proof. reflexivity. Qed.

Lemma perm_Forall_app {A} (P : A -> Prop) l1 l2 : Permutation l1 l2 -> Forall P l1 -> Forall P l2.
Proof. intros H F. exact (Permutation_Forall H F). Qed.

Lemma run_inv sr tr s d out : client_run sr tr s d out -> Forall msg_ok (messages tr) -> Inv sr tr s d out.
Proof.
  induction 1 as [|tr s d out m s' H IH Hh|tr s out now H IH|tr s now out H IH|tr s now sample out H IH
                  |tr s now sample cur out H IH|tr s now sample cur out H IH]; intros Hok.
  - constructor; cbn; auto; try constructor.
    + exists []. split; [reflexivity|constructor].
    + exists 0. split; [|left; lia]. exists []. split; [reflexivity|]. split; [constructor|now left].
  - rewrite messages_app in Hok. apply Forall_app in Hok as [Hok _]. specialize (IH Hok).
    destruct IH as [A1 A2 A3 A4 A5 A6 A7].
    pose proof (handled_songs _ _ _ Hh) as [B1 B2]. pose proof (handled_chunks _ _ _ Hh) as (C1 & C2 & C3).
    constructor; rewrite ?messages_app; cbn [messages flat_map app].
    + rewrite rs_app, A1. exact B2.
    + auto.
    + destruct A3 as (r & P & F). exists r. split.
      * rewrite rc_app, P, <- app_assoc, C2. reflexivity.
      * eapply Forall_impl; [|exact F]. cbn. intros c (now & Hn & E). exists now. split; [|auto].
        unfold clocks. rewrite flat_map_app. apply in_or_app. auto.
    + auto.
    + eapply handled_volume; eauto.
    + assert (G : forall cur, In cur (songs s) -> In cur (songs s')).
      { intros cur Hc. apply (Permutation_in _ B2). apply in_or_app; auto. }
      destruct d; auto; (destruct A6 as [A6|[A6 A6']]; [now left|right; auto]).
    + destruct A7 as (b & K & Hb). exists b. split.
      * rewrite rt_app. eapply handled_kept; eauto.
      * destruct Hb as [Hb|(q & Q1 & Q2 & Q3)]; [now left|]. right. exists q. split; [|auto].
        apply (Permutation_in _ B2). apply in_or_app; auto.
  - rewrite messages_app in Hok. cbn in Hok. rewrite app_nil_r in Hok. specialize (IH Hok).
    destruct IH as [A1 A2 A3 A4 A5 A6 A7].
    assert (Em : messages (tr ++ [PruneChunks now]) = messages tr) by (rewrite messages_app; cbn; now rewrite app_nil_r).
    constructor; rewrite ?Em; cbn [songs chunks pauses volume set_chunks]; auto.
    + destruct A3 as (r & P & F). destruct (remove_old_chunks_spec sr now (chunks s)) as (p & E & G & _).
      exists (r ++ p). split.
      * rewrite P, <- app_assoc, <- E. reflexivity.
      * apply Forall_app. split.
        -- eapply Forall_impl; [|exact F]. cbn. intros c (n & Hn & Ec). exists n. split; [|auto].
           unfold clocks. rewrite flat_map_app. apply in_or_app; auto.
        -- eapply Forall_impl; [|exact G]. cbn. intros c Ec. exists now. split; [|auto].
           unfold clocks. rewrite flat_map_app. apply in_or_app. right. now left.
    + destruct (remove_old_chunks_spec sr now (chunks s)) as (p & E & _ & _). rewrite E in A4.
      now apply StronglySorted_app in A4 as (_ & A4 & _).
  - rewrite messages_app in Hok. cbn in Hok. rewrite app_nil_r in Hok. specialize (IH Hok).
    destruct IH as [A1 A2 A3 A4 A5 A6 A7].
    assert (Em : messages (tr ++ [ReadSample]) = messages tr) by (rewrite messages_app; cbn; now rewrite app_nil_r).
    assert (Ec : clocks (tr ++ [ReadSample]) = clocks tr) by (unfold clocks; rewrite flat_map_app; cbn; now rewrite app_nil_r).
    constructor; rewrite ?Em, ?Ec; auto.
  - rewrite messages_app in Hok. cbn in Hok. rewrite app_nil_r in Hok. specialize (IH Hok).
    destruct IH as [A1 A2 A3 A4 A5 A6 A7].
    assert (Em : messages (tr ++ [ReadSong]) = messages tr) by (rewrite messages_app; cbn; now rewrite app_nil_r).
    assert (Ec : clocks (tr ++ [ReadSong]) = clocks tr) by (unfold clocks; rewrite flat_map_app; cbn; now rewrite app_nil_r).
    constructor; rewrite ?Em, ?Ec; auto.
    assert (Hi : Forall (fun s => index_ok (startIndex s)) (songs s)).
    { apply (perm_Forall_app _ _ _ A1). now apply ok_songs. }
    destruct (current_song_right sample (songs s) Hi A2) as [(R1 & R2 & R3)|(R1 & R2)]; [right; auto|now left].
  - rewrite messages_app in Hok. cbn in Hok. rewrite app_nil_r in Hok. specialize (IH Hok).
    destruct IH as [A1 A2 A3 A4 A5 A6 A7].
    assert (Em : messages (tr ++ [PrunePauses]) = messages tr) by (rewrite messages_app; cbn; now rewrite app_nil_r).
    assert (Ec : clocks (tr ++ [PrunePauses]) = clocks tr) by (unfold clocks; rewrite flat_map_app; cbn; now rewrite app_nil_r).
    constructor; rewrite ?Em, ?Ec; cbn [songs chunks pauses volume set_pauses]; auto.
    destruct A7 as (b & K & Hb). exists (Z.max b (startIndex cur)). split; [now apply kept_prune|].
    destruct (Z.le_ge_cases (startIndex cur) b) as [L|L].
    + rewrite Z.max_l by lia. destruct Hb as [Hb|(q & Q1 & Q2 & [Q3|[]])]; [now left|]. right. exists q. auto.
    + rewrite Z.max_r by lia. destruct A6 as [->|[A6 A6']]; [left; cbn; lia|]. right. exists cur.
      split; [auto|]. split; [lia|]. now right.
  - rewrite messages_app in Hok. cbn in Hok. rewrite app_nil_r in Hok. specialize (IH Hok).
    destruct IH as [A1 A2 A3 A4 A5 A6 A7].
    assert (Em : messages (tr ++ [CountPauses]) = messages tr) by (rewrite messages_app; cbn; now rewrite app_nil_r).
    assert (Ec : clocks (tr ++ [CountPauses]) = clocks tr) by (unfold clocks; rewrite flat_map_app; cbn; now rewrite app_nil_r).
    constructor; rewrite ?Em, ?Ec; auto.
    destruct A7 as (b & K & Hb). exists b. split; [auto|].
    destruct Hb as [Hb|(q & Q1 & Q2 & Q3)]; [now left|]. right. exists q. split; [auto|]. split; [auto|]. left.
    destruct Q3 as [(i & Q3 & Q4)|Q3].
    + exists i. split; [apply in_or_app; auto|auto].
    + destruct (pauses_in_song sample (startIndex cur) (pauses s)) as [pz pl].
      eexists. split; [apply in_or_app; right; now left|]. now rewrite make_info_sample.
Qed.

(** ** Going back along a run *)
Lemma run_snoc sr tr e s d out : client_run sr (tr ++ [e]) s d out ->
  match e with
  | Handled m => exists s0, client_run sr tr s0 d out /\ handled s0 m s
  | PruneChunks now => exists s0, client_run sr tr s0 Idle out /\ s = set_chunks s0 (remove_old_chunks sr now (chunks s0))
      /\ d = ChunksPruned now
  | ReadSample => exists now, client_run sr tr s (ChunksPruned now) out /\ d = HasSample now (sample_at sr now (chunks s))
  | ReadSong => exists now sample, client_run sr tr s (HasSample now sample) out
      /\ d = HasSong now sample (current_song sample (songs s))
  | PrunePauses => exists s0 now sample cur, client_run sr tr s0 (HasSong now sample cur) out
      /\ s = set_pauses s0 (remove_old_pauses (startIndex cur) (pauses s0)) /\ d = PausesPruned now sample cur
  | CountPauses => exists now sample cur out0, client_run sr tr s (PausesPruned now sample cur) out0 /\ d = Idle
      /\ out = out0 ++ [let '(pz, playing) := pauses_in_song sample (startIndex cur) (pauses s) in
               make_info sr now sample cur pz playing (volume s)]
  end.
Proof.
  intros H. remember (tr ++ [e]) as full eqn:E.
  destruct H; [destruct tr; discriminate|..]; apply app_inj_tail in E as [-> <-]; eauto 10.
Qed.

Lemma run_handlers sr tr h s d out : client_run sr (tr ++ map Handled h) s d out ->
  exists s0, client_run sr tr s0 d out
    /\ (forall b all, kept b all (pauses s0) -> kept b (all ++ received_toggles h) (pauses s))
    /\ (received_chunks h = [] -> chunks s = chunks s0).
Proof.
  revert s. induction h as [|m h IH] using rev_ind; intros s H.
  - cbn in H. rewrite app_nil_r in H. exists s. split; [auto|]. split; [|auto]. intros. cbn. now rewrite app_nil_r.
  - rewrite map_app, app_assoc in H. cbn in H. apply run_snoc in H as (s0 & H & Hh). destruct (IH s0 H) as (s1 & R & K & C). exists s1. split; [auto|].
    pose proof (handled_chunks _ _ _ Hh) as (_ & _ & C3).
    split.
    + intros b all Hk. rewrite rt_app, app_assoc. eapply handled_kept; eauto.
    + rewrite rc_app. intros E. apply app_eq_nil in E as [E1 E2]. rewrite C3 by auto. auto.
Qed.

Lemma messages_snoc tr e h : messages (tr ++ e :: map Handled h) = messages tr ++ messages [e] ++ h.
Proof.
  rewrite messages_app. f_equal. change (e :: map Handled h) with ([e] ++ map Handled h).
  rewrite messages_app, messages_handled. reflexivity.
Qed.

Theorem display_right sr tr now h0 h1 h2 h3 s d out :
  0 < sr ->
  let tr_c := tr ++ PruneChunks now :: map Handled h0 in
  let tr_s := tr_c ++ ReadSample :: map Handled h1 in
  let tr_p := tr_s ++ ReadSong :: map Handled h2 in
  client_run sr ((tr_p ++ PrunePauses :: map Handled h3) ++ [CountPauses]) s d out ->
  Forall msg_ok (messages tr ++ h0 ++ h1 ++ h2 ++ h3) ->
  Forall (near sr now) (received_chunks (messages tr)) ->
  Forall (fun now' => now' <= now) (clocks tr) ->
  received_chunks h0 = [] ->
  exists out0 i, out = out0 ++ [i] /\
    (0 <= i_sample i < 2 ^ 63 -> i_sample i = 0 \/ Forall (fun o => i_sample o <= i_sample i) out0 ->
     right_display sr now (messages tr ++ h0) (messages tr ++ h0 ++ h1) (messages tr ++ h0 ++ h1 ++ h2 ++ h3) i).
Proof.
  cbn zeta. intros Hsr H Hok Hnear Hclk Hh0.
  apply run_snoc in H as (now' & sample & cur & out0 & H & -> & ->).
  assert (Mall : messages (((tr ++ PruneChunks now :: map Handled h0) ++ ReadSample :: map Handled h1) ++ ReadSong :: map Handled h2)
                 ++ h3 = messages tr ++ h0 ++ h1 ++ h2 ++ h3).
  { rewrite !messages_snoc. cbn. now rewrite <- !app_assoc. }
  pose proof (run_inv _ _ _ _ _ H) as I4.
  assert (M4 : messages ((((tr ++ PruneChunks now :: map Handled h0) ++ ReadSample :: map Handled h1) ++ ReadSong :: map Handled h2)
                 ++ PrunePauses :: map Handled h3) = messages tr ++ h0 ++ h1 ++ h2 ++ h3).
  { rewrite (messages_snoc _ PrunePauses). exact Mall. }
  rewrite (messages_snoc _ PrunePauses) in I4. change (messages [PrunePauses]) with (@nil message) in I4. cbn [app] in I4.
  rewrite Mall in I4. specialize (I4 Hok).
  change (PrunePauses :: map Handled h3) with ([PrunePauses] ++ map Handled h3) in H. rewrite app_assoc in H.
  apply run_handlers in H as (s3 & H & K3 & _). apply run_snoc in H as (s3' & n & sm & c & H & -> & [= <- <- <-]).
  change (ReadSong :: map Handled h2) with ([ReadSong] ++ map Handled h2) in H. rewrite app_assoc in H.
  apply run_handlers in H as (s2 & H & K2 & _). apply run_snoc in H as (n & sm & H & [= <- <- ->]).
  assert (Ms : messages ((tr ++ PruneChunks now :: map Handled h0) ++ ReadSample :: map Handled h1) = messages tr ++ h0 ++ h1).
  { rewrite !messages_snoc. cbn. now rewrite <- !app_assoc. }
  pose proof (run_inv _ _ _ _ _ H) as I2. rewrite Ms in I2.
  assert (Hok2 : Forall msg_ok (messages tr ++ h0 ++ h1)) by (rewrite !Forall_app in *; tauto).
  specialize (I2 Hok2).
  pose proof (inv_songs _ _ _ _ _ I2) as I2s. rewrite Ms in I2s.
  pose proof (inv_pauses _ _ _ _ _ I2) as I2p. rewrite Ms in I2p.
  pose proof (inv_volume _ _ _ _ _ I4) as I4v. rewrite M4 in I4v.
  pose proof (inv_pauses _ _ _ _ _ I4) as I4p. rewrite M4 in I4p.
  change (ReadSample :: map Handled h1) with ([ReadSample] ++ map Handled h1) in H. rewrite app_assoc in H.
  apply run_handlers in H as (s1 & H & _ & _). apply run_snoc in H as (n & H & [= <- ->]).
  change (PruneChunks now :: map Handled h0) with ([PruneChunks now] ++ map Handled h0) in H. rewrite app_assoc in H.
  apply run_handlers in H as (s0 & H & _ & C0). rewrite (C0 Hh0) in *. clear C0.
  apply run_snoc in H as (s4 & H & -> & [= ->]). cbn [chunks set_chunks] in *.
  assert (Hok0 : Forall msg_ok (messages tr)) by (rewrite !Forall_app in *; tauto).
  pose proof (run_inv _ _ _ _ _ H Hok0) as I0.
  set (sample := sample_at sr now (remove_old_chunks sr now (chunks s4))) in *.
  set (cur := current_song sample (songs s2)) in *.
  destruct (pauses_in_song sample (startIndex cur) (pauses s)) as [pz pl] eqn:Ep.
  eexists _, _. split; [reflexivity|]. rewrite make_info_sample. intros Hrange Hmono.
  assert (Rs : right_sample sr now (received_chunks (messages tr ++ h0)) sample).
  { rewrite rc_app, Hh0, app_nil_r. destruct (inv_chunks _ _ _ _ _ I0) as (r & P & F).
    apply (right_sample_perm _ _ (r ++ chunks s4)); [now symmetry|].
    pose proof (ok_chunks _ Hok0) as Oc. apply (Permutation_Forall P) in Oc. apply (Permutation_Forall P) in Hnear.
    apply sample_read_right; auto.
    - now apply Forall_app in Hnear as [_ Hn].
    - apply Forall_forall. intros c Hc. rewrite Forall_forall in F. destruct (F c Hc) as (n & Hn & Ec).
      apply Forall_app in Oc as [Oc _]. rewrite Forall_forall in Oc. rewrite end_time_right in Ec by auto.
      rewrite Forall_forall in Hclk. specialize (Hclk n Hn). lia.
    - apply (inv_chunks_sorted _ _ _ _ _ I0). }
  assert (Rg : right_song sample (received_songs (messages tr ++ h0 ++ h1)) cur).
  { apply (right_song_perm _ (songs s2)); [symmetry; apply I2s|].
    apply current_song_right; [|apply (inv_songs_sorted _ _ _ _ _ I2)].
    apply (Permutation_Forall I2s). now apply ok_songs. }
  assert (Start : 0 <= startIndex cur <= sample /\ (startIndex cur < sample \/ sample = 0)).
  { destruct Rg as [(G1 & G2 & G3)|(G1 & G2)].
    - pose proof (ok_songs _ Hok2) as Os. rewrite Forall_forall in Os. apply Os in G1. unfold index_ok in G1. lia.
    - rewrite G1. cbn. lia. }
  pose proof (ok_toggles _ Hok) as Ot.
  assert (Fin : exists order, Permutation (received_toggles (messages tr ++ h0 ++ h1 ++ h2 ++ h3)) order /\ sorted_toggles order
    /\ pauses_in_song sample (startIndex cur) (pauses s) = (paused_samples order (startIndex cur) sample, plays_at order (sample - 1))).
  { destruct Hmono as [Hz|Hf].
    - destruct I4p as (b & (r & P & S & _) & _). exists (merge r (pauses s)).
      split; [now rewrite <- merge_perm|]. split; [now apply merge_sorted|].
      pose proof (Permutation_Forall P Ot) as Ol. apply Forall_app in Ol as [Ol1 Ol2].
      rewrite pauses_in_song_right by (auto; lia).
      rewrite !paused_nil by lia. f_equal. rewrite Hz.
      assert (N : forall l, Forall (fun t => index_ok (t_index t)) l -> plays_at l (0 - 1) = true).
      { intros l Hl. apply (plays_at_app_under []). eapply Forall_impl; [|exact Hl]. cbn. unfold index_ok. intros; lia. }
      rewrite !N; auto. eapply Permutation_Forall; [apply merge_perm|]. apply Forall_app; auto.
    - apply kept_count; [lia|lia|tauto|auto|].
      replace (messages tr ++ h0 ++ h1 ++ h2 ++ h3) with ((messages tr ++ h0 ++ h1) ++ h2 ++ h3) by (now rewrite <- !app_assoc).
      rewrite rt_app, (rt_app h2 h3), app_assoc. apply K3. cbn [pauses set_pauses].
      replace (startIndex cur) with (Z.max (startIndex cur) (startIndex cur)) at 1 by lia.
      apply kept_prune. apply K2.
      destruct I2p as (b & K & Hb). apply (kept_mono b); [|exact K].
      destruct Hb as [Hb|(q & Q1 & Q2 & [(i & Q3 & Q4)|[]])]; [lia|].
      assert (Ho : i_sample i <= sample) by (rewrite Forall_forall in Hf; now apply Hf).
      assert (Hq : In q (received_songs (messages tr ++ h0 ++ h1))) by
        (apply (Permutation_in _ (Permutation_sym I2s)); auto).
      destruct Rg as [(G1 & G2 & G3)|(G1 & G2)].
      + assert (startIndex q <= startIndex cur); [|lia]. apply G3; [auto|lia].
      + specialize (G2 q Hq). lia. }
  destruct Fin as (order & P & S & E). rewrite E in Ep. injection Ep as <- <-.
  exists order. cbn [i_sample i_song make_info]. split; [auto|]. split; [auto|]. split; [auto|]. split; [auto|].
  rewrite I4v. reflexivity.
Qed.
