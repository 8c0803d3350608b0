(** C116: what a process keeps does not grow with the time it has been running. *)
From Verif Require Import GoBase GoUtf8 WireModel SenderModel SenderSpec SenderProofs InfoerModel InfoerSpec InfoerProofs InfoerMoreProofs
  ServerModel ServerSpec ServerProofs RetainSpec RetainProofs.
From Coq Require Import Permutation Sorted.
Local Open Scope Z_scope.

(** The server's list of connections has every open connection once and nothing else,
    however many clients have come and gone. *)
Theorem C116_connections : forall h st, added_once h -> run_ops new_mms h = Ok st ->
  NoDup (connections st) /\ (forall c, In c (connections st) <-> open_after h c)
  /\ forall clients, (forall c, open_after h c -> In c clients) -> (length (connections st) <= length clients)%nat.
Proof.
  intros h st Ho Hr. destruct (run_ops_inv h st Ho Hr) as (N & O & _). split; [exact N|]. split; [exact O|].
  intros clients Hc. apply NoDup_incl_length; [exact N|]. intros c Hi. now apply Hc, O.
Qed.

(** What is kept about the subscriptions of a connection, open or closed: the channels it
    ever asked for, as often as it did. *)
Theorem C116_subscriptions_partial : forall h st c, run_ops new_mms h = Ok st ->
  (channels st c = None <-> forall ch, ~ In (SenderModel.Subscribe c ch) h)
  /\ (forall l, channels st c = Some l -> l = requests h c).
Proof.
  intros h st c Hr. rewrite (channels_are h st Hr c). split.
  - assert (Q : forall ch, In ch (requests h c) <-> In (SenderModel.Subscribe c ch) h).
    { intros ch. unfold requests. rewrite in_flat_map. split.
      - intros (o & Ho & Hi). destruct o as [|?|c' ch']; try (now destruct Hi). destruct (Nat.eqb_spec c' c); [|now destruct Hi].
        destruct Hi as [<-|[]]. now subst c'.
      - intros H. exists (SenderModel.Subscribe c ch). split; [exact H|]. rewrite Nat.eqb_refl. now left. }
    unfold entry. destruct (requests h c) as [|a l]; split.
    + intros _ ch H. apply Q in H. destruct H.
    + reflexivity.
    + intros E. discriminate E.
    + intros H. exfalso. apply (H a), Q. now left.
  - unfold entry. intros l E. destruct (requests h c); [discriminate E|]. now injection E.
Qed.

(** So the memory a server holds for subscriptions grows with every client that ever
    subscribed: after any number of visits, with nobody connected, as many entries are left;
    and a client that stays can enlarge its entry without end. *)
Theorem C116_subscriptions_refuted : forall n,
  (exists h st, added_once h /\ run_ops new_mms h = Ok st /\ (forall c, ~ open_after h c) /\ connections st = []
     /\ forall c, (c < n)%nat -> channels st c <> None)
  /\ (exists h st l, added_once h /\ run_ops new_mms h = Ok st /\ connections st = [0%nat]
     /\ channels st 0%nat = Some l /\ (n < length l)%nat).
Proof.
  intros n. split.
  - destruct (run_ops_ok (visits n) new_mms) as [st E]. exists (visits n), st.
    assert (Ho : added_once (visits n)) by (unfold added_once; rewrite visits_adds; apply seq_NoDup).
    split; [exact Ho|]. split; [exact E|]. split; [apply visits_closed|]. split.
    + destruct (run_ops_inv _ _ Ho E) as (_ & O & _). destruct (connections st) as [|c l] eqn:Ec; [reflexivity|].
      exfalso. apply (visits_closed n c). apply O. now left.
    + intros c Hc. rewrite (channels_are _ _ E), visits_requests by exact Hc. discriminate.
  - set (h := AddConn 0 :: repeat (SenderModel.Subscribe 0 META) (S n)).
    assert (R : forall k, requests (AddConn 0 :: repeat (SenderModel.Subscribe 0 META) k) 0 = repeat META k).
    { intros k. unfold requests. cbn [flat_map app]. induction k as [|k IH]; [reflexivity|]. cbn [repeat flat_map Nat.eqb app]. now rewrite IH. }
    assert (A : flat_map (fun o => match o with AddConn c => [c] | _ => [] end) h = [0%nat]).
    { unfold h. cbn [flat_map app]. f_equal. induction (S n) as [|k IH]; [reflexivity|exact IH]. }
    destruct (run_ops_ok h new_mms) as [st E]. exists h, st, (repeat META (S n)).
    assert (Ho : added_once h) by (unfold added_once; rewrite A; repeat constructor; intros []).
    split; [exact Ho|]. split; [exact E|]. split.
    + assert (G : forall k st0, run_ops st0 (repeat (SenderModel.Subscribe 0 META) k) = Ok st -> connections st = connections st0).
      { induction k as [|k IH]; intros st0 E0; cbn [repeat run_ops apply_op obind] in E0.
        - now injection E0 as ->.
        - rewrite (IH _ E0). reflexivity. }
      unfold h in E. change (run_ops (add_conn new_mms 0) (repeat (SenderModel.Subscribe 0 META) (S n)) = Ok st) in E.
      rewrite (G _ _ E). reflexivity.
    + split; [|rewrite repeat_length; lia]. rewrite (channels_are _ _ E). unfold h. rewrite R. reflexivity.
Qed.

(** The info client forgets chunks that are over: after it has looked at time [now], only
    chunks that have not ended are left, and of a regular schedule that reaches at most
    [ahead] ns into the future at most [ahead / d + 2] chunks. *)
Theorem C116_chunks : forall sr d ahead tr now s out, 0 < sr -> 0 < d -> 0 <= ahead ->
  client_run sr (tr ++ [PruneChunks now]) s (ChunksPruned now) out ->
  regular sr d (received_chunks (messages tr)) ->
  Forall (fun c => c_startTime c <= now + ahead) (received_chunks (messages tr)) ->
  Forall (fun c => In c (received_chunks (messages tr)) /\ now <= chunk_end sr c) (chunks s)
  /\ zlen (chunks s) <= ahead / d + 2.
Proof.
  intros sr d ahead tr now s out Hsr Hd Ha H R F.
  destruct (chunks_kept _ _ _ _ _ H) as (S & r & P). rewrite messages_app, received_chunks_app in P. cbn in P. rewrite app_nil_r in P.
  assert (Hhd : match chunks s with [] => True | c :: _ => now <= end_time sr c end).
  { inversion H; subst;
      match goal with E : _ ++ [_] = _ ++ [_] |- _ => apply app_inj_tail in E as [E0 E]; try discriminate E end.
    cbn [chunks set_chunks].
    match goal with |- context [remove_old_chunks sr now ?l] =>
      destruct (remove_old_chunks_spec sr now l) as (r2 & _ & _ & Hm); exact Hm end. }
  pose proof (regular_perm _ _ _ _ P R) as R'. apply regular_tail in R'.
  assert (F' : Forall (fun c => c_startTime c <= now + ahead) (chunks s)).
  { apply (Permutation_Forall P) in F. now apply Forall_app in F. }
  destruct (chunks s) as [|c l]; [split; [constructor|cbn; pose proof (Z.div_pos ahead d); lia]|].
  assert (Hc : now <= chunk_end sr c) by (rewrite <- end_time_right; [exact Hhd|exact Hsr|]; destruct R' as (Ok' & _); now inversion Ok').
  pose proof R' as (_ & En & _). split.
  - apply Forall_forall. intros x Hx. split; [apply (Permutation_in _ (Permutation_sym P)), in_or_app; now right|].
    destruct Hx as [<-|Hx]; [exact Hc|]. pose proof (in_order_end _ _ _ _ x R' S Hx).
    rewrite (En c (or_introl eq_refl)) in Hc. rewrite (En x (or_intror Hx)). lia.
  - pose proof (spread _ _ Hd _ _ _ R' S F') as Sp. rewrite (En c (or_introl eq_refl)) in Hc.
    assert (d * (zlen l - 1) <= ahead) by lia.
    assert (zlen l - 1 <= ahead / d) by (apply Z.div_le_lower_bound; lia).
    unfold zlen in *. cbn [length]. lia.
Qed.

(** It forgets pauses: with toggles announced in order and in turn, after it has looked at a
    song at most two toggles from before the song are left. *)
Theorem C116_client_pauses : forall sr tr s now sample cur out,
  client_run sr (tr ++ [PrunePauses]) s (PausesPruned now sample cur) out ->
  growing (received_toggles (messages tr)) -> alternating (received_toggles (messages tr)) ->
  (length (pauses s) <= 2 + toggles_from (startIndex cur) (received_toggles (messages tr)))%nat.
Proof.
  intros sr tr s now sample cur out H G A.
  inversion H as [ |? s1 ? ? ? ? H1 ? E| | | |? s1 ? ? ? ? H1 E|]; subst;
    match goal with E : _ ++ [_] = _ ++ [_] |- _ => apply app_inj_tail in E as [E0 E]; try discriminate E end.
  subst. cbn [pauses set_pauses].
  destruct (pauses_suffix _ _ _ _ _ H1 G) as [r Er]. rewrite Er in G, A. rewrite Er, toggles_from_app.
  pose proof (remove_old_pauses_short (startIndex cur) (pauses s1) (alternating_suffix _ _ A) (growing_le _ (proj2 (growing_app _ _ G)))). lia.
Qed.

(** So does the server. *)
Theorem C116_server_pauses : forall ev m h l, sequential (ev ++ [Pruned]) (Some m) h l -> alternating h ->
  (length l <= 2 + toggles_from (start_of m + 1) h)%nat.
Proof.
  intros ev m h l H A. inversion H as [|? ? ? ? ? H0|? ? ? ? ? H0|? ? ? l0 ? H0 Hp]; subst;
    match goal with E : _ ++ [_] = _ ++ [_] |- _ => apply app_inj_tail in E as [E0 E]; try discriminate E end.
  destruct (sequential_inv _ _ _ _ H0) as (S & r & -> & _).
  apply StronglySorted_app in S as (_ & S & _). apply alternating_suffix in A.
  pose proof (remove_old_short m l0 l A S Hp). rewrite toggles_from_app. lia.
Qed.

(** But the info client never forgets a song, with its lyrics: whatever happens, it keeps
    all that were announced. *)
Theorem C116_songs_kept_partial : forall sr tr s d out, client_run sr tr s d out ->
  Permutation (received_songs (messages tr)) (songs s).
Proof. apply songs_kept. Qed.

(** [n] short songs, one after the other *)
Fixpoint short_songs (n : nat) : list message :=
  match n with O => [] | S k => short_songs k ++ [NewSongInfo (Z.of_nat (S k)) [] 1 [] None] end.

Lemma short_songs_run n : exists s, client_run 1 (map Handled (short_songs n)) s Idle []
  /\ chunks s = [] /\ pauses s = []
  /\ StronglySorted (fun a b => startIndex a <= startIndex b) (songs s)
  /\ Forall (fun x => startIndex x <= Z.of_nat n /\ length_ x = 1) (songs s) /\ length (songs s) = n.
Proof.
  induction n as [|n (s & H & C & P & St & F & L)].
  - exists init_state. split; [constructor|]. repeat split; constructor.
  - set (x := song_of (Z.of_nat (S n)) [] 1 [] None).
    assert (S' : StronglySorted (fun a b => startIndex a <= startIndex b) (songs s ++ [x])).
    { apply StronglySorted_snoc. split; [exact St|]. eapply Forall_impl; [|exact F].
      intros a [Ha _]. unfold x. cbn [startIndex song_of]. lia. }
    exists (set_songs s (songs s ++ [x])). cbn [songs chunks pauses set_songs]. split.
    + cbn [short_songs]. rewrite map_app. cbn [map]. apply RunHandle with s; [exact H|].
      apply HandleSong. split; [reflexivity|exact S'].
    + split; [exact C|]. split; [exact P|]. split; [exact S'|]. split.
      * apply Forall_app. split; [|repeat constructor; unfold x; cbn [startIndex song_of length_]; lia].
        eapply Forall_impl; [|exact F]. intros a [Ha Hb]. split; [lia|exact Hb].
      * rewrite app_length, L. cbn. lia.
Qed.

(** After any number of songs that are all over (for the sample just displayed), the client
    still has every one of them. *)
Theorem C116_songs_refuted : forall n, Z.of_nat n < 2 ^ 60 -> exists tr s i,
  client_run 1 tr s Idle [i] /\ length (songs s) = n
  /\ Forall (fun x => startIndex x + length_ x < i_sample i) (songs s).
Proof.
  intros n Hn. destruct (short_songs_run n) as (s & H & C & P & _ & F & L).
  set (f := Z.of_nat n + 2).
  set (c := {| c_startTime := 0; c_startIndex := f; c_size := 5 |}).
  assert (H1 : client_run 1 (map Handled (short_songs n) ++ [Handled (ChunkInfo 0 f 5)]) (set_chunks s [c]) Idle []).
  { apply RunHandle with s; [exact H|]. apply HandleChunk. rewrite C. split; [reflexivity|repeat constructor]. }
  pose proof (RunPruneChunks _ _ _ _ 0 H1) as H2. cbn [chunks set_chunks] in H2.
  assert (remove_old_chunks 1 0 [c] = [c]) as E by reflexivity. rewrite E in H2. clear E.
  pose proof (RunReadSample _ _ _ _ _ H2) as H3. pose proof (RunReadSong _ _ _ _ _ _ H3) as H4.
  pose proof (RunPrunePauses _ _ _ _ _ _ _ H4) as H5. pose proof (RunCountPauses _ _ _ _ _ _ _ H5) as H6.
  cbn [chunks set_chunks songs pauses set_pauses app volume] in H6.
  match type of H6 with client_run _ ?t ?s' _ [?i] => exists t, s', i end. split; [exact H6|].
  cbn [songs set_chunks set_pauses]. split; [exact L|].
  assert (Ec : sample_at 1 0 [c] = f).
  { unfold sample_at, c. cbn [c_startTime c_startIndex]. unfold second. rewrite Z.sub_diag.
    change (wrap64 (wrap64 0 * 1)) with 0. change (go_div 0 1000000000) with 0.
    assert (wrap64 f = f) as Ef by (apply w64; unfold f; lia).
    rewrite Z.add_0_r, Ef. exact Ef. }
  rewrite P, Ec. eapply Forall_impl; [|exact F]. intros a [Ha Hb].
  match goal with |- context [let '(_, _) := ?e in _] => destruct e end. cbn [i_sample make_info]. rewrite Hb. unfold f. lia.
Qed.

(** * Examples *)
Example C116_connections_nonvacuous : exists h st, added_once h /\ run_ops new_mms h = Ok st
  /\ h = [AddConn 1; AddConn 2; SenderModel.Subscribe 1 META; DelConn 1; AddConn 3] /\ connections st = [2; 3]%nat
  /\ channels st 1%nat = Some [META].
Proof.
  set (h := [AddConn 1; AddConn 2; SenderModel.Subscribe 1 META; DelConn 1; AddConn 3]).
  destruct (run_ops_ok h new_mms) as [st E]. exists h, st. split.
  - unfold added_once. cbn. repeat constructor; cbn; lia.
  - split; [exact E|]. cbn in E. injection E as <-. split; [reflexivity|split; reflexivity].
Qed.

Definition example_chunks : list message := [ChunkInfo 0 10 5; ChunkInfo 5000000000 15 5; ChunkInfo 10000000000 20 5].
Definition example_chunk_list : list chunk :=
  [ {| c_startTime := 0; c_startIndex := 10; c_size := 5 |}; {| c_startTime := 5000000000; c_startIndex := 15; c_size := 5 |};
    {| c_startTime := 10000000000; c_startIndex := 20; c_size := 5 |} ].
Example C116_chunks_nonvacuous :
  regular 1 5000000000 (received_chunks example_chunks)
  /\ Forall (fun c => c_startTime c <= 6000000000 + 4000000000) (received_chunks example_chunks)
  /\ exists s, client_run 1 (map Handled example_chunks ++ [PruneChunks 6000000000]) s (ChunksPruned 6000000000) []
     /\ length (chunks s) = 2%nat.
Proof.
  split; [|split].
  - unfold regular. cbn [received_chunks example_chunks flat_map app]. split.
    { repeat constructor; cbn; unfold second; lia. }
    split; [intros c [<-|[<-|[<-|[]]]]; reflexivity|]. split.
    { intros c c' [<-|[<-|[<-|[]]]] [<-|[<-|[<-|[]]]]; cbn; lia. }
    cbn. repeat constructor; cbn; lia.
  - cbn. repeat constructor; cbn; lia.
  - eexists. split.
    + apply (RunPruneChunks 1 _ {| songs := []; chunks := example_chunk_list; pauses := []; volume := 0 |}).
      change (map Handled example_chunks) with ((([] ++ [Handled (ChunkInfo 0 10 5)]) ++ [Handled (ChunkInfo 5000000000 15 5)])
        ++ [Handled (ChunkInfo 10000000000 20 5)]).
      apply RunHandle with {| songs := []; chunks := firstn 2 example_chunk_list; pauses := []; volume := 0 |};
        [apply RunHandle with {| songs := []; chunks := firstn 1 example_chunk_list; pauses := []; volume := 0 |};
          [apply RunHandle with init_state; [constructor|]|]|].
      all: match goal with |- handled ?s (ChunkInfo ?t ?f ?n) ?s' => apply (HandleChunk s t f n (chunks s')) end;
        (split; [reflexivity|repeat constructor; cbn; lia]).
    + reflexivity.
Qed.

Definition example_toggles : list toggle :=
  [ {| t_playing := false; t_index := 3 |}; {| t_playing := true; t_index := 5 |}; {| t_playing := false; t_index := 8 |};
    {| t_playing := true; t_index := 9 |}; {| t_playing := false; t_index := 20 |}; {| t_playing := true; t_index := 31 |} ].
Example C116_pauses_nonvacuous : growing example_toggles /\ alternating example_toggles
  /\ length (remove_old_pauses 21 example_toggles) = 3%nat /\ toggles_from 21 example_toggles = 1%nat.
Proof.
  split; [unfold growing, example_toggles; repeat constructor; cbn; lia|]. split.
  - intros before a b after E. unfold example_toggles in E.
    do 6 (destruct before as [|? before]; [cbn in E; try discriminate E; injection E; intros; subst; reflexivity|];
          cbn [app] in E; try discriminate E; apply (f_equal (@tl toggle)) in E; cbn [tl] in E).
    destruct before; discriminate E.
  - split; reflexivity.
Qed.

Example C116_server_nonvacuous : exists ev m h l, sequential (ev ++ [Pruned]) (Some m) h l /\ h = example_toggles /\ length l = 3%nat
  /\ start_of m = 20.
Proof.
  assert (H : sequential ((map Toggled (firstn 5 example_toggles) ++ [SongStarts (NewSongInfo 20 [] 5 [] None)]) ++ [Toggled {| t_playing := true; t_index := 31 |}])
    (Some (NewSongInfo 20 [] 5 [] None)) example_toggles example_toggles).
  { change example_toggles with (firstn 5 example_toggles ++ [{| t_playing := true; t_index := 31 |}]) at 2 3.
    apply SeqToggle; [|repeat constructor; cbn; lia]. apply SeqSong with None; [|intros ? E; discriminate E].
    pose proof SeqInit as Q.
    apply (SeqToggle _ _ _ _ {| t_playing := false; t_index := 3 |}) in Q; [|constructor].
    apply (SeqToggle _ _ _ _ {| t_playing := true; t_index := 5 |}) in Q; [|repeat constructor; cbn; lia].
    apply (SeqToggle _ _ _ _ {| t_playing := false; t_index := 8 |}) in Q; [|repeat constructor; cbn; lia].
    apply (SeqToggle _ _ _ _ {| t_playing := true; t_index := 9 |}) in Q; [|repeat constructor; cbn; lia].
    apply (SeqToggle _ _ _ _ {| t_playing := false; t_index := 20 |}) in Q; [|repeat constructor; cbn; lia].
    exact Q. }
  do 4 eexists. split; [eapply SeqPrune; [exact H|reflexivity]|]. split; [reflexivity|]. split; reflexivity.
Qed.

Print Assumptions C116_connections.
Print Assumptions C116_subscriptions_partial.
Print Assumptions C116_subscriptions_refuted.
Print Assumptions C116_chunks.
Print Assumptions C116_client_pauses.
Print Assumptions C116_server_pauses.
Print Assumptions C116_songs_kept_partial.
Print Assumptions C116_songs_refuted.
