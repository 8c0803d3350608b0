(** C122: playing songs does not use up the files a process may have open. *)
From Verif Require Import GoBase PlaylistModel OpenFilesModel OpenFilesSpec OpenFilesProofs.

(** While the garbage collector keeps up (never more than [k] files opened since it last closed
    all it could) and at most [m] clients are connected, with room for both: the loop streams
    exactly as if opening never failed, so that C04-C12 apply as they stand; every song is
    announced with the lyrics and tags that are there; only songs that are missing or cannot be
    decoded are skipped; no client is refused.  Missing: nobody promises that the collector
    keeps up, and the program itself closes nothing (below). *)
Theorem C122_while_collected_partial : forall limit base exists_ decode lyrics_file contents nan_break k m songs acts s es,
  base + m + k + 1 < limit ->
  hrun limit base exists_ decode lyrics_file contents nan_break (fresh songs) acts = Some (s, es) ->
  keeps_up k 0 es -> clients_at_most m 0 es ->
  prun (fun f => if exists_ f then decode f else None) nan_break (new_playlist songs) (loop_actions acts)
    = Some (loop s, stream_events es)
  /\ (forall f a, In (HAnnounced f a) es ->
        a = {| ab_lyrics := if lyrics_file f then ab_lyrics (contents f) else [];
               ab_tags := if exists_ f then ab_tags (contents f) else [] |})
  /\ (forall f, In (HSkipped f) es -> exists_ f = false \/ decode f = None)
  /\ ~ In HRefused es.
Proof.
  intros limit base exists_ decode lyrics_file contents nan_break k m songs acts s es L H Kp Cl.
  destruct (hrun_good limit base exists_ decode lyrics_file contents nan_break acts k m 0 0 (fresh songs) s es L
    ltac:(lia) ltac:(lia)) as (H1 & H2 & H3 & H4); try assumption.
  { constructor; cbn; try lia; try reflexivity. apply Forall_nil. }
  split; [exact H1|]. split; [exact H2|]. split; [|exact H3].
  intros f Hf. apply H4 in Hf. unfold plain_decode in Hf. destruct (exists_ f); [now right|now left].
Qed.

(** The program itself closes no file: every file ever opened is open until the collector
    finds it. *)
Theorem C122_only_the_collector_closes : forall limit base exists_ decode lyrics_file contents nan_break songs acts s es,
  hrun limit base exists_ decode lyrics_file contents nan_break (fresh songs) acts = Some (s, es) ->
  held s + lost s + collected es = opens es.
Proof. intros. apply hrun_account in H. exact H. Qed.

(** Refuted: without the collector the server can open only so many files, and start only so
    many songs, in its whole life, whatever its playlist and its clients do. *)
Theorem C122_so_many_songs_refuted : forall limit base exists_ decode lyrics_file contents nan_break songs acts s es,
  base <= limit -> no_collector acts ->
  hrun limit base exists_ decode lyrics_file contents nan_break (fresh songs) acts = Some (s, es) ->
  base + opens es <= limit /\ base + songs_started es <= limit.
Proof.
  intros limit base exists_ decode lyrics_file contents nan_break songs acts s es B N H.
  pose proof (hrun_not_collected _ _ _ _ _ _ _ _ _ _ _ N H) as H0. pose proof (hrun_account _ _ _ _ _ _ _ _ _ _ _ H) as H1.
  pose proof (hrun_started _ _ _ _ _ _ _ _ _ _ _ H) as H2.
  assert (H3 : used base s <= limit).
  { apply (hrun_used limit base exists_ decode lyrics_file contents nan_break acts (fresh songs) s es); [|exact H].
    unfold used. cbn. lia. }
  unfold used in H3. cbn in H1. lia.
Qed.

(** Refuted: with one file in the playlist that is not an mp3 the loop uses up all files
    without pushing a single sample, that is, in no time of the stream; the next client is
    refused, and after that no client is ever served again, even if the collector comes. *)
Theorem C122_unplayable_song_refuted : forall limit base exists_ decode lyrics_file contents nan_break f s,
  f <> [] -> exists_ f = true -> decode f = None ->
  at_pc (loop s) = AtTop -> PlaylistModel.songs (loop s) = [f] -> (0 <= position (loop s))%Z ->
  used base s <= limit -> accepting s = true ->
  exists acts s1 es, hrun limit base exists_ decode lyrics_file contents nan_break s acts = Some (s1, es)
    /\ stream_events es = [] /\ last es HLeft = HRefused
    /\ forall acts2 s2 es2, hrun limit base exists_ decode lyrics_file contents nan_break s1 acts2 = Some (s2, es2) ->
         ~ In HAccepted es2.
Proof.
  intros limit base exists_ decode lyrics_file contents nan_break f s F Ex De P Sg Ps U A.
  destruct (spin limit base exists_ decode lyrics_file contents nan_break f F Ex De (limit - used base s) s)
    as (s1 & es & H & (P1 & _) & E & U1 & A1); [now split|lia|].
  assert (St : hstep limit base exists_ decode lyrics_file contents nan_break s1 HAccept
               = Some (set_conns s1 (conns s1) false, [HRefused])).
  { unfold hstep, dead. rewrite P1, A1, A. unfold room. rewrite U1, Nat.ltb_irrefl. reflexivity. }
  exists (rounds (limit - used base s) ++ [HAccept]), (set_conns s1 (conns s1) false), (es ++ [HRefused]).
  split. { rewrite hrun_app, H. cbn [hrun]. now rewrite St. }
  split. { rewrite stream_app, E. reflexivity. }
  split. { apply last_last. }
  intros acts2 s2 es2 H2. exact (proj2 (hrun_ended limit base exists_ decode lyrics_file contents nan_break acts2 (set_conns s1 (conns s1) false) s2 es2 eq_refl H2)).
Qed.

(** *** Non-vacuity *)
Definition ex_song : song := T "a.mp3".
Definition ex_bad : song := T "b.mp3".
Definition ex_decode (f : song) : option (list sample) := if text_eqb f ex_song then Some [(1%N, 2%N)] else None.
Definition ex_about (f : song) : about := {| ab_lyrics := T "la la"; ab_tags := T "A Title" |}.
Definition one_play : list haction :=
  map HLoop [PNext; POpen; PCmp; PBlock; PCheck] ++ [HLyrics 0; HTags 0].

(** A song played, announced with what is there, a client served, all files collected. *)
Example C122_nonvacuous : exists s es,
  hrun 8 3 (fun _ => true) ex_decode (fun _ => true) ex_about 0 (fresh [ex_song; ex_bad])
    ([HLoop (ASetPlaying true); HAccept] ++ one_play ++ [HCollect 3; HLoop PNext; HLoop POpen; HCollect 1; HLeave]) = Some (s, es)
  /\ keeps_up 3 0 es /\ clients_at_most 1 0 es
  /\ In (HAnnounced ex_song {| ab_lyrics := T "la la"; ab_tags := T "A Title" |}) es /\ In (HSkipped ex_bad) es
  /\ held s + lost s = 0.
Proof.
  eexists. eexists. split; [vm_compute; reflexivity|].
  split; [vm_compute; repeat split; lia|]. split; [vm_compute; repeat split; lia|].
  split; [vm_compute; tauto|]. split; [vm_compute; tauto|]. reflexivity.
Qed.
(** Without it: after the first song no file is left, the song is skipped and the client refused. *)
Example C122_nonvacuous_full : exists s es,
  hrun 6 3 (fun _ => true) ex_decode (fun _ => true) ex_about 0 (fresh [ex_song])
    ([HLoop (ASetPlaying true)] ++ one_play ++ [HLoop PNext; HLoop POpen; HAccept]) = Some (s, es)
  /\ songs_started es = 1 /\ In (HSkipped ex_song) es /\ In HRefused es.
Proof.
  eexists. eexists. split; [vm_compute; reflexivity|]. split; [reflexivity|]. split; vm_compute; tauto.
Qed.

Print Assumptions C122_while_collected_partial.
Print Assumptions C122_only_the_collector_closes.
Print Assumptions C122_so_many_songs_refuted.
Print Assumptions C122_unplayable_song_refuted.
