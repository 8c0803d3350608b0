(** C132: the controls take effect within a settled part of the stream. *)
From Verif Require Import GoBase GoBaseFacts PlaylistModel PlaylistSpec PlaylistProofs PlaylistProps PlaylistLoopProofs PauseProps ProgrammeSpec ProgrammeProps
  ChanModel ChanSpec ChanProofs PlayerModel ScheduleModel LatencyModel LatencySpec LatencyProofs.
From Coq Require Import ZifyBool ZifyNat.
Local Open Scope Z_scope.

Lemma reach_ok decode nb l c acts s es : srun decode nb (new_source l c) acts = Some (s, es) ->
  prun decode nb (new_playlist l) (loop_part acts) = Some (so_loop s, es) /\
  Inv (so_chan s) /\ cap (so_chan s) = c /\ bounded s /\ hist (so_chan s) ++ so_push s = stream_of es.
Proof. intros R. destruct (new_ok l c) as [I B]. destruct (srun_keeps _ _ _ _ _ _ I B R) as (P & I1 & C & B1 & H). auto. Qed.

Lemma is_prefix_app {A} (h x y z : list A) : is_prefix h (x ++ y) -> is_prefix y z -> is_prefix h (x ++ z).
Proof. intros [r E] [q ->]. exists (r ++ q). rewrite app_assoc, E, app_assoc. reflexivity. Qed.

Lemma heard_prefix s s' a b st : Inv (so_chan s') -> hist (so_chan s') ++ so_push s' = hist (so_chan s) ++ so_push s ++ st ->
  hist (so_chan s) ++ so_push s = a ++ b -> is_prefix (heard_so_far s') (a ++ b ++ st).
Proof.
  intros I H Ab. destruct (inv_prefix _ I) as [r E]. exists (r ++ so_push s').
  rewrite (app_assoc a b st), <- Ab, <- app_assoc, <- H, E, <- app_assoc. reflexivity.
Qed.

Lemma skipn_prefix {A} (P : A -> Prop) n (h a b : list A) : is_prefix h (a ++ b) -> (length a <= n)%nat -> Forall P b -> Forall P (skipn n h).
Proof.
  intros (r & E) L F.
  assert (K : skipn n (a ++ b) = skipn n h ++ skipn (n - length h) r) by now rewrite E, skipn_app.
  assert (Q : Forall P (skipn n (a ++ b))).
  { rewrite skipn_app, (skipn_all2 a) by lia. cbn [app]. rewrite <- (firstn_skipn (n - length a) b) in F. now apply Forall_app in F. }
  rewrite K in Q. now apply Forall_app in Q.
Qed.

(** The streaming loop pushing sample by sample, with Fill called and everybody interfering at any
    moment, streams what PlaylistModel's loop streams: what Fill hands out is a beginning of it. *)
Theorem C132_stream : forall decode nan_break l c acts s es,
  srun decode nan_break (new_source l c) acts = Some (s, es) ->
  prun decode nan_break (new_playlist l) (loop_part acts) = Some (so_loop s, es) /\
  is_prefix (heard_so_far s) (stream_of es).
Proof.
  intros decode nb l c acts s es R. destruct (reach_ok _ _ _ _ _ _ _ R) as (P & I & _ & _ & H). split; [exact P|].
  destruct (inv_prefix _ I) as [r E]. unfold heard_so_far. exists (r ++ so_push s). rewrite <- H, E, <- app_assoc. reflexivity.
Qed.
Print Assumptions C132_stream.

(** The other way round: each run of PlaylistModel's loop can be had with the channels, with everything
    pushed handed out. *)
Theorem C132_every_stream : forall decode nan_break l c acts p es, (1 <= c)%nat ->
  prun decode nan_break (new_playlist l) acts = Some (p, es) ->
  exists sacts s, loop_part sacts = acts /\ srun decode nan_break (new_source l c) sacts = Some (s, es) /\ so_loop s = p /\
    (at_pc p <> Crashed -> heard_so_far s = stream_of es).
Proof.
  intros decode nb l c acts p es C R.
  destruct (let_run decode nb acts (new_source l c) p es) as (sa & s & L & Rs & Lp & H); [reflexivity|repeat split; reflexivity|exact C|exact R|].
  exists sa, s. repeat split; auto.
Qed.
Print Assumptions C132_every_stream.

(** While no song is edited or jumped to, Fill hands out the songs of the playlist one after the other. *)
Theorem C132_programme : forall decode nan_break l c acts s es, l <> [] -> ~ In [] l ->
  Forall (fun a => is_jump a = false /\ is_edit a = false) (loop_part acts) ->
  srun decode nan_break (new_source l c) acts = Some (s, es) ->
  exists k, is_prefix (audible (heard_so_far s)) (audible (programme decode l k)).
Proof.
  intros decode nb l c acts s es Ne Ni A R. destruct (C132_stream _ _ _ _ _ _ _ R) as [P [r E]].
  destruct (C130_programme decode nb l _ _ _ Ne Ni A P) as (k & r2 & K). exists k.
  unfold audible in *. rewrite E, filter_app in K. exists (filter (fun x => negb (is_nan (fst x))) r ++ r2). rewrite K, <- app_assoc. reflexivity.
Qed.
Print Assumptions C132_programme.

(** A pause is heard: once playback is paused, nothing but silence is handed out behind the part of the
    stream that was settled when it was paused, however long the pause and whatever else is done. *)
Theorem C132_pause_within : forall decode nan_break l c acts s es more s' es',
  srun decode nan_break (new_source l c) acts = Some (s, es) -> playing (so_loop s) = false ->
  Forall (fun a => a <> ASetPlaying true) (loop_part more) ->
  srun decode nan_break s more = Some (s', es') ->
  Forall no_sound (skipn (settled s c) (heard_so_far s')).
Proof.
  intros decode nb l c acts s es more s' es' R Pl A R2.
  destruct (reach_ok _ _ _ _ _ _ _ R) as (_ & I & C & B & _).
  destruct (srun_keeps _ _ _ _ _ _ I B R2) as (P2 & I2 & _ & _ & H2).
  destruct (settled_split decode s I B) as (a & b & Ab & La & Fb & _). rewrite C in La.
  apply skipn_prefix with (a := a) (b := b ++ stream_of es'); [|exact La|].
  - exact (heard_prefix _ _ _ _ _ I2 H2 Ab).
  - apply Forall_app. split; [exact Fb|]. exact (C102_silent_while_paused decode nb _ _ _ _ Pl A P2).
Qed.
Print Assumptions C132_pause_within.

(** A short or failed read leaves nothing of the song. *)
Definition read_out (s : pstate) : Prop :=
  match at_pc s with Checking r n ok => ((n < 512)%nat -> r = []) /\ (ok = false -> r = []) | _ => True end.

Lemma read_out_run decode nb acts : forall s s' es, read_out s -> prun decode nb s acts = Some (s', es) -> read_out s'.
Proof.
  induction acts as [|a acts IH]; intros s s' es HP Hr; cbn [prun] in Hr; [injection Hr as <- <-; exact HP|].
  destruct (pstep decode nb s a) as [[s1 e1]|] eqn:E; [|discriminate].
  destruct (prun decode nb s1 acts) as [[s2 e2]|] eqn:E2; [|discriminate]. injection Hr as <- <-.
  eapply IH; [|exact E2]. unfold read_out in *.
  apply pstep_stepped in E. destruct E; psimp;
    repeat match goal with H : at_pc _ = _ |- _ => rewrite H in * end; try exact Logic.I; try exact HP.
  all: try (split; [intros; lia|intros; discriminate]).
  all: try (split; intros; try discriminate; try (unfold streamer_buffer_size in *; lia); apply HP; assumption).
  all: try (unfold blk; split; intros Hn;
    [rewrite firstn_length in Hn; apply skipn_all2; unfold streamer_buffer_size in *; lia
    |destruct (Nat.eqb_spec (length (firstn streamer_buffer_size r)) 0) as [E0|]; [|discriminate];
     rewrite firstn_length in E0; apply skipn_all2; unfold streamer_buffer_size in *; lia]).
Qed.

(** Inside a song at most a block is waiting to be pushed. *)
Definition push_short (s : source) : Prop := left_of_song (at_pc (so_loop s)) <> None -> (length (so_push s) <= 512)%nat.

Lemma step_short decode nb s a s' es : pstep decode nb s a = Some (s', es) ->
  (of_loop a = true -> left_of_song (at_pc s') <> None -> (length (to_push es) <= 512)%nat) /\
  (of_loop a = false -> to_push es = [] /\ (at_pc s' = at_pc s \/ at_pc s' = Crashed)).
Proof.
  intros E. apply pstep_stepped in E. destruct E; cbn [of_loop]; psimp; (split; [intros Q|intros Q]); try discriminate Q; try (split; [reflexivity|first [left; reflexivity|right; reflexivity]]); cbn [to_push flat_map length app left_of_song]; try (intros F; try (elim F; reflexivity); lia).
  all: rewrite ?app_nil_r; intros F; try (rewrite H in F; elim F; reflexivity).
  all: try (unfold blk; rewrite firstn_length; unfold streamer_buffer_size; lia).
  subst g. unfold nan_samples. rewrite repeat_length. unfold streamer_buffer_size. lia.
Qed.

Lemma short_run decode nb acts : forall s s' es, push_short s -> srun decode nb s acts = Some (s', es) -> push_short s'.
Proof.
  induction acts as [|a acts IH]; intros s s' es H R; cbn [srun] in R; [injection R as <- <-; exact H|].
  destruct (sstep decode nb s a) as [[s1 e1]|] eqn:E; [|discriminate]. destruct (srun decode nb s1 acts) as [[s2 e2]|] eqn:R2; [|discriminate].
  injection R as <- <-. eapply IH; [|exact R2]. clear IH R2. unfold push_short in *. unfold sstep in E.
  assert (Nc : at_pc (so_loop s) <> Crashed) by (intros Q; rewrite Q in E; discriminate E).
  assert (E2 : match a with
    | SoLoop b => if (of_loop b && negb (pushed_all s))%bool then None
      else match pstep decode nb (so_loop s) b with None => None | Some (p, es) => Some ({| so_loop := p; so_push := so_push s ++ to_push es; so_chan := so_chan s |}, es) end
    | SoPush => match so_push s with [] => None | x :: r => match cstep (so_chan s) (CPush x) with None => None | Some c => Some ({| so_loop := so_loop s; so_push := r; so_chan := c |}, []) end end
    | SoChan (CPush _) => None
    | SoChan a0 => match cstep (so_chan s) a0 with None => None | Some c => Some ({| so_loop := so_loop s; so_push := so_push s; so_chan := c |}, []) end
    end = Some (s1, e1)) by (destruct (at_pc (so_loop s)); try congruence; exact E).
  clear E. destruct a as [b| |c].
  - destruct (of_loop b && negb (pushed_all s))%bool eqn:G; [discriminate E2|].
    destruct (pstep decode nb (so_loop s) b) as [[p es]|] eqn:P; [|discriminate E2]. injection E2 as <- <-. cbn [so_loop so_push].
    destruct (step_short _ _ _ _ _ _ P) as [S1 S2]. intros L. rewrite app_length. destruct (of_loop b) eqn:O.
    + cbn [andb] in G. unfold pushed_all in G. destruct (so_push s); [|discriminate G]. cbn [length]. apply S1; [reflexivity|exact L].
    + destruct (S2 eq_refl) as [-> [Pc|Pc]]; rewrite Pc in L; [|elim L; reflexivity]. specialize (H L). cbn [length]. lia.
  - destruct (so_push s) as [|x r]; [discriminate E2|]. destruct (cstep (so_chan s) (CPush x)); [|discriminate E2]. injection E2 as <- <-. cbn [so_loop so_push].
    intros L. specialize (H L). cbn [length] in H. lia.
  - destruct c as [y| | | |k| | |]; [discriminate E2|..]; match type of E2 with match ?t with _ => _ end = _ => destruct t; [|discriminate E2] end; injection E2 as <- <-; exact H.
Qed.

(** Resuming is heard just as soon, wherever inside the song the loop is (usually it is pushing a block
    of silence then): what follows the settled part and the silence being pushed, at most 512 samples, is the rest of the song, without a gap, then the break. *)
Theorem C132_resume_within : forall decode nan_break l c acts s es rest more s' es',
  srun decode nan_break (new_source l c) acts = Some (s, es) -> playing (so_loop s) = true ->
  left_of_song (at_pc (so_loop s)) = Some rest -> tokens (so_loop s) = 0%nat -> pending_jumps (so_loop s) = 0%nat ->
  Forall (fun a => is_jump a = false /\ is_pnext a = false /\ a <> ASetPlaying false) (loop_part more) ->
  srun decode nan_break s more = Some (s', es') -> at_pc (so_loop s') <> Crashed ->
  exists before silence, (length before <= settled s c)%nat /\ Forall no_sound silence /\ (length silence <= 512)%nat /\
    is_prefix (heard_so_far s') (before ++ silence ++ rest ++ repeat nan_sample (Z.to_nat nan_break)).
Proof.
  intros decode nb l c acts s es rest more s' es' R Pl Pc T J A R2 Nc.
  destruct (reach_ok _ _ _ _ _ _ _ R) as (P & I & C & B & _).
  destruct (srun_keeps _ _ _ _ _ _ I B R2) as (P2 & I2 & _ & _ & H2).
  destruct (settled_split decode s I B) as (a & b & Ab & La & Fb & _ & Lb). rewrite C in La.
  assert (Sh : (length (so_push s) <= 512)%nat).
  { refine (short_run decode nb _ _ _ _ _ R _); [intros Q; cbn; lia|]. rewrite Pc. discriminate. }
  assert (Lb2 : (length b <= 512)%nat) by (destruct Lb as [->| ->]; [cbn; lia|exact Sh]). clear Lb.
  assert (O0 : on_air nb rest (so_loop s) []).
  { pose proof (read_out_run decode nb _ _ _ _ (Logic.I : read_out (new_playlist l)) P) as Q. unfold read_out in Q. unfold on_air.
    destruct (at_pc (so_loop s)); cbn [left_of_song] in Pc; try discriminate Pc; injection Pc as ->; auto. }
  destruct (on_air_run decode nb rest _ _ _ _ [] O0 A P2) as (_ & _ & _ & O).
  cbn [app] in O. exists a, b. split; [exact La|]. split; [exact Fb|]. split; [exact Lb2|].
  assert (K : is_prefix (stream_of es') (rest ++ repeat nan_sample (Z.to_nat nb))).
  { destruct (at_pc (so_loop s')) as [|f|x|x|x|x|x n ok|]; try contradiction; try congruence.
    all: try (exists []; rewrite app_nil_r; symmetry; exact O).
    all: try (exists (x ++ repeat nan_sample (Z.to_nat nb)); rewrite app_assoc, O; reflexivity).
    exists (x ++ repeat nan_sample (Z.to_nat nb)). rewrite app_assoc, (proj1 O). reflexivity. }
  rewrite app_assoc. apply (is_prefix_app _ (a ++ b) (stream_of es')); [|exact K].
  rewrite <- app_assoc. exact (heard_prefix _ _ _ _ _ I2 H2 Ab).
Qed.
Print Assumptions C132_resume_within.

Lemma audible_silence a : Forall no_sound a -> audible a = [].
Proof. unfold audible. induction 1 as [|x a [E _] F IH]; [reflexivity|]. cbn [filter]. rewrite E. exact IH. Qed.

(** Blocks have at most 512 samples, everything else pushed is silence. *)
Lemma blocks_bound decode nb acts : forall s s' es, prun decode nb s acts = Some (s', es) ->
  Forall (fun e => match e with EBlock x => (length x <= 512)%nat | EGap x => Forall no_sound x | _ => True end) es.
Proof.
  induction acts as [|a acts IH]; intros s s' es R; cbn [prun] in R; [injection R as <- <-; constructor|].
  destruct (pstep decode nb s a) as [[s1 e1]|] eqn:E; [|discriminate].
  destruct (prun decode nb s1 acts) as [[s2 e2]|] eqn:R2; [|discriminate]. injection R as <- <-.
  apply Forall_app. split; [|exact (IH _ _ _ R2)].
  apply pstep_stepped in E. destruct E; (apply Forall_nil || (apply Forall_cons; [|apply Forall_nil])); try exact Logic.I; unfold nan_samples; try apply no_sound_nans.
  - subst blk. rewrite firstn_length. unfold streamer_buffer_size. lia.
  - subst g. unfold nan_samples. rewrite repeat_length. unfold streamer_buffer_size. lia.
Qed.

Lemma audible_blocks es : Forall (fun e => match e with EBlock x => (length x <= 512)%nat | EGap x => Forall no_sound x | _ => True end) es ->
  (length (audible (stream_of es)) <= 512 * block_count es)%nat.
Proof.
  induction 1 as [|e es H F IH]; [cbn; lia|]. change (stream_of (e :: es)) with (samples_of_event e ++ stream_of es).
  unfold audible in *. rewrite filter_app, app_length.
  assert (Q : forall x : list sample, (length (filter (fun y => negb (is_nan (fst y))) x) <= length x)%nat).
  { induction x as [|y x IHx]; cbn; [lia|]. destruct (negb _); cbn; lia. }
  unfold block_count in *. destruct e; cbn [samples_of_event filter length] in *; try lia.
  - pose proof (Q l). lia.
  - fold (audible l). rewrite (audible_silence l H). cbn. lia.
Qed.

Lemma before_first_forall (P : event -> Prop) es : Forall P es -> Forall P (before_first_song es).
Proof. induction 1 as [|e es H F IH]; cbn [before_first_song]; [constructor|]. destruct e; try constructor; auto. Qed.

(** A jump is heard: behind the settled part at most one more block of the old song comes before the song
    jumped to, and then the playlist goes on from there. *)
Theorem C132_jump_within : forall decode nan_break l c acts s es p more s' es',
  srun decode nan_break (new_source l c) acts = Some (s, es) ->
  songs (so_loop s) <> [] -> ~ In [] (songs (so_loop s)) -> 0 <= p ->
  streaming (at_pc (so_loop s)) = true -> tokens (so_loop s) = 0%nat -> pending_jumps (so_loop s) = 0%nat ->
  Forall (fun a => is_jump a = false /\ is_edit a = false) (loop_part more) ->
  srun decode nan_break s (SoLoop (ASetPosWrite p) :: SoLoop ASetPosSend :: more) = Some (s', es') ->
  exists before silence k, (length before <= settled s c)%nat /\ Forall no_sound silence /\
    is_prefix (heard_so_far s') (before ++ silence ++ stream_of es') /\
    (length (audible (stream_of (before_first_song es'))) <= 512)%nat /\
    announced es' = played_in_order decode (songs (so_loop s)) p k.
Proof.
  intros decode nb l c acts s es p more s' es' R Ne Ni Pp St T J A R2.
  destruct (reach_ok _ _ _ _ _ _ _ R) as (_ & I & C & B & _).
  destruct (srun_keeps _ _ _ _ _ _ I B R2) as (P2 & I2 & _ & _ & H2).
  destruct (settled_split decode s I B) as (a & b & Ab & La & Fb & _). rewrite C in La.
  cbn [loop_part] in P2.
  destruct (C06_single_jump_partial decode nb _ p _ _ _ _ Ne Ni Pp eq_refl St T J A P2) as ((k & K) & Bc & _).
  exists a, b, k. split; [exact La|]. split; [exact Fb|]. split.
  - exact (heard_prefix _ _ _ _ _ I2 H2 Ab).
  - split; [|exact K]. pose proof (audible_blocks _ (before_first_forall _ _ (blocks_bound decode nb _ _ _ _ P2))). lia.
Qed.
Print Assumptions C132_jump_within.

(** ** In chunks *)
Lemma sstep_returned decode nb size s a s1 e1 : sstep decode nb s a = Some (s1, e1) -> Inv (so_chan s) ->
  (forall k, a = SoChan (CFill k) -> k = size) -> (fill (so_chan s) = FIdle \/ filling (so_chan s) size) ->
  Forall (fun r => length (snd (fst r)) = size /\ length (snd r) = size) (returned (so_chan s)) ->
  (fill (so_chan s1) = FIdle \/ filling (so_chan s1) size) /\
  Forall (fun r => length (snd (fst r)) = size /\ length (snd r) = size) (returned (so_chan s1)).
Proof.
  intros E I K Fi Fo. unfold sstep in E.
  assert (Q : so_chan s1 = so_chan s \/ exists a0, cstep (so_chan s) a0 = Some (so_chan s1) /\ (forall k, a0 = CFill k -> k = size)).
  { destruct (at_pc (so_loop s)); try discriminate E; destruct a as [a0| |a0];
      try (destruct (of_loop a0 && negb (pushed_all s))%bool; [discriminate E|];
           destruct (pstep decode nb (so_loop s) a0) as [[p e]|]; [|discriminate E]; injection E as <- <-; left; reflexivity);
      try (destruct (so_push s) as [|x r]; [discriminate E|]; destruct (cstep (so_chan s) (CPush x)) as [c|] eqn:E2; [|discriminate E];
           injection E as <- <-; right; exists (CPush x); split; [exact E2|discriminate]);
      (assert (E3 : match cstep (so_chan s) a0 with None => None | Some c => Some ({| so_loop := so_loop s; so_push := so_push s; so_chan := c |}, @nil event) end = Some (s1, e1))
         by (destruct a0; [discriminate E|exact E..]);
       destruct (cstep (so_chan s) a0) as [c|] eqn:E2; [|discriminate E3]; injection E3 as <- <-; right; exists a0; split; [exact E2|];
       intros k Q; apply K; now f_equal). }
  destruct Q as [->|(a0 & E0 & K0)]; [auto|]. clear E K.
  unfold filling in *. destruct a0 as [[x y]| | | |k| | |]; cbn [cstep] in E0.
  - destruct (prod (so_chan s)); try discriminate E0. injection E0 as <-. cbn [fill returned]. auto.
  - destruct (prod (so_chan s)); try discriminate E0. destruct (_ <? _)%nat; [|discriminate E0]. injection E0 as <-. cbn [fill returned]. auto.
  - destruct (prod (so_chan s)); try discriminate E0. destruct (_ <? _)%nat; [|discriminate E0]. injection E0 as <-. cbn [fill returned]. auto.
  - destruct (prod (so_chan s)); try discriminate E0. injection E0 as <-. cbn [fill returned]. auto.
  - destruct (fill (so_chan s)); [|discriminate E0]. injection E0 as <-. cbn [fill returned]. split; [|exact Fo]. right. rewrite (K0 k eq_refl). now exists [], [].
  - destruct (fill (so_chan s)) as [|k gl gh]; [discriminate E0|]. destruct (lowq (so_chan s)); [discriminate E0|]. destruct (_ <? _)%nat; [|discriminate E0].
    injection E0 as <-. cbn [fill returned]. split; [|exact Fo]. right. destruct Fi as [Q|(g1 & g2 & Q)]; [discriminate Q|]. injection Q as -> _ _. now eexists _, _.
  - destruct (fill (so_chan s)) as [|k gl gh]; [discriminate E0|]. destruct (highq (so_chan s)); [discriminate E0|]. destruct (_ <? _)%nat; [|discriminate E0].
    injection E0 as <-. cbn [fill returned]. split; [|exact Fo]. right. destruct Fi as [Q|(g1 & g2 & Q)]; [discriminate Q|]. injection Q as -> _ _. now eexists _, _.
  - destruct (fill (so_chan s)) as [|k gl gh]; [discriminate E0|]. destruct (Nat.eqb_spec (length gl) k); [|discriminate E0]. destruct (Nat.eqb_spec (length gh) k); [|discriminate E0].
    injection E0 as <-. cbn [fill returned]. split; [now left|]. apply Forall_app. split; [exact Fo|]. constructor; [|constructor]. cbn [fst snd].
    destruct Fi as [Q|(g1 & g2 & Q)]; [discriminate Q|]. injection Q as -> _ _. auto.
Qed.

Lemma srun_returned decode nb size acts : forall s s1 e1, srun decode nb s acts = Some (s1, e1) -> Inv (so_chan s) -> bounded s ->
  fills_of size acts -> (fill (so_chan s) = FIdle \/ filling (so_chan s) size) ->
  Forall (fun r => length (snd (fst r)) = size /\ length (snd r) = size) (returned (so_chan s)) ->
  (fill (so_chan s1) = FIdle \/ filling (so_chan s1) size) /\
  Forall (fun r => length (snd (fst r)) = size /\ length (snd r) = size) (returned (so_chan s1)).
Proof.
  induction acts as [|a acts IH]; intros s s1 e1 R I B K Fi Fo; cbn [srun] in R; [injection R as <- <-; auto|].
  destruct (sstep decode nb s a) as [[s2 e2]|] eqn:E; [|discriminate]. destruct (srun decode nb s2 acts) as [[s3 e3]|] eqn:R2; [|discriminate].
  injection R as <- <-. destruct (sstep_keeps _ _ _ _ _ _ I B E) as (_ & I2 & _ & B2 & _).
  destruct (sstep_returned decode nb size _ _ _ _ E I ltac:(intros k ->; apply K; now left) Fi Fo) as [Fi2 Fo2].
  refine (IH _ _ _ R2 I2 B2 _ Fi2 Fo2). intros k Q. apply K. now right.
Qed.

Lemma handed_len size rs : Forall (fun r : Z * list f64 * list f64 => length (snd (fst r)) = size /\ length (snd r) = size) rs -> length (handed_out rs) = (length rs * size)%nat.
Proof.
  unfold handed_out. induction 1 as [|r rs [H1 H2] F IH]; [reflexivity|]. cbn [map concat length]. rewrite app_length, combine_length, IH. lia.
Qed.

Lemma combine_samples_combine a : forall b, combine_samples a b = combine a b.
Proof. induction a as [|x a IH]; intros [|y b]; cbn [combine_samples combine]; try reflexivity. Qed.

Lemma stream_music_nth start size sr fills : forall i j m, nth_error (stream_music start size sr i fills) j = Some m ->
  q_id (fst m) = i + Z.of_nat j /\ exists f, nth_error fills j = Some f /\ q_low (fst m) = snd (fst f) /\ q_high (fst m) = snd f.
Proof.
  induction fills as [|f r IH]; intros i j m H; cbn [stream_music] in H; [destruct j; discriminate|].
  destruct j as [|j]; cbn [nth_error] in H.
  - injection H as <-. destruct f as [[z lo] hi]. cbn. split; [lia|]. exists (z, lo, hi). auto.
  - destruct (IH _ _ _ H) as (H1 & f2 & H2). split; [lia|]. exists f2. exact H2.
Qed.

Lemma nth_slice size (rs : list (Z * list f64 * list f64)) : Forall (fun r => length (snd (fst r)) = size /\ length (snd r) = size) rs -> forall j f, nth_error rs j = Some f ->
  exists rest, skipn (j * size) (handed_out rs) = combine (snd (fst f)) (snd f) ++ rest.
Proof.
  induction 1 as [|r rs [H1 H2] F IH]; intros j f N; [destruct j; discriminate|]. unfold handed_out in *. cbn [map concat].
  destruct j as [|j]; cbn [nth_error] in N.
  - injection N as ->. cbn [Nat.mul skipn]. now eexists.
  - destruct (IH _ _ N) as [rest E]. exists rest. rewrite skipn_app, combine_length, skipn_all2 by (rewrite combine_length; cbn; lia). cbn [app].
    replace (S j * size - Nat.min (length (snd (fst r))) (length (snd r)))%nat with (j * size)%nat by (cbn; lia). exact E.
Qed.

(** In the messages the players get: if the server had made [n] chunks when playback was paused, every chunk
    that starts at least [c + 512] samples behind the chunk then under way, number [n], is silent
    from its first to its last sample. *)
Theorem C132_pause_in_chunks : forall decode nan_break l c acts s es more s' es' size start sr m,
  srun decode nan_break (new_source l c) acts = Some (s, es) -> playing (so_loop s) = false ->
  fills_of size (acts ++ more) -> Forall (fun a => a <> ASetPlaying true) (loop_part more) ->
  srun decode nan_break s more = Some (s', es') ->
  In m (stream_music start (Z.of_nat size) sr 0 (returned (so_chan s'))) ->
  zlen (stream_music start (Z.of_nat size) sr 0 (returned (so_chan s))) * Z.of_nat size + Z.of_nat size + Z.of_nat c + 512 <= q_id (fst m) * Z.of_nat size ->
  Forall no_sound (c_samples (request_chunk (fst m))).
Proof.
  intros decode nb l c acts s es more s' es' size start sr m R Pl Fs A R2 Im Le.
  pose proof (C132_pause_within _ _ _ _ _ _ _ _ _ _ R Pl A R2) as F.
  destruct (reach_ok _ _ _ _ _ _ _ R) as (_ & I & C & B & _).
  destruct (new_ok l c) as [I0 B0].
  destruct (srun_returned decode nb size _ _ _ _ R I0 B0) as [Fi Fo]; [intros k Q; apply Fs, in_or_app; now left|now left|constructor|].
  destruct (srun_returned decode nb size _ _ _ _ R2 I B) as [_ Fo2]; [intros k Q; apply Fs, in_or_app; now right|exact Fi|exact Fo|].
  assert (Ln : forall rs i, zlen (stream_music start (Z.of_nat size) sr i rs) = zlen rs).
  { induction rs as [|r rs IH]; intros i; [reflexivity|]. cbn [stream_music]. unfold zlen in *. cbn [length]. rewrite !Nat2Z.inj_succ, IH. reflexivity. }
  rewrite Ln in Le. destruct (In_nth_error _ _ Im) as [j J]. destruct (stream_music_nth _ _ _ _ _ _ _ J) as (Id & f & N & Lo & Hi). rewrite Id in Le.
  destruct (nth_slice size _ Fo2 _ _ N) as [rest E].
  unfold request_chunk. cbn [c_samples]. rewrite combine_samples_combine, Lo, Hi.
  assert (Se : (settled s c <= j * size)%nat).
  { unfold settled, heard_so_far. rewrite (handed_len size _ Fo). unfold zlen in Le.
    assert (asked_for s <= size)%nat by (unfold asked_for; destruct Fi as [->|(g1 & g2 & ->)]; lia). nia. }
  unfold heard_so_far in F.
  assert (G : Forall no_sound (skipn (j * size) (handed_out (returned (so_chan s'))))).
  { replace (j * size)%nat with ((j * size - settled s c) + settled s c)%nat by lia. rewrite <- skipn_skipn.
    rewrite <- (firstn_skipn (j * size - settled s c) (skipn (settled s c) _)) in F. now apply Forall_app in F. }
  rewrite E in G. now apply Forall_app in G.
Qed.
Print Assumptions C132_pause_in_chunks.

(** And the stream does not stand still: while a Fill is under way it can return, or one of the goroutines
    that serve it can take a step. *)
Theorem C132_goes_on : forall decode nan_break l c acts s es k, (1 <= c)%nat ->
  srun decode nan_break (new_source l c) acts = Some (s, es) -> at_pc (so_loop s) <> Crashed -> filling (so_chan s) k ->
  fill_done (so_chan s) \/
  exists a, match a with SoLoop b => is_loop_action b = true | SoPush => True | SoChan b => working b = true end /\
    sstep decode nan_break s a <> None.
Proof.
  intros decode nb l c acts s es k C R Nc Fi. destruct (reach_ok _ _ _ _ _ _ _ R) as (_ & I & Cp & _ & _).
  destruct (progress _ k I ltac:(lia) Fi) as [D|(a & W & E & _)]; [now left|]. right.
  assert (Q : (exists x, a = CPush x) \/ forall x, a <> CPush x) by (destruct a; [left; now eexists|right; discriminate..]).
  destruct Q as [(x & ->)|Q].
  - destruct (so_push s) as [|y r] eqn:Pu.
    + destruct (loop_progress decode nb (so_loop s) Nc) as (b & Hb & St). exists (SoLoop b). split; [exact Hb|].
      unfold sstep. assert (pushed_all s = true) as ->.
      { unfold pushed_all. rewrite Pu. cbn [cstep] in E. destruct x. destruct (prod (so_chan s)); congruence. }
      rewrite andb_false_r. destruct (pstep decode nb (so_loop s) b) as [[p e]|]; [|congruence]. destruct (at_pc (so_loop s)); congruence.
    + exists SoPush. split; [exact Logic.I|]. cbn [cstep] in E. destruct x as [u v]. destruct (prod (so_chan s)) eqn:Pr; try congruence.
      destruct y as [yl yh]. erewrite sstep_push; [|exact Nc|exact Pu|cbn [cstep]; rewrite Pr; reflexivity]. discriminate.
  - exists (SoChan a). split; [exact W|]. destruct (cstep (so_chan s) a) as [c1|] eqn:Ec; [|congruence]. erewrite sstep_chan; [|exact Nc|exact Q|exact Ec]. discriminate.
Qed.
Print Assumptions C132_goes_on.

(** A case, which also shows that the bound is exact: a song of 1100 samples and a channel of 2. When playback is
    paused 510 samples have been handed out, the channel is full and a block of 512 has been begun: all 1024 are
    heard, then silence. *)
Definition case_decode (f : song) : option (list sample) :=
  if Nat.eqb (length f) 1 then Some (repeat (1%N, 2%N) 1100) else if Nat.eqb (length f) 2 then Some [(5%N, 6%N)] else None.
Definition case_songs : list song := [[97%N]; [98%N; 98%N]].
Definition times (n : nat) (l : list saction) : list saction := concat (repeat l n).
Definition case_start : list saction :=
  map SoLoop [PNext; POpen; ASetPlaying true; PCmp; PBlock] ++ times 510 let_through ++
  times 2 [SoPush; SoChan CSendLow; SoChan CSendHigh; SoChan CIncr] ++ map SoLoop [PCheck].
Definition case_drain : list saction := times 2 (map SoChan [CFill 1; CRecvLow; CRecvHigh; CReturn]).
Definition seen (r : option (source * list event)) :=
  match r with
  | Some (s, _) => Some (playing (so_loop s), length (heard_so_far s), settled s 2, length (audible (heard_so_far s)))
  | None => None
  end.
Example C132_exact :
  let pausing := case_start ++ map SoLoop [PCmp; PBlock; ASetPlaying false] in
  let after := case_drain ++ times 512 let_through ++ map SoLoop [PCheck; PCmp; PTogStore; PTogCall; PBlock] ++ times 76 let_through in
  seen (srun case_decode 3 (new_source case_songs 2) pausing) = Some (false, 510%nat, 1024%nat, 510%nat) /\
  seen (srun case_decode 3 (new_source case_songs 2) (pausing ++ after)) = Some (false, 1100%nat, 1614%nat, 1024%nat).
Proof. split; vm_compute; reflexivity. Qed.

(** Where the song goes on or a jump is made: the premises of C132_resume_within and C132_jump_within. *)
Example C132_nonvacuous : exists s es rest,
  srun case_decode 3 (new_source case_songs 2) case_start = Some (s, es) /\
  at_pc (so_loop s) = InSong rest /\ length rest = 588%nat /\ playing (so_loop s) = true /\ tokens (so_loop s) = 0%nat /\
  pending_jumps (so_loop s) = 0%nat /\ streaming (at_pc (so_loop s)) = true /\ songs (so_loop s) = case_songs /\
  match srun case_decode 3 s (map SoLoop [ASetPosWrite 1; ASetPosSend; PCmp; PBlock] ++ case_drain ++ times 512 let_through
                              ++ SoLoop PCheck :: times 3 let_through ++ map SoLoop [PNext; POpen; PCmp; PBlock] ++ let_through) with
  | Some (s', es') => announced es' = [[98%N; 98%N]] /\ length (heard_so_far s') = 1028%nat /\ skipn 1024 (heard_so_far s') = repeat nan_sample 3 ++ [(5%N, 6%N)]
  | None => False
  end.
Proof.
  destruct (srun case_decode 3 (new_source case_songs 2) case_start) as [[s es]|] eqn:E; [|exfalso; vm_compute in E; discriminate E].
  vm_compute in E. injection E as <- <-. eexists _, _, _. split; [reflexivity|]. split; [reflexivity|].
  vm_compute. repeat split; reflexivity.
Qed.

(** Resumed with silence still being pushed: the loop is behind the push (Checking), 436 samples of silence wait
    and are heard first, then the song goes on at the sample where it stopped. *)
Example C132_resume_nonvacuous :
  let paused := case_start ++ map SoLoop [PCmp; PBlock; ASetPlaying false] ++ case_drain ++ times 512 let_through
                ++ map SoLoop [PCheck; PCmp; PTogStore; PTogCall; PBlock] ++ times 76 let_through in
  match srun case_decode 3 (new_source case_songs 2) (paused ++ [SoLoop (ASetPlaying true)]) with
  | Some (s, _) => (playing (so_loop s), tokens (so_loop s), pending_jumps (so_loop s), length (so_push s),
                    option_map (@length sample) (left_of_song (at_pc (so_loop s))), streaming (at_pc (so_loop s)))
                   = (true, 0%nat, 0%nat, 436%nat, Some 76%nat, true)
  | None => False
  end.
Proof. vm_compute. reflexivity. Qed.
