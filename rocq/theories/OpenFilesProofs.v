(** Proofs for C122. *)
From Verif Require Import GoBase GoBaseFacts PlaylistModel OpenFilesModel OpenFilesSpec.

Lemma opens_app a b : opens (a ++ b) = opens a + opens b.
Proof. unfold opens. now rewrite filter_app, app_length. Qed.
Lemma collected_app a b : collected (a ++ b) = collected a + collected b.
Proof. induction a as [|e a IH]; [reflexivity|]. destruct e; cbn; rewrite ?IH; lia. Qed.
Lemma started_app a b : songs_started (a ++ b) = songs_started a + songs_started b.
Proof. induction a as [|e a IH]; [reflexivity|]. destruct e as [|e| | | | | |]; cbn; rewrite ?IH; try destruct e; cbn; rewrite ?IH; lia. Qed.
Lemma stream_app a b : stream_events (a ++ b) = stream_events a ++ stream_events b.
Proof. induction a as [|e a IH]; [reflexivity|]. destruct e; cbn; rewrite ?IH; reflexivity. Qed.
Lemma opens_stream es : opens (map HStream es) = 0.
Proof. induction es as [|e es IH]; [reflexivity|]. exact IH. Qed.
Lemma collected_stream es : collected (map HStream es) = 0.
Proof. induction es as [|e es IH]; [reflexivity|]. exact IH. Qed.
Lemma stream_stream es : stream_events (map HStream es) = es.
Proof. induction es as [|e es IH]; [reflexivity|]. cbn. now rewrite IH. Qed.
Lemma keeps_stream k c es r : keeps_up k c (map HStream es ++ r) <-> keeps_up k c r.
Proof. induction es as [|e es IH]; [reflexivity|]. exact IH. Qed.
Lemma clients_stream m n es r : clients_at_most m n (map HStream es ++ r) <-> clients_at_most m n r.
Proof. induction es as [|e es IH]; [reflexivity|]. exact IH. Qed.
Lemma no_refused_stream es : ~ In HRefused (map HStream es).
Proof. intro H. apply in_map_iff in H as (x & H & _). discriminate. Qed.

(** Is the loop inside pushStreamer? *)
Definition in_song (p : pc) : nat :=
  match p with AtTop | Opening _ | Crashed => 0 | _ => 1 end.

Section OpenFiles.
Variables (limit base : nat) (exists_ : song -> bool) (decode : song -> option (list sample))
  (lyrics_file : song -> bool) (contents : song -> about) (nan_break : Z).
Notation hstep := (hstep limit base exists_ decode lyrics_file contents nan_break).
Notation hrun := (hrun limit base exists_ decode lyrics_file contents nan_break).
Notation used := (used base).
Notation room := (room limit base).

(** What the loop's own step does to the place in the program and which songs it starts. *)
Lemma pstep_place d p a p' es : pstep d nan_break p a = Some (p', es) ->
  match a, at_pc p with
  | POpen, Opening f => match d f with
      | Some l => in_song (at_pc p') = 1 /\ es = [ENewSong (idx_write p) (current_song p) (zlen l)]
      | None => in_song (at_pc p') = 0 /\ es = [] end
  | PCheck, _ => in_song (at_pc p) = 1 /\ (at_pc p' = AtTop \/ in_song (at_pc p') = 1) /\ songs_started (map HStream es) = 0
  | _, _ => at_pc p' = Crashed \/ (in_song (at_pc p') = in_song (at_pc p) /\ songs_started (map HStream es) = 0)
  end.
Proof.
  intro H. destruct a; cbn [pstep] in H; destruct (at_pc p) eqn:P; try discriminate H;
    repeat match type of H with
    | context [match next_song ?l ?q with _ => _ end] => destruct (next_song l q) as [[q0 [|c0 f0]]|]
    | context [match apply_edit ?l ?e with _ => _ end] => destruct (apply_edit l e) as [[l0 r0]|]
    | context [match pending_jumps ?q with _ => _ end] => destruct (pending_jumps q)
    | context [match d ?f with _ => _ end] => destruct (d f) as [l0|]
    | context [if ?b then _ else _] => destruct b
    end; try discriminate H; injection H as <- <-; cbn; rewrite ?P; auto.
Qed.

(** One step: who opens and closes files. *)
Lemma hstep_account s a s' es : hstep s a = Some (s', es) ->
  held s' + lost s' + collected es = held s + lost s + opens es.
Proof.
  unfold OpenFilesModel.hstep. destruct (dead s); [discriminate|]. destruct a as [a|i|i| | |k].
  - destruct (pstep _ _ _ _) as [[p es0]|] eqn:Hp; [|discriminate]. apply pstep_place in Hp.
    destruct a; try (intros [= <- <-]; cbn [held lost set_files set_loop set_pending]; rewrite collected_stream, opens_stream; lia).
    + destruct (at_pc (loop s)) eqn:P; try (intros [= <- <-]; cbn [held lost set_files set_loop set_pending]; rewrite collected_stream, opens_stream; lia).
      unfold get_streamer in Hp. destruct (exists_ f && room s) eqn:R.
      * destruct (decode f); intros [= <- <-]; cbn [held lost set_files].
        -- change (opens (HOpened f :: map HStream es0)) with (S (opens (map HStream es0))).
           cbn [collected]; rewrite collected_stream, opens_stream; lia.
        -- cbn. lia.
      * intros [= <- <-]. cbn. lia.
    + destruct (at_pc p); intros [= <- <-]; cbn [held lost set_files set_loop set_pending]; cbn [collected]; rewrite collected_stream, opens_stream; lia.
  - destruct (take_out i (pending s)) as [[[f|f ly] r]|]; try discriminate.
    unfold read_file. destruct (lyrics_file f && room s); intros [= <- <-]; cbn; lia.
  - destruct (take_out i (pending s)) as [[[f|f ly] r]|]; try discriminate.
    unfold read_file. destruct (exists_ f && room s); intros [= <- <-]; cbn; lia.
  - destruct (accepting s); [|discriminate]. destruct (room s); intros [= <- <-]; cbn; lia.
  - destruct (conns s); [discriminate|]. intros [= <- <-]; cbn; lia.
  - destruct (k <=? lost s) eqn:K; [|discriminate]. intros [= <- <-]. apply Nat.leb_le in K. cbn. lia.
Qed.

Lemma hrun_account acts : forall s s' es, hrun s acts = Some (s', es) ->
  held s' + lost s' + collected es = held s + lost s + opens es.
Proof.
  induction acts as [|a acts IH]; intros s s' es; cbn [OpenFilesModel.hrun].
  - intros [= <- <-]. cbn. lia.
  - destruct (hstep s a) as [[s1 e1]|] eqn:H1; [|discriminate]. destruct (hrun s1 acts) as [[s2 e2]|] eqn:H2; [|discriminate].
    intros [= <- <-]. apply hstep_account in H1. apply IH in H2. rewrite opens_app, collected_app. lia.
Qed.

(** The operating system's limit is never exceeded. *)
Lemma hstep_used s a s' es : used s <= limit -> hstep s a = Some (s', es) -> used s' <= limit.
Proof.
  intro U. assert (R : room s = true -> used s < limit) by (intro R; now apply Nat.ltb_lt). revert R.
  unfold OpenFilesModel.used in U |- *.
  unfold OpenFilesModel.hstep. intro R. destruct (dead s); [discriminate|]. destruct a as [a|i|i| | |k].
  - destruct (pstep _ _ _ _) as [[p es0]|] eqn:Hp; [|discriminate].
    destruct a; try (intros [= <- <-]; cbn; lia).
    + destruct (at_pc (loop s)); try (intros [= <- <-]; cbn; lia).
      destruct (exists_ f && room s) eqn:E.
      * apply andb_true_iff in E as [_ E]. specialize (R E). destruct (decode f); intros [= <- <-]; cbn; lia.
      * intros [= <- <-]. cbn. lia.
    + destruct (at_pc p); intros [= <- <-]; cbn; lia.
  - destruct (take_out i (pending s)) as [[[f|f ly] r]|]; try discriminate.
    unfold read_file. destruct (lyrics_file f && room s) eqn:E; intros [= <- <-]; cbn; [|lia].
    apply andb_true_iff in E as [_ E]. specialize (R E). lia.
  - destruct (take_out i (pending s)) as [[[f|f ly] r]|]; try discriminate.
    unfold read_file. destruct (exists_ f && room s) eqn:E; intros [= <- <-]; cbn; [|lia].
    apply andb_true_iff in E as [_ E]. specialize (R E). lia.
  - destruct (accepting s); [|discriminate]. destruct (room s) eqn:E; intros [= <- <-]; cbn; [specialize (R eq_refl)|]; lia.
  - destruct (conns s) as [|n]; [discriminate|]. intros [= <- <-]; cbn. lia.
  - destruct (k <=? lost s) eqn:K; [|discriminate]. intros [= <- <-]. apply Nat.leb_le in K. cbn. lia.
Qed.
Lemma hrun_used acts : forall s s' es, used s <= limit -> hrun s acts = Some (s', es) -> used s' <= limit.
Proof.
  induction acts as [|a acts IH]; intros s s' es U; cbn [OpenFilesModel.hrun].
  - intros [= <- <-]. exact U.
  - destruct (hstep s a) as [[s1 e1]|] eqn:H1; [|discriminate]. destruct (hrun s1 acts) as [[s2 e2]|] eqn:H2; [|discriminate].
    intros [= <- <-]. exact (IH _ _ _ (hstep_used _ _ _ _ U H1) H2).
Qed.

(** Starting a song opens a file. *)
Lemma hstep_started s a s' es : hstep s a = Some (s', es) -> songs_started es <= opens es.
Proof.
  unfold OpenFilesModel.hstep. destruct (dead s); [discriminate|]. destruct a as [a|i|i| | |k].
  - destruct (pstep _ _ _ _) as [[p es0]|] eqn:Hp; [|discriminate]. pose proof (pstep_place _ _ _ _ _ Hp) as Hq.
    destruct a; try (intros [= <- <-]; destruct Hq as [Hq|[_ Hq]]; [|rewrite Hq; lia];
      destruct (at_pc (loop s)) eqn:P; cbn [pstep] in Hp; rewrite P in Hp; try discriminate Hp;
      repeat match type of Hp with
      | context [match next_song ?l ?q with _ => _ end] => destruct (next_song l q) as [[q0 [|c0 f0]]|]
      | context [match apply_edit ?l ?e with _ => _ end] => destruct (apply_edit l e) as [[l0 r0]|]
      | context [match pending_jumps ?q with _ => _ end] => destruct (pending_jumps q)
      | context [if ?b then _ else _] => destruct b
      end; try discriminate Hp; injection Hp as <- <-; cbn; lia).
    + destruct (at_pc (loop s)) eqn:P; try (cbn [pstep] in Hp; rewrite P in Hp; discriminate Hp).
      unfold get_streamer in Hq. destruct (exists_ f && room s).
      * destruct (decode f); intros [= <- <-]; destruct Hq as [_ ->]; cbn; lia.
      * intros [= <- <-]. cbn. lia.
    + destruct Hq as (_ & _ & Hq). destruct (at_pc p); intros [= <- <-]; rewrite Hq; lia.
  - destruct (take_out i (pending s)) as [[[f|f ly] r]|]; try discriminate.
    unfold read_file. destruct (lyrics_file f && room s); intros [= <- <-]; cbn; lia.
  - destruct (take_out i (pending s)) as [[[f|f ly] r]|]; try discriminate.
    unfold read_file. destruct (exists_ f && room s); intros [= <- <-]; cbn; lia.
  - destruct (accepting s); [|discriminate]. destruct (room s); intros [= <- <-]; cbn; lia.
  - destruct (conns s); [discriminate|]. intros [= <- <-]; cbn; lia.
  - destruct (k <=? lost s); [|discriminate]. intros [= <- <-]. cbn. lia.
Qed.
Lemma hrun_started acts : forall s s' es, hrun s acts = Some (s', es) -> songs_started es <= opens es.
Proof.
  induction acts as [|a acts IH]; intros s s' es; cbn [OpenFilesModel.hrun].
  - intros [= <- <-]. cbn. lia.
  - destruct (hstep s a) as [[s1 e1]|] eqn:H1; [|discriminate]. destruct (hrun s1 acts) as [[s2 e2]|] eqn:H2; [|discriminate].
    intros [= <- <-]. apply hstep_started in H1. apply IH in H2. rewrite opens_app, started_app. lia.
Qed.

(** Without the collector nothing is collected. *)
Lemma hrun_not_collected acts : forall s s' es, no_collector acts -> hrun s acts = Some (s', es) -> collected es = 0.
Proof.
  induction acts as [|a acts IH]; intros s s' es N; cbn [OpenFilesModel.hrun].
  - intros [= <- <-]. reflexivity.
  - destruct (hstep s a) as [[s1 e1]|] eqn:H1; [|discriminate]. destruct (hrun s1 acts) as [[s2 e2]|] eqn:H2; [|discriminate].
    intros [= <- <-]. rewrite collected_app, (IH _ _ _ (fun k H => N k (or_intror H)) H2).
    assert (collected e1 = 0); [|lia]. clear H2 IH. revert H1. unfold OpenFilesModel.hstep. destruct (dead s); [discriminate|].
    destruct a as [a|i|i| | |k].
    + destruct (pstep _ _ _ _) as [[p es0]|]; [|discriminate].
      destruct a; try (intros [= <- <-]; apply collected_stream).
      * destruct (at_pc (loop s)); try (intros [= <- <-]; apply collected_stream).
        destruct (exists_ f && room s); [destruct (decode f)|]; intros [= <- <-]; try reflexivity. apply collected_stream.
      * destruct (at_pc p); intros [= <- <-]; apply collected_stream.
    + destruct (take_out i (pending s)) as [[[f|f ly] r]|]; try discriminate.
      unfold read_file. destruct (lyrics_file f && room s); intros [= <- <-]; reflexivity.
    + destruct (take_out i (pending s)) as [[[f|f ly] r]|]; try discriminate.
      unfold read_file. destruct (exists_ f && room s); intros [= <- <-]; reflexivity.
    + destruct (accepting s); [|discriminate]. destruct (room s); intros [= <- <-]; reflexivity.
    + destruct (conns s); [discriminate|]. intros [= <- <-]; reflexivity.
    + exfalso. exact (N k (or_introl eq_refl)).
Qed.

(** An acceptor that has ended stays ended. *)
Lemma hstep_ended s a s' es : accepting s = false -> hstep s a = Some (s', es) ->
  accepting s' = false /\ ~ In HAccepted es.
Proof.
  intro A. unfold OpenFilesModel.hstep. destruct (dead s); [discriminate|].
  assert (Q : forall l, ~ In HAccepted (map HStream l))
    by (intros l H; apply in_map_iff in H as (x & H & _); discriminate).
  destruct a as [a|i|i| | |k].
  - destruct (pstep _ _ _ _) as [[p es0]|]; [|discriminate].
    destruct a; try (intros [= <- <-]; split; [exact A|apply Q]).
    + destruct (at_pc (loop s)); try (intros [= <- <-]; split; [exact A|apply Q]).
      destruct (exists_ f && room s); [destruct (decode f)|]; intros [= <- <-]; (split; [exact A|]); cbn; intro H.
      * destruct H as [H|H]; [discriminate|exact (Q _ H)].
      * destruct H as [H|[H|[]]]; discriminate.
      * destruct H as [H|[]]; discriminate.
    + destruct (at_pc p); intros [= <- <-]; (split; [exact A|apply Q]).
  - destruct (take_out i (pending s)) as [[[f|f ly] r]|]; try discriminate.
    unfold read_file. destruct (lyrics_file f && room s); intros [= <- <-]; (split; [exact A|]); cbn; intuition discriminate.
  - destruct (take_out i (pending s)) as [[[f|f ly] r]|]; try discriminate.
    unfold read_file. destruct (exists_ f && room s); intros [= <- <-]; (split; [exact A|]); cbn; intuition discriminate.
  - rewrite A. discriminate.
  - destruct (conns s); [discriminate|]. intros [= <- <-]. split; [exact A|]. cbn. intuition discriminate.
  - destruct (k <=? lost s); [|discriminate]. intros [= <- <-]. split; [exact A|]. cbn. intuition discriminate.
Qed.
Lemma hrun_ended acts : forall s s' es, accepting s = false -> hrun s acts = Some (s', es) ->
  accepting s' = false /\ ~ In HAccepted es.
Proof.
  induction acts as [|a acts IH]; intros s s' es A; cbn [OpenFilesModel.hrun].
  - intros [= <- <-]. split; [exact A|intros []].
  - destruct (hstep s a) as [[s1 e1]|] eqn:H1; [|discriminate]. destruct (hrun s1 acts) as [[s2 e2]|] eqn:H2; [|discriminate].
    intros [= <- <-]. apply (hstep_ended _ _ _ _ A) in H1 as [A1 N1]. apply (IH _ _ _ A1) in H2 as [A2 N2].
    split; [exact A2|]. rewrite in_app_iff. tauto.
Qed.

(** *** With a collector that keeps up *)
Definition plain_decode (f : song) : option (list sample) := if exists_ f then decode f else None.
Definition true_about (f : song) : about :=
  {| ab_lyrics := if lyrics_file f then ab_lyrics (contents f) else [];
     ab_tags := if exists_ f then ab_tags (contents f) else [] |}.

Lemma pstep_ext d d' p a : (forall f, d f = d' f) -> pstep d nan_break p a = pstep d' nan_break p a.
Proof. intro E. destruct a; cbn [pstep]; try reflexivity. destruct (at_pc p); try reflexivity. now rewrite E. Qed.

Definition stage_ok (x : stage) : Prop :=
  match x with AtLyrics _ => True | AtTags f ly => ly = ab_lyrics (true_about f) end.

Record good (c n : nat) (s : hstate) : Prop := {
  g_held : held s <= in_song (at_pc (loop s)) \/ at_pc (loop s) = Crashed;
  g_files : held s + lost s <= 1 + c;
  g_conns : conns s = n;
  g_acc : accepting s = true;
  g_pend : Forall stage_ok (pending s)
}.

Lemma take_out_ok i : forall l (x : stage) r, Forall stage_ok l -> take_out i l = Some (x, r) -> stage_ok x /\ Forall stage_ok r.
Proof.
  induction i as [|i IH]; intros [|y l] x r F; cbn; try discriminate; apply Forall_cons_iff in F as [Fy Fl].
  - intros [= <- <-]. auto.
  - destruct (take_out i l) as [[z r']|] eqn:E; [|discriminate]. intros [= <- <-].
    destruct (IH _ _ _ Fl E). split; [assumption|]. now apply Forall_cons.
Qed.
Lemma started_ok es : Forall stage_ok (started es).
Proof. induction es as [|[] es IH]; cbn [started]; try exact IH; [apply Forall_nil|]. apply Forall_cons; [exact I|exact IH]. Qed.

Lemma in_song_le p : in_song p <= 1.
Proof. destruct p; cbn; lia. Qed.

Lemma hstep_good k m c n s a s' es r : base + m + k + 1 < limit -> c <= k -> n <= m -> good c n s ->
  keeps_up k c (es ++ r) -> clients_at_most m n (es ++ r) -> hstep s a = Some (s', es) ->
  exists c' n', c' <= k /\ n' <= m /\ good c' n' s' /\ keeps_up k c' r /\ clients_at_most m n' r
    /\ prun plain_decode nan_break (loop s) (loop_actions [a]) = Some (loop s', stream_events es)
    /\ (forall f ab, In (HAnnounced f ab) es -> ab = true_about f) /\ ~ In HRefused es
    /\ (forall f, In (HSkipped f) es -> plain_decode f = None).
Proof.
  intros L Hc Hn [Gh Gf Gc Ga Gp] Kp Cl.
  assert (R : room s = true).
  { apply Nat.ltb_lt. unfold OpenFilesModel.used. lia. }
  assert (Q : forall l f ab, In (HAnnounced f ab) (map HStream l) -> ab = true_about f)
    by (intros l f ab H; apply in_map_iff in H as (x & H & _); discriminate).
  assert (Q2 : forall l f, In (HSkipped f) (map HStream l) -> plain_decode f = None)
    by (intros l f H; apply in_map_iff in H as (x & H & _); discriminate).
  unfold OpenFilesModel.hstep. destruct (dead s) eqn:D; [discriminate|]. destruct a as [a|i|i| | |q].
  - assert (G : forall f, get_streamer limit base exists_ decode s f = plain_decode f).
    { intro f. unfold get_streamer, plain_decode. now rewrite R, andb_true_r. }
    rewrite (pstep_ext _ _ _ _ G). cbn [loop_actions prun].
    destruct (pstep plain_decode nan_break (loop s) a) as [[p es0]|] eqn:Hp; [|discriminate].
    pose proof (pstep_place _ _ _ _ _ Hp) as Hq. unfold dead in D.
    assert (Std : forall h l, h <= in_song (at_pc p) \/ at_pc p = Crashed -> h + l = held s + lost s -> s' = set_files (set_pending (set_loop s p) (pending s ++ started es0)) h l ->
      es = map HStream es0 -> exists c' n' : nat,
        c' <= k /\ n' <= m /\ good c' n' s' /\ keeps_up k c' r /\ clients_at_most m n' r /\
        Some (p, es0 ++ []) = Some (loop s', stream_events es) /\
        (forall f ab, In (HAnnounced f ab) es -> ab = true_about f) /\ ~ In HRefused es
        /\ (forall f, In (HSkipped f) es -> plain_decode f = None)).
    { intros h l Hh Hl -> ->. rewrite keeps_stream in Kp. rewrite clients_stream in Cl. exists c, n.
      split; [exact Hc|]. split; [exact Hn|]. split.
      { constructor; cbn; try assumption; try lia. apply Forall_app. split; [exact Gp|apply started_ok]. }
      split; [exact Kp|]. split; [exact Cl|]. split; [now rewrite app_nil_r, stream_stream|].
      split; [apply Q|split; [apply no_refused_stream|apply Q2]]. }
    assert (Easy : held s <= in_song (at_pc p) \/ at_pc p = Crashed ->
      Some (set_pending (set_loop s p) (pending s ++ started es0), map HStream es0) = Some (s', es) ->
      exists c' n' : nat,
        c' <= k /\ n' <= m /\ good c' n' s' /\ keeps_up k c' r /\ clients_at_most m n' r /\
        Some (p, es0 ++ []) = Some (loop s', stream_events es) /\
        (forall f ab, In (HAnnounced f ab) es -> ab = true_about f) /\ ~ In HRefused es
        /\ (forall f, In (HSkipped f) es -> plain_decode f = None)).
    { intros Hh Heq. apply (Std (held s) (lost s)); [exact Hh|reflexivity| |]; injection Heq as <- <-; reflexivity. }
    destruct a; try (intro Heq; apply Easy; [|exact Heq]; destruct Hq as [Hq|[Hq _]]; [now right|rewrite Hq; left; destruct Gh as [Gh|Gh]; [exact Gh|rewrite Gh in D; discriminate]]).
    + destruct (at_pc (loop s)) eqn:P; try (cbn [pstep] in Hp; rewrite P in Hp; discriminate Hp).
      rewrite R, andb_true_r. assert (H0 : held s = 0) by (destruct Gh as [Gh|Gh]; [cbn in Gh; lia|discriminate]).
      unfold plain_decode in Hq. destruct (exists_ f) eqn:Ex.
      * destruct (decode f) as [l|] eqn:De; intros [= <- <-]; cbn in Kp, Cl; destruct Hq as [Hq ->].
        -- cbn in Kp, Cl. destruct Kp as [Kp1 Kp2]. exists (S c), n.
           split; [lia|]. split; [exact Hn|]. split.
           { constructor; cbn; try assumption; try lia. apply Forall_app. split; [exact Gp|]. now apply Forall_cons. }
           split; [exact Kp2|]. split; [exact Cl|]. split; [reflexivity|].
           split; [cbn; intros f0 ab [H|[H|[]]]; discriminate|].
           split; [cbn; intros [H|[H|[]]]; discriminate|]. cbn; intros f0 [H|[H|[]]]; discriminate.
        -- destruct Kp as [Kp1 Kp2]. exists (S c), n.
           split; [lia|]. split; [exact Hn|]. split.
           { constructor; cbn; try assumption; try lia. apply Forall_app. split; [exact Gp|apply Forall_nil]. }
           split; [exact Kp2|]. split; [exact Cl|]. split; [reflexivity|].
           split; [cbn; intros f0 ab [H|[H|[]]]; discriminate|].
           split; [cbn; intros [H|[H|[]]]; discriminate|].
           cbn; intros f0 [H|[[= <-]|[]]]; [discriminate|]. unfold plain_decode. now rewrite Ex.
      * cbn [andb]. intros [= <- <-]. destruct Hq as [Hq ->]. exists c, n.
        split; [exact Hc|]. split; [exact Hn|]. split.
        { constructor; cbn; try assumption; try lia. apply Forall_app. split; [exact Gp|apply Forall_nil]. }
        split; [exact Kp|]. split; [exact Cl|]. split; [reflexivity|].
        split; [cbn; intros f0 ab [H|[]]; discriminate|].
        split; [cbn; intros [H|[]]; discriminate|].
        cbn; intros f0 [[= <-]|[]]. unfold plain_decode. now rewrite Ex.
    + destruct Hq as (Hq1 & Hq2 & _).
      assert (H1 : held s <= 1).
      { destruct Gh as [Gh|Gh]; [lia|]. rewrite Gh in D. discriminate. }
      destruct (at_pc p) eqn:P; try (intro Heq; apply Easy; [|exact Heq]; destruct Hq2 as [Hq2|Hq2]; [discriminate|left; cbn in Hq2 |- *; lia]).
      intro Heq. apply (Std 0 (held s + lost s)); [left; lia|lia| |]; injection Heq as <- <-; reflexivity.
  - destruct (take_out i (pending s)) as [[[f|f ly] t]|] eqn:E; try discriminate.
    apply take_out_ok in E as [E1 E2]; [|exact Gp].
    unfold read_file. rewrite R, andb_true_r. destruct (lyrics_file f) eqn:Lf; intros [= <- <-]; cbn in Kp, Cl.
    + destruct Kp as [Kp1 Kp2]. exists (S c), n. split; [lia|]. split; [exact Hn|]. split.
      { constructor; cbn; try assumption; try lia. apply Forall_app. split; [exact E2|]. apply Forall_cons; [|apply Forall_nil].
        cbn. now rewrite Lf. }
      split; [exact Kp2|]. split; [exact Cl|]. split; [reflexivity|].
      split; [cbn; intros f0 ab [H|[]]; discriminate|]. split; [cbn; intros [H|[]]; discriminate|]. cbn; intros f0 [H|[]]; discriminate.
    + exists c, n. split; [exact Hc|]. split; [exact Hn|]. split.
      { constructor; cbn; try assumption; try lia. apply Forall_app. split; [exact E2|]. apply Forall_cons; [|apply Forall_nil].
        cbn. now rewrite Lf. }
      split; [exact Kp|]. split; [exact Cl|]. split; [reflexivity|].
      split; [intros f0 ab []|]. split; [intros []|intros f0 []].
  - destruct (take_out i (pending s)) as [[[f|f ly] t]|] eqn:E; try discriminate.
    apply take_out_ok in E as [E1 E2]; [|exact Gp]. cbn in E1.
    unfold read_file. rewrite R, andb_true_r. destruct (exists_ f) eqn:Lf; intros [= <- <-]; cbn in Kp, Cl.
    + destruct Kp as [Kp1 Kp2]. exists (S c), n. split; [lia|]. split; [exact Hn|]. split.
      { constructor; cbn; try assumption; try lia. }
      split; [exact Kp2|]. split; [exact Cl|]. split; [reflexivity|].
      split; [cbn; intros f0 ab [H|[H|[]]]; [discriminate|]; injection H as <- <-; unfold true_about; rewrite Lf, E1; reflexivity|].
      split; [cbn; intros [H|[H|[]]]; discriminate|]. cbn; intros f0 [H|[H|[]]]; discriminate.
    + exists c, n. split; [exact Hc|]. split; [exact Hn|]. split.
      { constructor; cbn; try assumption; try lia. }
      split; [exact Kp|]. split; [exact Cl|]. split; [reflexivity|].
      split; [cbn; intros f0 ab [H|[]]; injection H as <- <-; unfold true_about; rewrite Lf, E1; reflexivity|].
      split; [cbn; intros [H|[]]; discriminate|]. cbn; intros f0 [H|[]]; discriminate.
  - rewrite Ga, R. intros [= <- <-]. cbn in Kp, Cl. destruct Cl as [C1 C2]. exists c, (S n).
    split; [exact Hc|]. split; [lia|]. split. { constructor; cbn; try assumption; try lia. }
    split; [exact Kp|]. split; [exact C2|]. split; [reflexivity|].
    split; [cbn; intros f0 ab [H|[]]; discriminate|]. split; [cbn; intros [H|[]]; discriminate|]. cbn; intros f0 [H|[]]; discriminate.
  - destruct (conns s) as [|x] eqn:Cs; [discriminate|]. intros [= <- <-]. cbn in Kp, Cl. exists c, (pred n).
    split; [exact Hc|]. split; [lia|]. split. { constructor; cbn; try assumption; try lia. }
    split; [exact Kp|]. split; [exact Cl|]. split; [reflexivity|].
    split; [cbn; intros f0 ab [H|[]]; discriminate|]. split; [cbn; intros [H|[]]; discriminate|]. cbn; intros f0 [H|[]]; discriminate.
  - destruct (q <=? lost s) eqn:Kq; [|discriminate]. intros [= <- <-]. apply Nat.leb_le in Kq.
    assert (H1 : held s <= 1).
    { destruct Gh as [Gh|Gh]; [pose proof (in_song_le (at_pc (loop s))); lia|]. unfold dead in D. rewrite Gh in D. discriminate. }
    cbn in Kp, Cl. destruct (lost s - q) as [|z] eqn:Z.
    + exists 0, n. split; [lia|]. split; [exact Hn|]. split. { constructor; cbn; try assumption; try lia. }
      split; [exact Kp|]. split; [exact Cl|]. split; [reflexivity|].
      split; [cbn; intros f0 ab [H|[]]; discriminate|]. split; [cbn; intros [H|[]]; discriminate|]. cbn; intros f0 [H|[]]; discriminate.
    + exists c, n. split; [exact Hc|]. split; [exact Hn|]. split. { constructor; cbn; try assumption; try lia. }
      split; [exact Kp|]. split; [exact Cl|]. split; [reflexivity|].
      split; [cbn; intros f0 ab [H|[]]; discriminate|]. split; [cbn; intros [H|[]]; discriminate|]. cbn; intros f0 [H|[]]; discriminate.
Qed.

Lemma prun_app d nb a : forall s b, prun d nb s (a ++ b) =
  match prun d nb s a with None => None | Some (s1, e1) => match prun d nb s1 b with None => None | Some (s2, e2) => Some (s2, e1 ++ e2) end end.
Proof.
  induction a as [|x a IH]; intros s b; cbn [app prun].
  - destruct (prun d nb s b) as [[s2 e2]|]; reflexivity.
  - destruct (pstep d nb s x) as [[s1 e1]|]; [|reflexivity]. rewrite IH.
    destruct (prun d nb s1 a) as [[s2 e2]|]; [|reflexivity]. destruct (prun d nb s2 b) as [[s3 e3]|]; [|reflexivity].
    now rewrite app_assoc.
Qed.

Lemma hrun_good acts : forall k m c n s s' es, base + m + k + 1 < limit -> c <= k -> n <= m -> good c n s ->
  keeps_up k c es -> clients_at_most m n es -> hrun s acts = Some (s', es) ->
  prun plain_decode nan_break (loop s) (loop_actions acts) = Some (loop s', stream_events es)
    /\ (forall f ab, In (HAnnounced f ab) es -> ab = true_about f) /\ ~ In HRefused es
    /\ (forall f, In (HSkipped f) es -> plain_decode f = None).
Proof.
  induction acts as [|a acts IH]; intros k m c n s s' es L Hc Hn G Kp Cl; cbn [OpenFilesModel.hrun].
  - intros [= <- <-]. split; [reflexivity|]. split; [intros f ab []|]. split; [intros []|intros f []].
  - destruct (hstep s a) as [[s1 e1]|] eqn:H1; [|discriminate]. destruct (hrun s1 acts) as [[s2 e2]|] eqn:H2; [|discriminate].
    intros [= <- <-].
    destruct (hstep_good k m c n s a s1 e1 e2 L Hc Hn G Kp Cl H1) as (c' & n' & Hc' & Hn' & G' & Kp' & Cl' & Hr & Ha & Hx & Hs).
    destruct (IH k m c' n' s1 s2 e2 L Hc' Hn' G' Kp' Cl' H2) as (Hr2 & Ha2 & Hx2 & Hs2).
    split.
    { change (a :: acts) with ([a] ++ acts). replace (loop_actions ([a] ++ acts)) with (loop_actions [a] ++ loop_actions acts)
        by (destruct a; reflexivity). rewrite prun_app, Hr, Hr2, stream_app. reflexivity. }
    split. { intros f ab H. apply in_app_iff in H as [H|H]; [exact (Ha f ab H)|exact (Ha2 f ab H)]. }
    split. { rewrite in_app_iff. tauto. }
    intros f H. apply in_app_iff in H as [H|H]; [exact (Hs f H)|exact (Hs2 f H)].
Qed.

(** *** A song that cannot be decoded *)
Lemma hrun_app a : forall s b, hrun s (a ++ b) =
  match hrun s a with None => None | Some (s1, e1) => match hrun s1 b with None => None | Some (s2, e2) => Some (s2, e1 ++ e2) end end.
Proof.
  induction a as [|x a IH]; intros s b; cbn [app OpenFilesModel.hrun].
  - destruct (hrun s b) as [[s2 e2]|]; reflexivity.
  - destruct (hstep s x) as [[s1 e1]|]; [|reflexivity]. rewrite IH.
    destruct (hrun s1 a) as [[s2 e2]|]; [|reflexivity]. destruct (hrun s2 b) as [[s3 e3]|]; [|reflexivity].
    now rewrite app_assoc.
Qed.

Definition round : list haction := [HLoop PNext; HLoop POpen].
Definition spinning (f : song) (s : hstate) : Prop :=
  at_pc (loop s) = AtTop /\ songs (loop s) = [f] /\ (0 <= position (loop s))%Z.

Lemma round_step f s : f <> [] -> exists_ f = true -> decode f = None -> spinning f s -> room s = true ->
  exists s', hrun s round = Some (s', [HOpened f; HSkipped f]) /\ spinning f s'
    /\ used s' = S (used s) /\ accepting s' = accepting s.
Proof.
  intros F Ex De (P & Sg & Ps) R. unfold round. cbn [OpenFilesModel.hrun].
  unfold OpenFilesModel.hstep at 1. unfold dead. rewrite P. cbn [pstep]. rewrite P, Sg.
  unfold next_song. change (zlen [f] =? 0)%Z with false. cbv iota.
  assert (M : go_mod (position (loop s)) (zlen [f]) = 0%Z).
  { unfold go_mod, zlen. cbn [length Z.of_nat Pos.of_succ_nat]. apply Z.rem_1_r. }
  rewrite M. change (slice_get [f] 0) with (Ok f). cbn [obind]. destruct f as [|x f]; [contradiction|].
  cbv iota beta. cbn [started map app].
  unfold OpenFilesModel.hstep. cbn [dead loop set_pending set_loop set_pc set_current set_position at_pc pstep].
  assert (R' : forall p q, room (set_pending (set_loop s p) q) = true) by (intros; exact R).
  unfold get_streamer. rewrite !R', Ex, De. cbn [andb].
  eexists. split; [reflexivity|]. split.
  { split; [reflexivity|]. cbn. split; [exact Sg|]. lia. }
  split; [|reflexivity]. unfold OpenFilesModel.used. cbn. lia.
Qed.

Fixpoint rounds (n : nat) : list haction := match n with O => [] | S n => round ++ rounds n end.

Lemma spin f : f <> [] -> exists_ f = true -> decode f = None -> forall n s, spinning f s -> used s + n = limit ->
  exists s' es, hrun s (rounds n) = Some (s', es) /\ spinning f s' /\ stream_events es = [] /\ used s' = limit
    /\ accepting s' = accepting s.
Proof.
  intros F Ex De. induction n as [|n IH]; intros s Sp U.
  - exists s, []. cbn. repeat split; try apply Sp; try lia; reflexivity.
  - cbn [rounds]. destruct (round_step f s F Ex De Sp) as (s1 & H1 & Sp1 & U1 & A1).
    { apply Nat.ltb_lt. lia. }
    destruct (IH s1 Sp1 ltac:(lia)) as (s2 & es & H2 & Sp2 & E2 & U2 & A2).
    exists s2, ([HOpened f; HSkipped f] ++ es). split; [rewrite hrun_app, H1, H2; reflexivity|].
    split; [exact Sp2|]. split; [exact E2|]. split; [exact U2|congruence].
Qed.
End OpenFiles.
