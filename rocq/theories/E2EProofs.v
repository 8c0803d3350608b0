(** Lemmas for the end-to-end property C88. *)
From Verif Require Import GoBase GoBaseFacts PlaylistModel ChanModel ChanSpec ChanProofs QueueModel PlayerModel PlayerSpec
  PlayerProofs ScheduleModel ScheduleProofs WireModel WireSpec WireProofs E2EModel E2ESpec.
Local Open Scope Z_scope.

Lemma nth_error_ext {A} : forall l l' : list A, (forall i, nth_error l i = nth_error l' i) -> l = l'.
Proof.
  induction l as [|x l IH]; intros [|y l'] H; auto; try (specialize (H 0%nat); discriminate).
  pose proof (H 0%nat) as E. cbn in E. injection E as ->. f_equal. apply IH. intros i. exact (H (S i)).
Qed.

(** ** Fill *)
Definition sized (size : Z) (r : Z * list N * list N) : Prop := zlen (snd (fst r)) = size /\ zlen (snd r) = size.

Lemma sized_step size s a s' : fills_chunks size a ->
  (forall k gl gh, fill s = FRun k gl gh -> Z.of_nat k = size) -> Forall (sized size) (returned s) ->
  cstep s a = Some s' ->
  (forall k gl gh, fill s' = FRun k gl gh -> Z.of_nat k = size) /\ Forall (sized size) (returned s').
Proof.
  intros Ha Hf Hr H. destruct a as [[l h]| | | |k| | |]; cbn [cstep fills_chunks] in *.
  - destruct (prod s); inversion H; subst; cbn [fill returned]; auto.
  - destruct (prod s); try discriminate. destruct (_ <? _)%nat; inversion H; subst; cbn [fill returned]; auto.
  - destruct (prod s); try discriminate. destruct (_ <? _)%nat; inversion H; subst; cbn [fill returned]; auto.
  - destruct (prod s); inversion H; subst; cbn [fill returned]; auto.
  - destruct (fill s); inversion H; subst; cbn [fill returned]; split; auto. intros k' gl gh E; injection E as <- _ _; auto.
  - destruct (fill s) as [|k gl gh] eqn:E; [discriminate|]. destruct (lowq s); [discriminate|].
    destruct (_ <? _)%nat; inversion H; subst; cbn [fill returned]; split; auto.
    intros k' gl' gh' E'; injection E' as <- _ _; eauto.
  - destruct (fill s) as [|k gl gh] eqn:E; [discriminate|]. destruct (highq s); [discriminate|].
    destruct (_ <? _)%nat; inversion H; subst; cbn [fill returned]; split; auto.
    intros k' gl' gh' E'; injection E' as <- _ _; eauto.
  - destruct (fill s) as [|k gl gh] eqn:E; [discriminate|].
    destruct (Nat.eqb (length gl) k && Nat.eqb (length gh) k)%bool eqn:B; inversion H; subst; cbn [fill returned].
    apply andb_prop in B as [B1 B2]. apply Nat.eqb_eq in B1, B2. split; [discriminate|].
    apply Forall_app. split; [exact Hr|]. constructor; [|constructor]. split; cbn [fst snd]; unfold zlen; rewrite <- (Hf _ _ _ eq_refl); lia.
Qed.

Lemma sized_run size acts : forall s s', Forall (fills_chunks size) acts ->
  (forall k gl gh, fill s = FRun k gl gh -> Z.of_nat k = size) -> Forall (sized size) (returned s) ->
  crun s acts = Some s' -> Forall (sized size) (returned s').
Proof.
  induction acts as [|a acts IH]; intros s s' Ha Hf Hr H; cbn [crun] in H; [injection H as <-; exact Hr|].
  inversion Ha; subst. destruct (cstep s a) as [s1|] eqn:E; [|discriminate].
  destruct (sized_step size s a s1) as [F R]; auto. eapply IH; eauto.
Qed.

(** ** Lists of blocks of equal size *)
Lemma concat_nth {A} (m : nat) (ls : list (list A)) : Forall (fun l => length l = m) ls ->
  forall i l k, nth_error ls i = Some l -> (k < m)%nat -> nth_error (concat ls) (i * m + k) = nth_error l k.
Proof.
  induction ls as [|x ls IH]; intros H [|i] l k Hi Hk; cbn [nth_error concat] in *; try discriminate.
  - injection Hi as ->. inversion H; subst. cbn [Nat.mul Nat.add]. rewrite nth_error_app1 by lia. reflexivity.
  - inversion H; subst. rewrite nth_error_app2 by lia. rewrite <- (IH ltac:(assumption) i l k Hi Hk). f_equal. lia.
Qed.

Lemma concat_skip {A} (m : nat) (ls : list (list A)) : Forall (fun l => length l = m) ls ->
  forall j, concat (skipn j ls) = skipn (j * m) (concat ls).
Proof.
  induction ls as [|x ls IH]; intros H j; [destruct j; rewrite ?skipn_nil; reflexivity|].
  destruct j as [|j]; [reflexivity|]. inversion H; subst. cbn [skipn concat Nat.mul].
  rewrite skipn_app, IH by assumption. rewrite (skipn_all2 x) by lia. cbn [app]. f_equal. lia.
Qed.

Lemma combine_samples_combine low : forall high, combine_samples low high = combine low high.
Proof. induction low as [|l low IH]; intros [|h high]; cbn; rewrite ?IH; reflexivity. Qed.

(** ** Messages *)
Lemma received_sent rs : chunks_received (map (fun m => queue_message (fst m)) rs) = map (fun m : chunk_request * chunk_info => request_chunk (fst m)) rs.
Proof. induction rs as [|[r i] rs IH]; [reflexivity|]. cbn. unfold chunks_received in IH. rewrite IH. reflexivity. Qed.

Lemma received_filter ms : chunks_received ms = chunks_received (chunk_messages ms).
Proof.
  induction ms as [|m ms IH]; [reflexivity|]. unfold chunk_messages in *. cbn [filter].
  destruct m; cbn [is_chunk_message]; unfold chunks_received in *; cbn [flat_map player_handle app]; rewrite ?IH; reflexivity.
Qed.

Lemma received_app a b : chunks_received (a ++ b) = chunks_received a ++ chunks_received b.
Proof. apply flat_map_app. Qed.

(** A cut of the byte stream leaves a beginning of the messages. *)
Lemma cut_frames {A} (frames : list (list A)) : forall p rest, concat frames = p ++ rest ->
  (exists k, p = concat (firstn k frames)) \/
  (exists k f part lost, nth_error frames k = Some f /\ f = part ++ lost /\ lost <> [] /\ p = concat (firstn k frames) ++ part).
Proof.
  induction frames as [|f frames IH]; intros p rest H.
  - cbn in H. symmetry in H. apply app_eq_nil in H as [-> _]. left. exists 0%nat. reflexivity.
  - cbn [concat] in H. destruct (app_eq_app _ _ _ _ (eq_sym H)) as (l & [[E1 E2]|[E1 E2]]).
    + (* p = f ++ l *) destruct (IH l rest E2) as [[k ->]|(k & g & part & lost & G1 & G2 & G3 & G4)].
      * left. exists (S k). rewrite E1. reflexivity.
      * right. exists (S k), g, part, lost. repeat split; auto. cbn [firstn concat]. rewrite E1, G4, app_assoc. reflexivity.
    + destruct l as [|y l].
      * left. exists 1%nat. cbn. rewrite app_nil_r in *. congruence.
      * right. exists 0%nat, f, p, (y :: l). repeat split; auto. discriminate.
Qed.

Lemma Forall2_firstn {A B} (R : A -> B -> Prop) k : forall l l', Forall2 R l l' -> Forall2 R (firstn k l) (firstn k l').
Proof. induction k as [|k IH]; intros l l' H; [constructor|]. destruct H; cbn [firstn]; constructor; auto. Qed.
Lemma Forall2_nth_r {A B} (R : A -> B -> Prop) l l' : Forall2 R l l' -> forall k y, nth_error l' k = Some y ->
  exists x, nth_error l k = Some x /\ R x y.
Proof. induction 1; intros [|k] z Hz; cbn in *; try discriminate; [injection Hz as ->; eauto|auto]. Qed.

Lemma Forall_firstn' {A} (P : A -> Prop) k l : Forall P l -> Forall P (firstn k l).
Proof. intros H. rewrite Forall_forall in *. intros x Hx. apply H. rewrite <- (firstn_skipn k l). apply in_or_app. auto. Qed.

Lemma received_prefix w msgs frames pieces : zlib_inverse w -> foreign w [] = None ->
  Forall (sendable w) msgs -> Forall2 (frame_of w) msgs frames -> is_prefix (concat pieces) (concat frames) ->
  exists k, handle_connection w pieces = (firstn k msgs, Closed).
Proof.
  intros Hz Hfo Hs Hf [rest Hp]. destruct (cut_frames frames _ _ Hp) as [[k E]|(k & f & part & lost & E1 & E2 & E3 & E4)]; exists k.
  - apply (handle_frames w Hz (firstn k msgs) (firstn k frames)) with (tail := []).
    + apply Forall_firstn'; exact Hs.
    + apply Forall2_firstn; exact Hf.
    + rewrite app_nil_r; exact E.
    + intros c' Hc'. exists []. apply read_wire_eof; exact Hc'.
  - destruct (Forall2_nth_r _ _ _ Hf _ _ E1) as (m & Hm & Hfm).
    apply (handle_frames w Hz (firstn k msgs) (firstn k frames)) with (tail := part).
    + apply Forall_firstn'; exact Hs.
    + apply Forall2_firstn; exact Hf.
    + exact E4.
    + intros c' Hc'. eapply read_wire_truncated; eauto. rewrite Forall_forall in Hs. apply Hs. eapply nth_error_In; eauto.
Qed.

(** ** The player *)
Lemma queued_handled acts : forall b, exists d, queued_from b acts = skipn d (handled acts).
Proof.
  assert (T : forall acts, queued_from true acts = handled acts).
  { induction acts0 as [|[|c|] acts0 IH]; cbn [queued_from handled flat_map app]; auto. f_equal. exact IH. }
  induction acts as [|[|c|] acts IH]; intros b; cbn [queued_from handled flat_map app].
  - exists 0%nat. reflexivity.
  - exists 0%nat. apply T.
  - destruct b; [exists 0%nat; cbn [skipn]; f_equal; apply T|]. destruct (IH false) as [d ->]. exists (S d). reflexivity.
  - apply IH.
Qed.

Lemma queued_in acts c : forall b, In c (queued_from b acts) -> In c (handled acts).
Proof. intros b H. destruct (queued_handled acts b) as [d E]. rewrite E in H.
  rewrite <- (firstn_skipn d (handled acts)). apply in_or_app; auto. Qed.

Lemma stamped_in sr cs f : stamped_chunks sr cs f -> forall i x, nth_error f i = Some x ->
  exists c k, In c cs /\ stamped sr c k x.
Proof.
  intros H. induction H as [|c cs f fs Hst Hsts IH]; intros i x Hx; [destruct i; discriminate|].
  destruct Hst as [Hl Hn]. destruct (Nat.lt_ge_cases i (length f)) as [Hlt|Hge].
  - rewrite nth_error_app1 in Hx by exact Hlt. exists c, i. split; [left; reflexivity|]. apply Hn; exact Hx.
  - rewrite nth_error_app2 in Hx by exact Hge. destruct (IH _ _ Hx) as (c' & k & H1 & H2). exists c', k. split; [right; exact H1|exact H2].
Qed.

Lemma stamped_values sr cs f : stamped_chunks sr cs f -> map fst f = concat (map c_samples cs).
Proof.
  intros H. induction H as [|c cs f fs [Hl Hn] Hsts IH]; [reflexivity|].
  rewrite map_app, IH. cbn [map concat]. f_equal. apply nth_error_ext.
  intros i. rewrite nth_error_map. destruct (nth_error f i) as [x|] eqn:E; cbn [option_map].
  - symmetry. apply (Hn i x E).
  - symmetry. apply nth_error_None. apply nth_error_None in E. lia.
Qed.

(** ** From the results of Fill to the chunks *)
Lemma tick_chunk start size sr rs : 0 < sr -> 0 <= size -> Forall (sized size) rs ->
  forall i m, nth_error (stream_music start size sr 0 rs) i = Some m ->
    c_start (request_chunk (fst m)) = start + Z.of_nat i * (size * 1000000000 / sr) /\
    zlen (c_samples (request_chunk (fst m))) = size /\
    exists r, nth_error rs i = Some r /\ c_samples (request_chunk (fst m)) = combine (snd (fst r)) (snd r).
Proof.
  intros Hs Hz Hr i m Hm. destruct (stream_music_nth _ _ _ _ _ _ _ Hm) as ([[j low] high] & Hf & ->).
  unfold tick, request_chunk. cbn [fst q_start c_start c_samples q_low q_high].
  rewrite chunk_time_div by lia. split; [reflexivity|].
  rewrite Forall_forall in Hr. pose proof (Hr _ (nth_error_In _ _ Hf)) as [H1 H2]. cbn [fst snd] in *.
  split; [unfold zlen in *; rewrite combine_samples_length; lia|].
  eexists. split; [exact Hf|]. cbn [fst snd]. apply combine_samples_combine.
Qed.

Lemma handed_blocks size rs : Forall (sized size) rs ->
  Forall (fun l => length l = Z.to_nat size) (map (fun r : Z * list N * list N => combine (snd (fst r)) (snd r)) rs).
Proof. intros H. rewrite Forall_map. eapply Forall_impl; [|exact H]. intros r [A B]. rewrite combine_length. unfold zlen in *. lia. Qed.

Lemma prefix_nth {A} (a b : list A) n x : is_prefix a b -> nth_error a n = Some x -> nth_error b n = Some x.
Proof. intros [r ->] H. rewrite nth_error_app1; [exact H|]. apply nth_error_Some. congruence. Qed.

Lemma sched_at start size sr i k : 0 < size -> 0 <= k < size -> 0 <= i ->
  scheduled start size sr (i * size + k) = start + i * (size * 1000000000 / sr) + k * 1000000000 / sr.
Proof.
  intros Hz Hk Hi. unfold scheduled. rewrite (Z.add_comm (i * size)), Z.div_add, Z.mod_add by lia.
  rewrite Z.div_small, Z.mod_small by lia. reflexivity.
Qed.

(** Every sample of every chunk of the stream, in whatever order the chunks come. *)
Lemma chunk_samples start size sr rs strm c k x : 0 < sr -> 0 < size -> Forall (sized size) rs ->
  is_prefix (handed_out rs) strm ->
  In c (map (fun m => request_chunk (fst m)) (stream_music start size sr 0 rs)) -> stamped sr c k x ->
  exists n, nth_error strm n = Some (fst x) /\ snd x = scheduled start size sr (Z.of_nat n).
Proof.
  intros Hs Hz Hr Hp Hc [H1 H2]. apply in_map_iff in Hc as (m & <- & Hm). apply In_nth_error in Hm as [i Hi].
  destruct (tick_chunk start size sr rs Hs ltac:(lia) Hr i m Hi) as (T1 & T2 & r & T3 & T4).
  assert (Hk : (k < Z.to_nat size)%nat).
  { assert (k < length (c_samples (request_chunk (fst m))))%nat by (apply nth_error_Some; congruence). unfold zlen in T2. lia. }
  exists (i * Z.to_nat size + k)%nat. split.
  - eapply prefix_nth; [exact Hp|]. unfold handed_out.
    rewrite (concat_nth (Z.to_nat size) _ (handed_blocks size rs Hr) i (combine (snd (fst r)) (snd r)) k); [|rewrite nth_error_map, T3; reflexivity|exact Hk].
    rewrite <- T4. exact H1.
  - rewrite <- H2, T1. rewrite Nat2Z.inj_add, Nat2Z.inj_mul, Z2Nat.id by lia. rewrite sched_at by lia. reflexivity.
Qed.

(** The feed of a player that gets chunks number j, j+1, ... in this order. *)
Lemma feed_consecutive start size sr rs strm j cs f : 0 < sr -> 0 < size -> Forall (sized size) rs ->
  is_prefix (handed_out rs) strm ->
  is_prefix cs (skipn j (map (fun m => request_chunk (fst m)) (stream_music start size sr 0 rs))) ->
  stamped_chunks sr cs f ->
  forall i x, nth_error f i = Some x ->
    nth_error strm (j * Z.to_nat size + i) = Some (fst x) /\
    snd x = scheduled start size sr (Z.of_nat (j * Z.to_nat size + i)).
Proof.
  intros Hs Hz Hr Hp Hc Hst i x Hx. split.
  - assert (V : nth_error (map fst f) i = Some (fst x)) by (rewrite nth_error_map, Hx; reflexivity).
    rewrite (stamped_values _ _ _ Hst) in V. eapply prefix_nth; [exact Hp|].
    assert (E : map c_samples (map (fun m => request_chunk (fst m)) (stream_music start size sr 0 rs)) =
                map (fun r : Z * list N * list N => combine (snd (fst r)) (snd r)) rs).
    { rewrite map_map. apply nth_error_ext. intros n. rewrite !nth_error_map.
      destruct (nth_error (stream_music start size sr 0 rs) n) as [m|] eqn:Em; cbn [option_map].
      - destruct (tick_chunk start size sr rs Hs ltac:(lia) Hr n m Em) as (_ & _ & r & T3 & T4). rewrite T3, T4. reflexivity.
      - apply nth_error_None in Em. rewrite stream_music_length in Em. apply nth_error_None in Em. rewrite Em. reflexivity. }
    destruct Hc as [r Hc]. unfold handed_out. rewrite <- E.
    assert (P : is_prefix (concat (map c_samples cs)) (skipn (j * Z.to_nat size) (concat (map c_samples (map (fun m => request_chunk (fst m)) (stream_music start size sr 0 rs)))))).
    { rewrite <- concat_skip by (rewrite E; apply handed_blocks; exact Hr).
      rewrite skipn_map, Hc, map_app, concat_app. eexists. reflexivity. }
    pose proof (prefix_nth _ _ _ _ P V) as Q. revert Q. generalize (concat (map c_samples (map (fun m => request_chunk (fst m)) (stream_music start size sr 0 rs)))).
    generalize (j * Z.to_nat size)%nat. clear. intros n l. revert l. induction n as [|n IH]; intros l; [auto|].
    destruct l as [|y l]; cbn [skipn Nat.add nth_error]; [destruct i; discriminate|]. apply IH.
  - rewrite Nat2Z.inj_add, Nat2Z.inj_mul, Z2Nat.id by lia.
    apply (stamped_scheduled sr start size cs f Hs Hz Hst (Z.of_nat j)); [lia| |exact Hx].
    intros n c Hn. pose proof (prefix_nth _ _ _ _ Hc Hn) as Q.
    assert (Q' : nth_error (map (fun m => request_chunk (fst m)) (stream_music start size sr 0 rs)) (j + n) = Some c).
    { revert Q. generalize (map (fun m => request_chunk (fst m)) (stream_music start size sr 0 rs)). clear.
      induction j as [|j IH]; intros l; [auto|]. destruct l as [|y l]; cbn [skipn Nat.add nth_error]; [destruct n; discriminate|]. apply IH. }
    rewrite nth_error_map in Q'. destruct (nth_error (stream_music start size sr 0 rs) (j + n)) as [m|] eqn:Em; [|discriminate].
    cbn in Q'. assert (c = request_chunk (fst m)) as -> by congruence.
    destruct (tick_chunk start size sr rs Hs ltac:(lia) Hr _ m Em) as (T1 & T2 & _). rewrite T1. split; [|exact T2].
    f_equal. f_equal. lia.
Qed.

(** ** Output positions shifted by the first sample received *)
Definition shift (b : nat) (p : option nat) : option nat := match p with Some i => Some (b + i)%nat | None => None end.

Lemma increasing_shift b pos : forall lo, increasing lo pos -> increasing (b + lo) (map (shift b) pos).
Proof.
  induction pos as [|[i|] pos IH]; intros lo H; cbn [map shift increasing] in *; auto.
  destruct H as [H1 H2]. split; [lia|]. replace (S (b + i)) with (b + S i)%nat by lia. auto.
Qed.
Lemma increasing_weaken pos : forall lo lo', (lo' <= lo)%nat -> increasing lo pos -> increasing lo' pos.
Proof. induction pos as [|[i|] pos IH]; intros lo lo' Hl H; cbn [increasing] in *; auto; [destruct H; split; [lia|auto]|eauto]. Qed.
