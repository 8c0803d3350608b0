(** Proofs about the player. *)
From Verif Require Import GoBase GoBaseFacts PlaylistModel QueueModel PlayerModel PlayerSpec.
From Coq Require Import ZifyBool ZifyNat ZifyN.
Local Open Scope Z_scope.

Lemma dur_div sr n : 0 < sr -> 0 <= n -> samples_duration sr n = n * 1000000000 / sr.
Proof. intros Hs Hn. unfold samples_duration, go_div. apply Z.quot_div_nonneg; lia. Qed.
Lemma dur_nonneg sr n : 0 < sr -> 0 <= n -> 0 <= samples_duration sr n.
Proof. intros Hs Hn. rewrite dur_div by assumption. apply Z.div_pos; lia. Qed.
Lemma dur_0 sr : 0 < sr -> samples_duration sr 0 = 0.
Proof. intros Hs. rewrite dur_div by lia. apply Z.div_0_l; lia. Qed.

(* ---------------- chunks (C18) ---------------- *)

Fixpoint stamp_from (sr : Z) (st : Z) (i : nat) (l : list (N * N)) : list tsample :=
  match l with
  | [] => []
  | x :: r => (x, st + samples_duration sr (Z.of_nat i)) :: stamp_from sr st (S i) r
  end.
Definition stamp sr c := stamp_from sr (c_start c) 0 (c_samples c).

Lemma stamp_from_length sr st l : forall i, length (stamp_from sr st i l) = length l.
Proof. induction l; intros; cbn; auto. Qed.
Lemma stamp_from_nth sr st l : forall i j, nth_error (stamp_from sr st i l) j =
  match nth_error l j with Some x => Some (x, st + samples_duration sr (Z.of_nat (i + j))) | None => None end.
Proof.
  induction l as [|x l IH]; intros i j; cbn [stamp_from].
  - destruct j; reflexivity.
  - destruct j as [|j]; cbn [nth_error]; [rewrite Nat.add_0_r; reflexivity|].
    rewrite IH. replace (S i + j)%nat with (i + S j)%nat by lia. reflexivity.
Qed.
Lemma stamp_ok sr c : 0 < sr -> stamped_all sr c (stamp sr c).
Proof.
  intros Hs. unfold stamped_all, stamp. split; [apply stamp_from_length|].
  intros i x H. rewrite stamp_from_nth in H.
  destruct (nth_error (c_samples c) i) as [y|] eqn:E; [|discriminate]. injection H as <-.
  unfold stamped. cbn [fst snd]. split; [exact E|]. rewrite dur_div by lia. reflexivity.
Qed.
Lemma stamps_ok sr cs : 0 < sr -> stamped_chunks sr cs (concat (map (stamp sr) cs)).
Proof. intros Hs. induction cs; cbn; constructor; auto. apply stamp_ok; exact Hs. Qed.

Definition PInv (sr : Z) (s : pl_state) (Q : list chunk) : Prop :=
  exists dn, Q = dn ++ chunks s /\
  match rd s with
  | RTop => fed s = concat (map (stamp sr) dn)
  | RAdd i => exists c, nth_error (chunks s) 0 = Some c /\ (i <= length (c_samples c))%nat /\
              fed s = concat (map (stamp sr) dn) ++ firstn i (stamp sr c)
  | RPop => exists c, nth_error (chunks s) 0 = Some c /\ fed s = concat (map (stamp sr) dn) ++ stamp sr c
  end /\
  (ready s = false -> Q = [] /\ fed s = [] /\ rd s = RTop).

Lemma firstn_S_nth {A} (l : list A) i x : nth_error l i = Some x -> firstn (S i) l = firstn i l ++ [x].
Proof.
  revert i; induction l as [|y l IH]; intros [|i] H; cbn in *; try discriminate.
  - injection H as ->. reflexivity.
  - f_equal. apply IH. exact H.
Qed.

Lemma pinv_step sr s Q a s' : PInv sr s Q -> pl_step sr s a = Some s' ->
  PInv sr s' (Q ++ match a with LQueue c => if ready s then [c] else [] | _ => [] end).
Proof.
  intros (dn & HQ & Hst & Hnr) H. destruct a as [|c|]; cbn [pl_step] in H.
  - rewrite app_nil_r. destruct (ready s) eqn:E; [discriminate|]. injection H as <-.
    destruct (Hnr eq_refl) as (HQ0 & Hf & Hr). exists []. cbn.
    rewrite HQ0, Hf. repeat split; congruence.
  - destruct (ready s) eqn:E; cbn [negb] in H.
    + destruct (rd s) as [|i|] eqn:Er; try discriminate; injection H as <-;
        exists dn; cbn [chunks rd fed ready]; (split; [rewrite HQ, app_assoc; reflexivity|]); (split; [|discriminate]);
        rewrite ?Er; auto.
      destruct Hst as (c' & H1 & H2). exists c'. split; [|exact H2]. destruct (chunks s); [discriminate|exact H1].
    + rewrite app_nil_r. injection H as <-. exists dn. auto.
  - rewrite app_nil_r. destruct (ready s) eqn:E; cbn [negb] in H; [|discriminate].
    destruct (rd s) as [|i|] eqn:Er.
    + destruct (chunks s) as [|c cs] eqn:Ec; injection H as <-.
      * exists dn. rewrite ?Ec, ?Er, ?E. auto.
      * exists dn. cbn [chunks rd fed ready]. rewrite ?Ec. split; [exact HQ|]. split; [|discriminate].
        exists c. split; [reflexivity|]. split; [lia|]. rewrite firstn_O, app_nil_r. exact Hst.
    + destruct (chunks s) as [|c cs] eqn:Ec; [discriminate|].
      destruct Hst as (c' & H1 & Hi & H2). cbn in H1. injection H1 as <-.
      destruct (nth_error (c_samples c) i) as [x|] eqn:Ex; injection H as <-; exists dn;
        cbn [chunks rd fed ready]; rewrite ?Ec; (split; [exact HQ|]); (split; [|discriminate]); exists c; (split; [reflexivity|]).
      * split; [apply nth_error_Some; congruence|].
        rewrite H2, <- app_assoc. f_equal. symmetry. apply firstn_S_nth.
        unfold stamp. rewrite stamp_from_nth, Ex. reflexivity.
      * apply nth_error_None in Ex. rewrite H2. f_equal. apply firstn_all2.
        unfold stamp. rewrite stamp_from_length. exact Ex.
    + injection H as <-. destruct Hst as (c & H1 & H2). destruct (chunks s) as [|c' cs] eqn:Ec; [discriminate|].
      cbn in H1. injection H1 as ->. exists (dn ++ [c]). cbn [chunks rd fed ready tl].
      split; [rewrite HQ, <- app_assoc; reflexivity|]. split; [|discriminate].
      rewrite map_app, concat_app. cbn [map concat]. rewrite app_nil_r. exact H2.
Qed.

Lemma pl_ready sr s a s' : pl_step sr s a = Some s' ->
  ready s' = match a with LInit => true | _ => ready s end.
Proof.
  destruct a as [|c|]; cbn [pl_step].
  - destruct (ready s); [discriminate|]. intros H; injection H as <-. reflexivity.
  - destruct (ready s) eqn:E; cbn [negb].
    + destruct (rd s); try discriminate; intros H; injection H as <-; reflexivity.
    + intros H; injection H as <-. exact E.
  - destruct (ready s) eqn:E; cbn [negb]; [|discriminate].
    destruct (rd s).
    + destruct (chunks s); intros H; injection H as <-; auto.
    + destruct (chunks s); [discriminate|]. destruct (nth_error _ _); intros H; injection H as <-; reflexivity.
    + intros H; injection H as <-; reflexivity.
Qed.

Lemma pinv_run sr acts : forall s Q s', PInv sr s Q -> pl_run sr s acts = Some s' ->
  PInv sr s' (Q ++ queued_from (ready s) acts).
Proof.
  induction acts as [|a acts IH]; intros s Q s' HI H; cbn [pl_run] in H.
  - injection H as <-. cbn. rewrite app_nil_r. exact HI.
  - destruct (pl_step sr s a) as [s1|] eqn:E; [|discriminate].
    pose proof (pl_ready _ _ _ _ E) as Hr.
    specialize (IH _ _ _ (pinv_step _ _ _ _ _ HI E) H). rewrite Hr in IH.
    destruct a as [|c|]; cbn [queued_from]; rewrite ?app_nil_r in IH; auto.
    destruct (ready s); [rewrite <- app_assoc in IH; exact IH|rewrite app_nil_r in IH; exact IH].
Qed.

Lemma pinv_init sr : PInv sr init_pl [].
Proof. exists []. cbn. auto. Qed.

Lemma chunks_stamped sr acts s : 0 < sr -> pl_run sr init_pl acts = Some s ->
  exists rest, stamped_chunks sr (queued_from false acts) (fed s ++ rest) /\
    (chunks s = [] -> rest = []).
Proof.
  intros Hs H. pose proof (pinv_run _ _ _ _ _ (pinv_init sr) H) as HI. cbn [app] in HI.
  change (ready init_pl) with false in HI. destruct HI as (dn & HQ & Hst & _). rewrite HQ.
  destruct (rd s) as [|i|].
  - exists (concat (map (stamp sr) (chunks s))). split.
    + rewrite Hst, <- concat_app, <- map_app. apply stamps_ok; exact Hs.
    + intros ->. reflexivity.
  - destruct Hst as (c & H1 & Hi & H2). destruct (chunks s) as [|c' cs]; [discriminate|].
    cbn in H1; injection H1 as ->.
    exists (skipn i (stamp sr c) ++ concat (map (stamp sr) cs)). split; [|discriminate].
    rewrite H2, <- app_assoc, (app_assoc (firstn _ _)), firstn_skipn.
    change (stamp sr c ++ concat (map (stamp sr) cs)) with (concat (map (stamp sr) (c :: cs))).
    rewrite <- concat_app, <- map_app. apply stamps_ok; exact Hs.
  - destruct Hst as (c & H1 & H2). destruct (chunks s) as [|c' cs]; [discriminate|].
    cbn in H1; injection H1 as ->.
    exists (concat (map (stamp sr) cs)). split; [|discriminate].
    rewrite H2, <- app_assoc.
    change (stamp sr c ++ concat (map (stamp sr) cs)) with (concat (map (stamp sr) (c :: cs))).
    rewrite <- concat_app, <- map_app. apply stamps_ok; exact Hs.
Qed.

(* ---------------- the stream function ---------------- *)

Inductive Auto : bool -> list tsample -> list slot -> bool -> list tsample -> Prop :=
| a_refl b q : Auto b q [] b q
| a_play x q out b' q' : ts_nan x = false -> Auto false q out b' q' -> Auto false (x :: q) (Some x :: out) b' q'
| a_break x q out b' q' : ts_nan x = true -> Auto true q out b' q' -> Auto false (x :: q) out b' q'
| a_sil q out b' q' : Auto true q out b' q' -> Auto true q (None :: out) b' q'
| a_skip x q out b' q' : ts_nan x = true -> Auto true q out b' q' -> Auto true (x :: q) out b' q'
| a_go d q out b' q' : Auto false q out b' q' -> Auto true (d ++ q) out b' q'.

Lemma auto_trans b q o1 b1 q1 o2 b2 q2 : Auto b q o1 b1 q1 -> Auto b1 q1 o2 b2 q2 -> Auto b q (o1 ++ o2) b2 q2.
Proof. induction 1; intros; cbn [app]; auto; try (constructor; auto; fail). Qed.

Lemma direct_auto k : forall q p, stream_direct k q = Some p ->
  Auto false q (p_out p) (p_drained p) (p_q p) /\
  (p_drained p = false -> length (p_out p) = k) /\
  (p_drained p = true -> (length (p_out p) < k)%nat /\ (length (p_q p) < length q)%nat) /\ (length (p_q p) <= length q)%nat.
Proof.
  induction k as [|k IH]; intros q p H; cbn [stream_direct] in H.
  - injection H as <-. cbn. repeat split; try constructor; try discriminate; lia.
  - destruct q as [|x q]; [discriminate|]. destruct (ts_nan x) eqn:En.
    + injection H as <-. cbn. repeat split; try discriminate; try lia. apply a_break; [exact En|constructor].
    + destruct (stream_direct k q) as [p1|] eqn:E; [|discriminate]. injection H as <-. cbn [p_out p_q p_drained length].
      destruct (IH q p1 E) as (HA & Hf & Ht & Hl). repeat split.
      * apply a_play; assumption.
      * intros Hd. rewrite (Hf Hd). reflexivity.
      * destruct (Ht H). lia.
      * destruct (Ht H). lia.
      * lia.
Qed.

Lemma skip_nan_spec q x q1 : skip_nan q = Some (x, q1) ->
  exists d r, q = d ++ q1 /\ q1 = x :: r /\ Forall (fun y => ts_nan y = true) d /\ ts_nan x = false.
Proof.
  induction q as [|y q IH]; cbn [skip_nan]; [discriminate|].
  destruct (ts_nan y) eqn:E.
  - intros H. destruct (IH H) as (d & r & -> & -> & Hd & Hx). exists (y :: d), r. repeat split; auto.
  - intros H. injection H as <- <-. exists [], q. repeat split; auto.
Qed.

Lemma drop_late_spec now q q2 : drop_late now q = Some q2 ->
  exists d y r, q = d ++ q2 /\ q2 = y :: r /\ Forall (fun x => snd x < now) d /\ now <= snd y.
Proof.
  induction q as [|y q IH]; cbn [drop_late]; [discriminate|].
  destruct (Z.ltb_spec (snd y) now) as [E|E].
  - intros H. destruct (IH H) as (d & z & r & -> & -> & Hd & Hz). exists (y :: d), z, r. repeat split; auto.
  - intros H. injection H as <-. exists [], y, q. repeat split; auto.
Qed.

Lemma auto_skips d q out b' q' : Forall (fun y => ts_nan y = true) d -> Auto true q out b' q' -> Auto true (d ++ q) out b' q'.
Proof. induction 1; cbn [app]; intros; auto. apply a_skip; auto. Qed.
Lemma auto_silence k q : Auto true q (repeat None k) true q.
Proof. induction k; cbn; constructor; auto. Qed.

Lemma sync_cases sr k now q p : 0 < sr -> stream_sync sr k now q = Some p ->
  exists x d r, q = d ++ x :: r /\ Forall (fun y => ts_nan y = true) d /\ ts_nan x = false /\
  ((p_drained p = false /\ p_out p = repeat None k /\ p_q p = x :: r /\ now < snd x + samples_duration sr (Z.of_nat k)) \/
   (p_drained p = true /\ p_out p = [] /\ snd x + samples_duration sr (Z.of_nat k) <= now /\
    exists e y r2, x :: r = e ++ p_q p /\ p_q p = y :: r2 /\ Forall (fun z => snd z < now) e /\ now <= snd y)).
Proof.
  intros Hs H. unfold stream_sync in H.
  destruct (skip_nan q) as [[x q1]|] eqn:E; [|discriminate].
  destruct (skip_nan_spec _ _ _ E) as (d & r & -> & -> & Hd & Hx).
  exists x, d, r. split; [reflexivity|]. split; [exact Hd|]. split; [exact Hx|].
  pose proof (dur_nonneg sr (Z.of_nat k) Hs ltac:(lia)) as Hdur.
  destruct (Z.ltb_spec now (snd x + samples_duration sr (Z.of_nat k))) as [H1|H1].
  - injection H as <-. left. cbn. auto.
  - destruct (Z.ltb_spec now (snd x)) as [H2|H2]; [lia|].
    destruct (drop_late now (x :: r)) as [q2|] eqn:Ed; [|discriminate]. injection H as <-. cbn [p_drained p_out p_q].
    right. destruct (drop_late_spec _ _ _ Ed) as (e & y & r2 & He & Hq2 & Hall & Hy).
    repeat split; auto. exists e, y, r2. auto.
Qed.

Lemma sync_auto sr k now q p : 0 < sr -> stream_sync sr k now q = Some p ->
  Auto true q (p_out p) (negb (p_drained p)) (p_q p) /\
  (p_drained p = false -> length (p_out p) = k) /\ (p_drained p = true -> p_out p = []) /\
  (length (p_q p) <= length q)%nat.
Proof.
  intros Hs H. destruct (sync_cases _ _ _ _ _ Hs H) as (x & d & r & -> & Hd & Hx & Hc).
  destruct Hc as [(Hf & Ho & Hq & _)|(Ht & Ho & _ & e & y & r2 & He & Hq & _)].
  - rewrite Hf, Ho, Hq. cbn [negb]. repeat split; try discriminate.
    + apply auto_skips; [exact Hd|]. apply auto_silence.
    + intros _. apply repeat_length.
    + rewrite app_length. lia.
  - rewrite Ht, Ho. cbn [negb]. repeat split; try discriminate.
    + apply auto_skips; [exact Hd|]. rewrite He. apply a_go. constructor.
    + rewrite app_length, He, app_length. lia.
Qed.

Lemma loop_facts fuel sr : 0 < sr -> forall (b : bool) now k (q : list tsample),
  (2 * length q + (if b then 1 else 0 : nat) < fuel)%nat ->
  stream_loop fuel sr b now k q <> NoFuel /\
  forall out q' b' now', stream_loop fuel sr b now k q = Done out q' b' now' ->
    Auto b q out b' q' /\ length out = k.
Proof.
  intros Hs. induction fuel as [|fuel IH]; intros b now k q Hf; [lia|].
  cbn [stream_loop]. destruct k as [|k].
  { split; [discriminate|]. intros ? ? ? ? H. injection H as <- <- <- _. split; [constructor|reflexivity]. }
  set (K := S k).
  assert (Hp : forall p, (if b then stream_sync sr K now q else stream_direct K q) = Some p ->
     Auto b q (p_out p) (xorb b (p_drained p)) (p_q p) /\ (p_drained p = false -> length (p_out p) = K) /\
     (p_drained p = true -> (length (p_out p) <= K)%nat /\
        (2 * length (p_q p) + (if b then 0 else 1) < 2 * length q + (if b then 1 else 0))%nat)).
  { intros p Hp. destruct b.
    - destruct (sync_auto _ _ _ _ _ Hs Hp) as (HA & H1 & H2 & H3). split; [destruct (p_drained p); exact HA|].
      split; [exact H1|]. intros Hd. rewrite (H2 Hd). cbn. lia.
    - destruct (direct_auto _ _ _ Hp) as (HA & H1 & H2 & H3). split; [destruct (p_drained p); exact HA|].
      split; [exact H1|]. intros Hd. destruct (H2 Hd). lia. }
  destruct (if b then stream_sync sr K now q else stream_direct K q) as [p|]; [|split; discriminate].
  destruct (Hp p eq_refl) as (HA & Hn & Hd).
  destruct (p_drained p).
  - destruct (Hd eq_refl) as [Hl Hm]. destruct (p_q p) as [|y r] eqn:Eq; [split; discriminate|].
    rewrite <- Eq in *. 
    specialize (IH (negb b) (now + samples_duration sr (Z.of_nat (length (p_out p)))) (K - length (p_out p))%nat (p_q p)).
    destruct IH as [IH1 IH2]; [destruct b; cbn [negb]; lia|].
    destruct (stream_loop fuel sr (negb b) _ _ _) as [o2 q2 b2 n2| |]; cbn [prepend].
    + split; [discriminate|]. intros ? ? ? ? H. injection H as <- <- <- _.
      destruct (IH2 _ _ _ _ eq_refl) as [HA2 Hl2]. split; [|rewrite app_length; lia].
      eapply auto_trans; [exact HA|]. rewrite xorb_true_r. exact HA2.
    + split; discriminate.
    + congruence.
  - rewrite (Hn eq_refl), Nat.sub_diag. 
    assert (Hz : forall f bb n q0, stream_loop f sr bb n 0 q0 = Done [] q0 bb n) by (intros [|]; reflexivity).
    rewrite Hz. cbn [prepend]. rewrite app_nil_r. split; [discriminate|].
    intros ? ? ? ? H. injection H as <- <- <- _. rewrite xorb_false_r in HA. auto.
Qed.

Lemma stream_total sr b now k q : 0 < sr -> stream sr b now k q <> NoFuel.
Proof. intros Hs. apply loop_facts; [exact Hs|]. destruct b; lia. Qed.

Lemma stream_auto sr b now k q out q' b' now' : 0 < sr ->
  stream sr b now k q = Done out q' b' now' -> Auto b q out b' q' /\ length out = k.
Proof. intros Hs H. eapply loop_facts; [exact Hs| |exact H]. destruct b; lia. Qed.

Lemma play_auto sr calls : 0 < sr -> forall b q out q' b',
  play sr b calls q = Some (out, q', b') ->
  Auto b q out b' q' /\ length out = list_sum (map snd calls).
Proof.
  intros Hs. induction calls as [|[now k] r IH]; intros b q out q' b' H; cbn [play] in H.
  - injection H as <- <- <-. split; [constructor|reflexivity].
  - destruct (stream sr b now k q) as [o1 q1 b1 n1| |] eqn:E; try discriminate.
    destruct (play sr b1 r q1) as [[[o2 q2] b2]|] eqn:E2; [|discriminate]. injection H as <- <- <-.
    destruct (stream_auto _ _ _ _ _ _ _ _ _ Hs E) as [HA1 HL1]. destruct (IH _ _ _ _ _ E2) as [HA2 HL2].
    split; [eapply auto_trans; eassumption|]. rewrite app_length. cbn [map snd list_sum fold_right]. 
    rewrite HL1, HL2. reflexivity.
Qed.

(* ---------------- C20 ---------------- *)

Lemma skipn_cons_nth {A} (l : list A) c x q : skipn c l = x :: q -> nth_error l c = Some x /\ skipn (S c) l = q.
Proof.
  revert c; induction l as [|y l IH]; intros [|c] H; cbn in *; try discriminate.
  - injection H as -> ->. auto.
  - apply IH in H. exact H.
Qed.

Lemma increasing_le pos : forall a b, (a <= b)%nat -> increasing b pos -> increasing a pos.
Proof.
  induction pos as [|[i|] pos IH]; intros a b Hab H; cbn [increasing] in *; auto.
  - destruct H. split; [lia|assumption].
  - eapply IH; eassumption.
Qed.

Lemma auto_positions b q out b' q' : Auto b q out b' q' -> forall feed c, skipn c feed = q ->
  exists pos, outputs feed pos out /\ consecutive feed pos /\ increasing c pos /\
    (b = false -> match pos with p :: _ => p = Some c \/ nan_at feed c | [] => True end).
Proof.
  unfold outputs. induction 1 as [b q|x q out b' q' Hx HA IH|x q out b' q' Hx HA IH|q out b' q' HA IH|x q out b' q' Hx HA IH|d q out b' q' HA IH];
    intros feed c Hq.
  - exists []. cbn. repeat split; auto.
  - destruct (skipn_cons_nth _ _ _ _ Hq) as [Hn Hq1]. destruct (IH feed (S c) Hq1) as (pos & H1 & H2 & H3 & H4).
    exists (Some c :: pos). split; [constructor; [split; assumption|exact H1]|].
    split; [|split; [cbn; split; [lia|exact H3]|auto]].
    cbn [consecutive]. destruct pos as [|p pos]; [exact I|]. split; [exact (H4 eq_refl)|exact H2].
  - destruct (skipn_cons_nth _ _ _ _ Hq) as [Hn Hq1]. destruct (IH feed (S c) Hq1) as (pos & H1 & H2 & H3 & H4).
    exists pos. split; [exact H1|]. split; [exact H2|]. split; [eapply increasing_le; [|exact H3]; lia|].
    intros _. destruct pos; [exact I|]. right. exists x. auto.
  - destruct (IH feed c Hq) as (pos & H1 & H2 & H3 & H4). exists (None :: pos).
    split; [constructor; [exact I|exact H1]|]. split; [exact H2|]. split; [exact H3|]. discriminate.
  - destruct (skipn_cons_nth _ _ _ _ Hq) as [Hn Hq1]. destruct (IH feed (S c) Hq1) as (pos & H1 & H2 & H3 & H4).
    exists pos. split; [exact H1|]. split; [exact H2|]. split; [eapply increasing_le; [|exact H3]; lia|discriminate].
  - destruct (IH feed (c + length d)%nat) as (pos & H1 & H2 & H3 & H4).
    { rewrite Nat.add_comm, <- skipn_skipn, Hq, skipn_app, skipn_all, Nat.sub_diag. reflexivity. }
    exists pos. split; [exact H1|]. split; [exact H2|]. split; [eapply increasing_le; [|exact H3]; lia|discriminate].
Qed.

(* more input does not change what has been output *)
Lemma direct_more k r : forall q p, stream_direct k q = Some p ->
  stream_direct k (q ++ r) = Some {| p_out := p_out p; p_q := p_q p ++ r; p_drained := p_drained p |}.
Proof.
  induction k as [|k IH]; intros q p H; cbn [stream_direct] in *.
  - injection H as <-. reflexivity.
  - destruct q as [|x q]; [discriminate|]. cbn [app]. destruct (ts_nan x); [injection H as <-; reflexivity|].
    destruct (stream_direct k q) as [p1|] eqn:E; [|discriminate]. injection H as <-. rewrite (IH _ _ E). reflexivity.
Qed.
Lemma skip_more r q x q1 : skip_nan q = Some (x, q1) -> skip_nan (q ++ r) = Some (x, q1 ++ r).
Proof.
  induction q as [|y q IH]; cbn [skip_nan app]; [discriminate|].
  destruct (ts_nan y); [exact IH|]. intros H; injection H as <- <-. reflexivity.
Qed.
Lemma drop_more r now q q1 : drop_late now q = Some q1 -> drop_late now (q ++ r) = Some (q1 ++ r).
Proof.
  induction q as [|y q IH]; cbn [drop_late app]; [discriminate|].
  destruct (snd y <? now); [exact IH|]. intros H; injection H as <-. reflexivity.
Qed.
Lemma sync_more sr k now r q p : stream_sync sr k now q = Some p ->
  stream_sync sr k now (q ++ r) = Some {| p_out := p_out p; p_q := p_q p ++ r; p_drained := p_drained p |}.
Proof.
  unfold stream_sync. destruct (skip_nan q) as [[x q1]|] eqn:E; [|discriminate]. rewrite (skip_more r _ _ _ E).
  destruct (now <? _); [intros H; injection H as <-; reflexivity|].
  destruct (now <? _); [intros H; injection H as <-; reflexivity|].
  destruct (drop_late now q1) as [q2|] eqn:E2; [|discriminate]. rewrite (drop_more r _ _ _ E2).
  intros H; injection H as <-; reflexivity.
Qed.
Lemma loop_more sr r fuel : forall fuel' b now k q out q' b' now',
  (fuel <= fuel')%nat -> stream_loop fuel sr b now k q = Done out q' b' now' ->
  stream_loop fuel' sr b now k (q ++ r) = Done out (q' ++ r) b' now'.
Proof.
  induction fuel as [|fuel IH]; intros fuel' b now k q out q' b' now' Hf H.
  - destruct k; [|discriminate]. cbn in H. injection H as <- <- <- <-. destruct fuel'; reflexivity.
  - destruct k as [|k]. { cbn in H. injection H as <- <- <- <-. destruct fuel'; reflexivity. }
    destruct fuel' as [|fuel']; [lia|]. cbn [stream_loop] in *. set (K := S k) in *.
    assert (Hp : forall p, (if b then stream_sync sr K now q else stream_direct K q) = Some p ->
       (if b then stream_sync sr K now (q ++ r) else stream_direct K (q ++ r)) =
         Some {| p_out := p_out p; p_q := p_q p ++ r; p_drained := p_drained p |}).
    { intros p. destruct b; [apply sync_more|apply direct_more]. }
    destruct (if b then stream_sync sr K now q else stream_direct K q) as [p|]; [|discriminate].
    rewrite (Hp p eq_refl). cbn [p_out p_q p_drained].
    destruct (p_drained p).
    + destruct (p_q p) as [|y t] eqn:Eq; [discriminate|]. cbn [app].
      destruct (stream_loop fuel sr (negb b) _ _ (y :: t)) as [o2 q2 b2 n2| |] eqn:E; cbn [prepend] in H; try discriminate.
      injection H as <- <- <- <-.
      change (y :: t ++ r) with ((y :: t) ++ r).
      rewrite (IH fuel' _ _ _ _ _ _ _ _ ltac:(lia) E). reflexivity.
    + destruct (stream_loop fuel sr b _ _ (p_q p)) as [o2 q2 b2 n2| |] eqn:E; cbn [prepend] in H; try discriminate.
      injection H as <- <- <- <-. rewrite (IH fuel' _ _ _ _ _ _ _ _ ltac:(lia) E). reflexivity.
Qed.

Lemma stream_more sr b now k q r out q' b' now' :
  stream sr b now k q = Done out q' b' now' -> stream sr b now k (q ++ r) = Done out (q' ++ r) b' now'.
Proof. intros H. eapply loop_more; [|exact H]. rewrite app_length. lia. Qed.

(* ---------------- C21 / C22 ---------------- *)

Definition passed_over (now : Z) (x : tsample) : Prop := ts_nan x = true \/ snd x < now.

Lemma forall_nan_passed now d : Forall (fun y => ts_nan y = true) d -> Forall (passed_over now) d.
Proof. apply Forall_impl. intros; left; assumption. Qed.
Lemma forall_late_passed now d : Forall (fun y => snd y < now) d -> Forall (passed_over now) d.
Proof. apply Forall_impl. intros; right; assumption. Qed.

Lemma first_slot fuel sr : 0 < sr -> forall b now k q s out q' b' now',
  (b = false -> match q with x :: _ => ts_nan x = true \/ now <= snd x | [] => True end) ->
  stream_loop fuel sr b now k q = Done (s :: out) q' b' now' ->
  exists pre x rest, q = pre ++ x :: rest /\ Forall (passed_over now) pre /\ ts_nan x = false /\
    match s with
    | Some y => y = x /\ now <= snd y
    | None => now < snd x + samples_duration sr (Z.of_nat k)
    end.
Proof.
  intros Hs. induction fuel as [|fuel IH]; intros b now k q s out q' b' now' Hb H.
  { destruct k; discriminate. }
  destruct k as [|k]; [discriminate|]. cbn [stream_loop] in H. set (K := S k) in *.
  destruct b.
  - destruct (stream_sync sr K now q) as [p|] eqn:Ep; [|discriminate].
    destruct (sync_cases _ _ _ _ _ Hs Ep) as (x & d & r & -> & Hd & Hx & Hc).
    destruct Hc as [(Hf & Ho & Hq & Hlt)|(Ht & Ho & Hle & e & y & r2 & He & Hq & Hlate & Hy)].
    + rewrite Hf, Ho, repeat_length, Nat.sub_diag in H.
      assert (Hz : forall f bb n q0, stream_loop f sr bb n 0 q0 = Done [] q0 bb n) by (intros [|]; reflexivity).
      rewrite Hz in H. cbn [prepend] in H. rewrite app_nil_r in H. unfold K in H. cbn [repeat] in H. injection H as <- _ _ _ _.
      exists d, x, r. split; [reflexivity|]. split; [apply forall_nan_passed; exact Hd|]. split; [exact Hx|].
      exact Hlt.
    + rewrite Ht, Ho in H. cbn [length] in H. change (Z.of_nat 0) with 0 in H. rewrite (dur_0 sr Hs), Z.add_0_r, Nat.sub_0_r in H.
      rewrite Hq in H. cbn [negb] in H. 
      destruct (stream_loop fuel sr false now K (y :: r2)) as [o2 q2 b2 n2| |] eqn:E; cbn [prepend app] in H; try discriminate.
      injection H as -> -> -> ->.
      destruct (IH false now K (y :: r2) _ _ _ _ _ (fun _ => or_intror Hy) E) as (pre & x' & rest & Hq' & Hp & Hx' & Hs').
      exists (d ++ e ++ pre), x', rest. split.
      * rewrite He, Hq, Hq'. rewrite <- !app_assoc. reflexivity.
      * split; [|auto]. apply Forall_app; split; [apply forall_nan_passed; exact Hd|].
        apply Forall_app; split; [apply forall_late_passed; exact Hlate|exact Hp].
  - destruct q as [|x q]; [cbn in H; discriminate|]. unfold K in H. cbn [stream_direct] in H.
    destruct (ts_nan x) eqn:En.
    + cbn [p_out p_q p_drained length] in H. change (Z.of_nat 0) with 0 in H. rewrite (dur_0 sr Hs), Z.add_0_r, Nat.sub_0_r in H. cbn [negb] in H.
      destruct q as [|y r2]; [discriminate|].
      destruct (stream_loop fuel sr true now (S k) (y :: r2)) as [o2 q2 b2 n2| |] eqn:E; cbn [prepend app] in H; try discriminate.
      injection H as -> -> -> ->.
      assert (Htf : true = false -> ts_nan y = true \/ now <= snd y) by discriminate.
      destruct (IH true now (S k) (y :: r2) _ _ _ _ _ Htf E) as (pre & x' & rest & Hq' & Hp & Hx' & Hs').
      exists (x :: pre), x', rest. split; [rewrite Hq'; reflexivity|]. split; [|auto]. constructor; [left; exact En|exact Hp].
    + specialize (Hb eq_refl). cbn in Hb. destruct Hb as [Hb|Hb]; [congruence|].
      destruct (stream_direct k q) as [p1|]; [|discriminate]. cbn [p_out p_q p_drained] in H.
      assert (Hs1 : s = Some x).
      { destruct (p_drained p1).
        - destruct (p_q p1); [discriminate|]. destruct (stream_loop fuel _ _ _ _ _); cbn [prepend] in H; try discriminate.
          cbn [app] in H. injection H as <-; reflexivity.
        - destruct (stream_loop fuel _ _ _ _ _); cbn [prepend] in H; try discriminate.
          cbn [app] in H. injection H as <-; reflexivity. }
      subst s. exists [], x, q. repeat split; auto.
Qed.

(** The first sample of the queue is overdue by a whole buffer when playing starts. *)
Lemma sync_starts_late fuel sr now k pre x rest y out q' b' now' : 0 < sr ->
  Forall (fun z => ts_nan z = true) pre -> ts_nan x = false ->
  stream_loop fuel sr true now k (pre ++ x :: rest) = Done (Some y :: out) q' b' now' ->
  snd x + samples_duration sr (Z.of_nat k) <= now.
Proof.
  intros Hs Hpre Hx H. destruct fuel; [destruct k; discriminate|].
  destruct k as [|k]; [discriminate|]. cbn [stream_loop] in H. set (K := S k) in *.
  unfold stream_sync in H.
  assert (Hsk : skip_nan (pre ++ x :: rest) = Some (x, x :: rest)).
  { clear H. induction Hpre as [|z pre Hz Hpre IH]; cbn [app skip_nan]; [rewrite Hx; reflexivity|rewrite Hz; exact IH]. }
  rewrite Hsk in H.
  destruct (Z.ltb_spec now (snd x + samples_duration sr (Z.of_nat K))) as [H1|H1]; [|exact H1].
  exfalso. cbn [p_out p_q p_drained] in H. rewrite repeat_length, Nat.sub_diag in H.
  assert (Hz : forall f bb n q0, stream_loop f sr bb n 0 q0 = Done [] q0 bb n) by (intros [|]; reflexivity).
  rewrite Hz in H. cbn [prepend] in H. unfold K in H. cbn in H. discriminate.
Qed.

(** One call of Stream in synchronising mode. *)
Lemma sync_call sr now k pre x rest out q' b' now' : 0 < sr -> (0 < k)%nat ->
  Forall (fun z => ts_nan z = true) pre -> ts_nan x = false ->
  stream sr true now k (pre ++ x :: rest) = Done out q' b' now' ->
  (out = repeat None k /\ q' = x :: rest /\ b' = true) \/
  (exists e y r2, x :: rest = e ++ y :: r2 /\ snd x + samples_duration sr (Z.of_nat k) <= now /\ now <= snd y /\
     Auto false (y :: r2) out b' q').
Proof.
  intros Hs Hk Hpre Hx H. unfold stream in H.
  remember (2 * length (pre ++ x :: rest) + 2 + k)%nat as fuel eqn:Ef.
  destruct fuel; [lia|]. destruct k as [|k]; [lia|]. cbn [stream_loop] in H. set (K := S k) in *.
  assert (Hsk : skip_nan (pre ++ x :: rest) = Some (x, x :: rest)).
  { clear H Ef. induction Hpre as [|z pre Hz Hpre IH]; cbn [app skip_nan]; [rewrite Hx; reflexivity|rewrite Hz; exact IH]. }
  unfold stream_sync in H. rewrite Hsk in H. pose proof (dur_nonneg sr (Z.of_nat K) Hs ltac:(lia)) as Hdur.
  destruct (Z.ltb_spec now (snd x + samples_duration sr (Z.of_nat K))) as [H1|H1].
  - cbn [p_out p_q p_drained] in H. rewrite repeat_length, Nat.sub_diag in H.
    assert (Hz : forall f bb n q0, stream_loop f sr bb n 0 q0 = Done [] q0 bb n) by (intros [|]; reflexivity).
    rewrite Hz in H. cbn [prepend] in H. rewrite app_nil_r in H. left. unfold K in *. cbn [repeat] in *.
    injection H as <- <- <- _. auto.
  - destruct (Z.ltb_spec now (snd x)) as [H2|H2]; [lia|].
    destruct (drop_late now (x :: rest)) as [q2|] eqn:Ed; [|discriminate].
    destruct (drop_late_spec _ _ _ Ed) as (e & y & r2 & He & Hq2 & Hall & Hy). subst q2.
    cbn [p_out p_q p_drained length negb] in H. change (Z.of_nat 0) with 0 in H.
    rewrite (dur_0 sr Hs), Z.add_0_r, Nat.sub_0_r in H.
    destruct (stream_loop fuel sr false now K (y :: r2)) as [o2 q2 b2 n2| |] eqn:E; cbn [prepend app] in H; try discriminate.
    injection H as <- <- <- _. right. exists e, y, r2. split; [exact He|]. split; [exact H1|]. split; [exact Hy|].
    eapply loop_facts; [exact Hs| |exact E].
    assert (HL : length (x :: rest) = length (e ++ y :: r2)) by (rewrite He; reflexivity).
    rewrite !app_length in *. cbn [length] in *. lia.
Qed.
