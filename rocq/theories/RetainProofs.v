(** Lemmas for C116. *)
From Verif Require Import GoBase GoUtf8 WireModel SenderModel SenderSpec SenderProofs InfoerModel InfoerSpec InfoerProofs InfoerMoreProofs
  ServerModel ServerSpec ServerProofs RetainSpec.
From Coq Require Import Permutation Sorted.
Local Open Scope Z_scope.

(** * Subscriptions *)
Lemma requests_app h1 h2 c : requests (h1 ++ h2) c = requests h1 c ++ requests h2 c.
Proof. unfold requests. now rewrite flat_map_app. Qed.

Definition entry (l : list Z) : option (list Z) := match l with [] => None | _ => Some l end.

Lemma channels_are h : forall st, run_ops new_mms h = Ok st -> forall c, channels st c = entry (requests h c).
Proof.
  induction h as [|o h IH] using rev_ind; intros st Hrun c.
  - cbn in Hrun. injection Hrun as <-. reflexivity.
  - rewrite run_ops_app in Hrun. destruct (run_ops_ok h new_mms) as [s0 E0]. rewrite E0 in Hrun.
    cbn [obind run_ops] in Hrun. destruct (apply_op s0 o) as [st'|] eqn:Eo; [|discriminate Hrun]. injection Hrun as ->.
    specialize (IH s0 E0). rewrite requests_app. unfold requests at 2.
    destruct o as [c0|c0|c0 ch0]; cbn [apply_op] in Eo; cbn [flat_map].
    + injection Eo as <-. cbn [add_conn channels]. now rewrite app_nil_r.
    + rewrite app_nil_r, <- IH. destruct (del_conn_spec s0 c0) as [[_ Hd]|(st' & Hd & Hc & _)]; rewrite Hd in Eo; injection Eo as <-.
      * reflexivity.
      * now rewrite Hc.
    + injection Eo as <-. cbn [subscribe channels]. rewrite Nat.eqb_sym. destruct (Nat.eqb c0 c) eqn:Ec.
      * apply Nat.eqb_eq in Ec; subst c0. rewrite IH. unfold entry.
        destruct (requests h c); cbn [app]; rewrite ?app_nil_r; reflexivity.
      * rewrite app_nil_r. apply IH.
Qed.

(** [n] clients, each of which connects, subscribes and goes away *)
Fixpoint visits (n : nat) : list op :=
  match n with
  | O => []
  | S k => visits k ++ [AddConn k; SenderModel.Subscribe k META; DelConn k]
  end.

Lemma visits_adds n : flat_map (fun o => match o with AddConn c => [c] | _ => [] end) (visits n) = seq 0 n.
Proof. induction n as [|n IH]; [reflexivity|]. rewrite seq_S, <- IH. cbn [visits]. rewrite flat_map_app. reflexivity. Qed.

Lemma visits_in n o : In o (visits n) -> exists k, (k < n)%nat /\ (o = AddConn k \/ o = SenderModel.Subscribe k META \/ o = DelConn k).
Proof.
  induction n as [|n IH]; [intros []|]. cbn [visits]. intros H. apply in_app_iff in H as [H|[H|[H|[H|[]]]]]; subst.
  - destruct (IH H) as (k & Hk & E). exists k. split; [lia|auto].
  - exists n. auto.
  - exists n. auto.
  - exists n. auto.
Qed.

Lemma visits_closed n c : ~ open_after (visits n) c.
Proof.
  induction n as [|n IH]; intros H.
  - destruct H as (h1 & h2 & E & _). destruct h1; discriminate E.
  - cbn [visits] in H.
    change [AddConn n; SenderModel.Subscribe n META; DelConn n] with ([AddConn n; SenderModel.Subscribe n META] ++ [DelConn n]) in H.
    rewrite app_assoc in H. apply open_after_snoc in H as [H|[H Hn]]; [discriminate H|].
    change [AddConn n; SenderModel.Subscribe n META] with ([AddConn n] ++ [SenderModel.Subscribe n META]) in H. rewrite app_assoc in H.
    apply open_after_snoc in H as [H|[H _]]; [discriminate H|].
    apply open_after_snoc in H as [H|[H _]]; [|exact (IH H)].
    injection H as ->. now apply Hn.
Qed.

Lemma visits_requests n c : (c < n)%nat -> requests (visits n) c = [META].
Proof.
  induction n as [|n IH]; intros H; [lia|]. cbn [visits]. rewrite requests_app.
  destruct (Nat.eq_dec c n) as [->|Hne].
  - assert (requests (visits n) n = []) as ->.
    { unfold requests. rewrite flat_map_concat_map.
      assert (E : forall l, (forall o, In o l -> exists k, (k < n)%nat /\ (o = AddConn k \/ o = SenderModel.Subscribe k META \/ o = DelConn k)) ->
        concat (map (fun o => match o with SenderModel.Subscribe c' ch => if Nat.eqb c' n then [ch] else [] | _ => [] end) l) = []).
      { induction l as [|o l IHl]; intros Hl; [reflexivity|]. cbn [map concat]. rewrite IHl by (intros; apply Hl; now right).
        destruct (Hl o (or_introl eq_refl)) as (k & Hk & [->|[->| ->]]); try reflexivity.
        destruct (Nat.eqb_spec k n); [lia|reflexivity]. }
      apply E. intros o Ho. now apply visits_in. }
    cbn. now rewrite Nat.eqb_refl.
  - rewrite IH by lia. cbn. destruct (Nat.eqb_spec n c); [lia|reflexivity].
Qed.

(** * Pauses *)
Lemma growing_le l : growing l -> sorted_toggles l.
Proof.
  unfold growing, sorted_toggles. induction 1 as [|a l S IH F]; constructor; [exact IH|].
  eapply Forall_impl; [|exact F]. cbn. intros; lia.
Qed.
Lemma growing_nodup l : growing l -> NoDup (map t_index l).
Proof.
  induction 1 as [|a l S IH F]; cbn [map]; constructor; [|exact IH]. intros H. apply in_map_iff in H as (b & E & Hb).
  rewrite Forall_forall in F. specialize (F _ Hb). lia.
Qed.

Lemma alternating_suffix r l : alternating (r ++ l) -> alternating l.
Proof. intros H before a b after E. apply (H (r ++ before) a b after). rewrite E, app_assoc. reflexivity. Qed.

(** toggles below [x] without a resume: at most one when they alternate *)
Lemma quiet_short x l : alternating l -> sorted_toggles l ->
  Forall (fun t => t_playing t = false \/ x <= t_index t) l ->
  (length l <= 1 + toggles_from x l)%nat.
Proof.
  intros A S Q. unfold toggles_from. destruct l as [|a l]; [cbn; lia|].
  assert (F : forall l, Forall (fun t => x <= t_index t) l -> length (filter (fun t => x <=? t_index t) l) = length l).
  { induction l0 as [|y l0 IH]; intros H; [reflexivity|]. inversion H; subst. cbn [filter].
    destruct (Z.leb_spec x (t_index y)); [cbn [length]; now rewrite IH|lia]. }
  cbn [filter length]. destruct (Z.leb_spec x (t_index a)).
  - inversion S as [|? ? S1 S2]; subst. cbn [length]. rewrite F; [lia|]. eapply Forall_impl; [|exact S2]. cbn. intros; lia.
  - destruct l as [|b l]; [cbn; lia|]. inversion Q as [|? ? Qa Q1]; subst. inversion Q1 as [|? ? Qb Q2]; subst.
    assert (x <= t_index b).
    { destruct Qb as [Qb|Qb]; [|exact Qb]. destruct Qa as [Qa|Qa]; [|lia].
      specialize (A [] a b l eq_refl). rewrite Qa, Qb in A. discriminate A. }
    inversion S as [|? ? S1 S2]; subst. inversion S1 as [|? ? S3 S4]; subst.
    rewrite F; [lia|]. constructor; [assumption|]. eapply Forall_impl; [|exact S4]. cbn. intros; lia.
Qed.

(** what removeOldPauses of the info client leaves *)
Lemma last_resume_rest start l : forall i p,
  (last_resume start l i p = p /\ Forall (fun t => t_playing t = false \/ start <= t_index t) l) \/
  exists l1 x l2, l = l1 ++ x :: l2 /\ last_resume start l i p = (i + length l1)%nat
     /\ Forall (fun t => t_playing t = false \/ start <= t_index t) l2.
Proof.
  induction l as [|x l IH]; intros i p; [left; split; [reflexivity|constructor]|]. cbn [last_resume].
  destruct (t_playing x && (t_index x <? start))%bool eqn:E.
  - right. destruct (IH (S i) i) as [[-> Q]|(l1 & y & l2 & -> & -> & Q)].
    + exists [], x, l. split; [reflexivity|]. split; [cbn; lia|exact Q].
    + exists (x :: l1), y, l2. split; [reflexivity|]. split; [cbn [length]; lia|exact Q].
  - destruct (IH (S i) p) as [[-> Q]|(l1 & y & l2 & -> & -> & Q)].
    + left. split; [reflexivity|]. constructor; [|exact Q].
      destruct (t_playing x); [right|now left]. cbn [andb] in E. lia.
    + right. exists (x :: l1), y, l2. split; [reflexivity|]. split; [cbn [length]; lia|exact Q].
Qed.

Lemma toggles_from_app x l l' : toggles_from x (l ++ l') = (toggles_from x l + toggles_from x l')%nat.
Proof. unfold toggles_from. now rewrite filter_app, app_length. Qed.

Lemma remove_old_pauses_short start l : alternating l -> sorted_toggles l ->
  (length (remove_old_pauses start l) <= 2 + toggles_from start l)%nat.
Proof.
  intros A S. unfold remove_old_pauses.
  destruct (last_resume_rest start l 0 0) as [[-> Q]|(l1 & x & l2 & -> & -> & Q)].
  - cbn [skipn]. pose proof (quiet_short start l A S Q). lia.
  - cbn [plus]. rewrite skipn_app, skipn_all, Nat.sub_diag. cbn [skipn app length].
    apply alternating_suffix in A. change (x :: l2) with ([x] ++ l2) in A. apply alternating_suffix in A.
    apply StronglySorted_app in S as (_ & S & _). inversion S as [|? ? S1 _]; subst.
    pose proof (quiet_short start l2 A S1 Q). rewrite toggles_from_app.
    change (x :: l2) with ([x] ++ l2). rewrite toggles_from_app. lia.
Qed.

(** the pauses kept by an info client that receives them in order *)
Lemma messages_app a b : messages (a ++ b) = messages a ++ messages b.
Proof. unfold messages. apply flat_map_app. Qed.
Lemma received_toggles_app a b : received_toggles (a ++ b) = received_toggles a ++ received_toggles b.
Proof. unfold received_toggles. apply flat_map_app. Qed.
Lemma received_chunks_app a b : received_chunks (a ++ b) = received_chunks a ++ received_chunks b.
Proof. unfold received_chunks. apply flat_map_app. Qed.
Lemma received_songs_app a b : received_songs (a ++ b) = received_songs a ++ received_songs b.
Proof. unfold received_songs. apply flat_map_app. Qed.

Lemma growing_app a b : growing (a ++ b) -> growing a /\ growing b.
Proof. intros H. apply StronglySorted_app in H as (H1 & H2 & _). split; assumption. Qed.

Lemma pauses_suffix sr tr s d out : client_run sr tr s d out -> growing (received_toggles (messages tr)) ->
  exists r, received_toggles (messages tr) = r ++ pauses s.
Proof.
  induction 1 as [|tr s d out m s' H IH Hh|tr s out now H IH|tr s now out H IH|tr s now sample out H IH
    |tr s now sample cur out H IH|tr s now sample cur out H IH]; intros G;
    rewrite ?messages_app, ?received_toggles_app in *.
  - exists []. reflexivity.
  - pose proof (growing_app _ _ G) as [G1 G2]. destruct (IH G1) as [r E].
    inversion Hh as [? ? ? ? ? ? St|? ? ? ? St|p t ? St|?|? Ht]; subst; cbn [pauses set_songs set_chunks set_pauses set_volume].
    + exists r. cbn. now rewrite app_nil_r.
    + exists r. cbn. now rewrite app_nil_r.
    + exists r. cbn [messages flat_map app received_toggles] in *. destruct St as [P S].
      rewrite E, <- app_assoc. f_equal. rewrite E, <- app_assoc in G. apply growing_app in G as [_ G].
      apply (sorted_perm_unique t_index); [now apply growing_le|exact S|now apply growing_nodup|exact P].
    + exists r. cbn. now rewrite app_nil_r.
    + exists r. destruct m; cbn; try now rewrite app_nil_r. discriminate Ht.
  - cbn in *. rewrite app_nil_r in *. auto.
  - cbn in *. rewrite app_nil_r in *. auto.
  - cbn in *. rewrite app_nil_r in *. auto.
  - cbn in *. rewrite app_nil_r in *. destruct (IH G) as [r E]. exists (r ++ firstn (last_resume (startIndex cur) (pauses s) 0 0) (pauses s)).
    unfold remove_old_pauses. rewrite <- app_assoc, firstn_skipn. exact E.
  - cbn in *. rewrite app_nil_r in *. auto.
Qed.

(** the server's *)
Lemma removable_rest start l : sorted_toggles l -> forall i p,
  (removable_loop start l i p = p /\ Forall (fun t => t_playing t = false \/ start + 1 <= t_index t) l) \/
  exists l1 x l2, l = l1 ++ x :: l2 /\ removable_loop start l i p = (i + length l1)%nat
     /\ Forall (fun t => t_playing t = false \/ start + 1 <= t_index t) l2.
Proof.
  induction l as [|x l IH]; intros Hs i p; [left; split; [reflexivity|constructor]|].
  inversion Hs as [|? ? S1 S2]; subst. cbn [removable_loop].
  destruct (Z.ltb_spec start (t_index x)) as [Hx|Hx]; cbn [negb andb].
  - left. split; [reflexivity|]. constructor; [right; lia|]. eapply Forall_impl; [|exact S2]. cbn. intros; right; lia.
  - destruct (t_playing x) eqn:Ep.
    + right. destruct (IH S1 (S i) i) as [[-> Q]|(l1 & y & l2 & -> & -> & Q)].
      * exists [], x, l. split; [reflexivity|]. split; [cbn; lia|exact Q].
      * exists (x :: l1), y, l2. split; [reflexivity|]. split; [cbn [length]; lia|exact Q].
    + destruct (IH S1 (S i) p) as [[-> Q]|(l1 & y & l2 & -> & -> & Q)].
      * left. split; [reflexivity|]. constructor; [now left|exact Q].
      * right. exists (x :: l1), y, l2. split; [reflexivity|]. split; [cbn [length]; lia|exact Q].
Qed.

Lemma remove_old_short m l l' : alternating l -> sorted_toggles l -> remove_old (Some m) l = Ok l' ->
  (length l' <= 2 + toggles_from (start_of m + 1) l)%nat.
Proof.
  intros A S H. rewrite remove_old_ok in H. injection H as <-. cbn [removable].
  destruct (removable_rest (start_of m) l S 0 0) as [[-> Q]|(l1 & x & l2 & -> & -> & Q)].
  - cbn [skipn]. pose proof (quiet_short _ l A S Q). lia.
  - cbn [plus]. rewrite skipn_app, skipn_all, Nat.sub_diag. cbn [skipn app length].
    apply alternating_suffix in A. change (x :: l2) with ([x] ++ l2) in A. apply alternating_suffix in A.
    apply StronglySorted_app in S as (_ & S & _). inversion S as [|? ? S1 _]; subst.
    pose proof (quiet_short _ l2 A S1 Q). rewrite toggles_from_app.
    change (x :: l2) with ([x] ++ l2). rewrite toggles_from_app. lia.
Qed.

(** * Chunks *)
Lemma chunks_kept sr tr s d out : client_run sr tr s d out ->
  StronglySorted (fun a b => c_startIndex a <= c_startIndex b) (chunks s)
  /\ exists r, Permutation (received_chunks (messages tr)) (r ++ chunks s).
Proof.
  induction 1 as [|tr s d out m s' H [S (r & P)] Hh|tr s out now H [S (r & P)]|tr s now out H [S (r & P)]|tr s now sample out H [S (r & P)]
    |tr s now sample cur out H [S (r & P)]|tr s now sample cur out H [S (r & P)]];
    rewrite ?messages_app, ?received_chunks_app in *.
  - split; [constructor|]. exists []. constructor.
  - inversion Hh as [? ? ? ? ? ? St|t f n ? [P' S']|? ? ? St|?|? Ht]; subst; cbn [chunks set_songs set_chunks set_pauses set_volume].
    + split; [exact S|]. exists r. cbn. now rewrite app_nil_r.
    + split; [exact S'|]. exists r. cbn [messages flat_map app received_chunks]. now rewrite P, <- app_assoc, P'.
    + split; [exact S|]. exists r. cbn. now rewrite app_nil_r.
    + split; [exact S|]. exists r. cbn. now rewrite app_nil_r.
    + split; [exact S|]. exists r. destruct m; cbn; try (now rewrite app_nil_r). discriminate Ht.
  - cbn. rewrite app_nil_r. destruct (remove_old_chunks_spec sr now (chunks s)) as (r2 & E & _ & _).
    set (k := remove_old_chunks sr now (chunks s)) in *. rewrite E in S, P. apply StronglySorted_app in S as (_ & S & _).
    split; [exact S|]. exists (r ++ r2). now rewrite <- app_assoc.
  - cbn. rewrite app_nil_r. split; [exact S|]. now exists r.
  - cbn. rewrite app_nil_r. split; [exact S|]. now exists r.
  - cbn. rewrite app_nil_r. split; [exact S|]. now exists r.
  - cbn. rewrite app_nil_r. split; [exact S|]. now exists r.
Qed.

Lemma songs_kept sr tr s d out : client_run sr tr s d out -> Permutation (received_songs (messages tr)) (songs s).
Proof.
  induction 1 as [|tr s d out m s' H P Hh|tr s out now H P|tr s now out H P|tr s now sample out H P
    |tr s now sample cur out H P|tr s now sample cur out H P];
    rewrite ?messages_app, ?received_songs_app; try (cbn; rewrite ?app_nil_r; assumption || constructor).
  inversion Hh as [f file len ly md ? [P' S']|? ? ? ? St|? ? ? St|?|? Ht]; subst; cbn [songs set_songs set_chunks set_pauses set_volume];
    try (cbn; rewrite app_nil_r; exact P).
  - cbn [messages flat_map app received_songs]. now rewrite P, P'.
  - destruct m; cbn; rewrite ?app_nil_r; try exact P. discriminate Ht.
Qed.

Lemma in_order_end sr d c l x : regular sr d (c :: l) -> StronglySorted (fun a b => c_startIndex a <= c_startIndex b) (c :: l) ->
  In x l -> c_startTime c + d <= c_startTime x.
Proof.
  intros (_ & _ & R & N) S Hx. inversion S as [|? ? _ F]; subst. rewrite Forall_forall in F. specialize (F _ Hx). cbn in N.
  inversion N as [|? ? Hn _]; subst. apply R; [now left|now right|].
  assert (c_startIndex c <> c_startIndex x); [|lia]. intros E. apply Hn. rewrite E. now apply in_map.
Qed.

Lemma NoDup_app_r {A} (l1 l2 : list A) : NoDup (l1 ++ l2) -> NoDup l2.
Proof. induction l1 as [|a l1 IH]; cbn; intros H; [exact H|]. inversion H; subst. auto. Qed.

Lemma regular_tail sr d a l : regular sr d (a ++ l) -> regular sr d l.
Proof.
  intros (A & B & C & D). apply Forall_app in A as [_ A]. rewrite map_app in D. apply NoDup_app_r in D.
  repeat split; auto.
  - intros c Hc. apply B, in_or_app. now right.
  - intros c c' Hc Hc'. apply C; apply in_or_app; now right.
Qed.

Lemma regular_perm sr d l l' : Permutation l l' -> regular sr d l -> regular sr d l'.
Proof.
  intros P (A & B & C & D). pose proof (Permutation_sym P) as P'. split; [now apply (Permutation_Forall P)|].
  split; [intros c Hc; apply B; now apply (Permutation_in _ P')|].
  split; [intros c c' Hc Hc'; apply C; now apply (Permutation_in _ P')|].
  now apply (Permutation_NoDup (Permutation_map c_startIndex P)).
Qed.

Lemma spread sr d : 0 < d -> forall l c t, regular sr d (c :: l) ->
  StronglySorted (fun a b => c_startIndex a <= c_startIndex b) (c :: l) ->
  Forall (fun x => c_startTime x <= t) (c :: l) -> c_startTime c + d * zlen l <= t.
Proof.
  intros Hd. induction l as [|b l IH]; intros c t R S F.
  - inversion F; subst. unfold zlen. cbn [length]. lia.
  - pose proof (in_order_end _ _ _ _ b R S (or_introl eq_refl)).
    inversion S; subst. inversion F; subst.
    specialize (IH b t (regular_tail _ _ [c] _ R) ltac:(assumption) ltac:(assumption)).
    unfold zlen in *. cbn [length]. lia.
Qed.
