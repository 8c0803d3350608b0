(** C123: the playlist's list of songs is its own. *)
From Verif Require Import GoBase GoBaseFacts PlaylistModel SliceModel SliceSpec SliceProofs.
Local Open Scope nat_scope.

(** Every history: if nobody else has the slice given to NewPlaylist (or, as in
    schedule/server.go 19, it is an empty one), then whatever the methods of the playlist do, and
    whatever the holders of the results of Songs() write into them, append to them or cut out of
    them, with however much room the runtime allocates: the playlist behaves as a plain value,
    and every Songs() returns the list as it is at that moment.
    Missing: a non-empty slice that its caller goes on using (below). *)
Theorem C123_plain_value_partial : forall l spare keeps acts w xs,
  keeps = false \/ (l = [] /\ spare = 0) ->
  wrun (new_world l spare keeps) acts = Some (w, xs) ->
  as_values l acts = Ok (view (w_heap w) (w_songs w), xs).
Proof.
  intros l spare keeps acts w xs H R. destruct (wrun_ok acts _ _ _ (new_world_apart l spare keeps H) R) as [_ V].
  assert (E : view (w_heap (new_world l spare keeps)) (w_songs (new_world l spare keeps)) = l).
  { unfold new_world. destruct (alloc [] l (length l + spare)) as [h s] eqn:A. cbn.
    destruct (alloc_ok [] l (length l + spare)) with (h' := h) (s := s) as (A1 & _); [lia|exact A|exact A1]. }
  rewrite E in V. exact V.
Qed.

(** ... and what a holder sees in its slices changes only by what that holder does: not by the
    playlist's methods, and not by what others do with theirs. *)
Theorem C123_results_stay_partial : forall l spare keeps acts w xs a w' x o s,
  keeps = false \/ (l = [] /\ spare = 0) ->
  wrun (new_world l spare keeps) acts = Some (w, xs) -> wstep w a = Some (w', x) ->
  In (o, s) (w_held w) -> actor w a <> Some o ->
  view (w_heap w') s = view (w_heap w) s.
Proof.
  intros l spare keeps acts w xs a w' x o s H R St Hin Ha.
  destruct (wrun_ok acts _ _ _ (new_world_apart l spare keeps H) R) as [Ap _].
  destruct (wstep_ok _ _ _ _ Ap St) as (_ & K & _). exact (K o s Hin Ha).
Qed.

(** ... and the methods panic exactly where they do on the value (C02: RemoveSong at the length). *)
Theorem C123_same_panics_partial : forall l spare keeps acts w xs e extra,
  keeps = false \/ (l = [] /\ spare = 0) ->
  wrun (new_world l spare keeps) acts = Some (w, xs) ->
  (wstep w (Edit e extra) = None <-> apply_edit (view (w_heap w) (w_songs w)) e = Panic)
  /\ forall o, wstep w (AskSongs o) <> None.
Proof.
  intros l spare keeps acts w xs e extra H R.
  destruct (wrun_ok acts _ _ _ (new_world_apart l spare keeps H) R) as [[As _ _] _]. split.
  - pose proof (edit_ok (w_heap w) (w_songs w) e extra As) as Ed. cbn [wstep].
    destruct (apply_edit (view (w_heap w) (w_songs w)) e) as [[l' r]|].
    + destruct Ed as (h' & p' & -> & _). split; discriminate.
    + rewrite Ed. split; reflexivity.
  - intro o. cbn [wstep]. destruct (songs_h (w_heap w) (w_songs w)). discriminate.
Qed.

(** Refuted: NewPlaylist keeps the slice itself.  If the caller writes into the one it passed,
    the playlist changes; *)
Theorem C123_caller_writes_refuted : forall l spare i v l',
  slice_set l i v = Ok l' ->
  exists w, wrun (new_world l spare true) [Store 0 i v] = Some (w, [SNone]) /\ view (w_heap w) (w_songs w) = l'.
Proof.
  intros l spare i v l' H. unfold new_world. destruct (alloc [] l (length l + spare)) as [h s] eqn:A.
  destruct (alloc_ok [] l (length l + spare)) with (h' := h) (s := s) as (A1 & A2 & _); [lia|exact A|].
  pose proof (store_ok h s i v A2) as St. rewrite A1, H in St. destruct St as (h' & St & V & _).
  cbn [wrun wstep w_held w_heap w_songs nth_error]. rewrite St. eexists. split; [reflexivity|exact V].
Qed.

(** if the playlist removes its first song, the caller's slice changes (every song of it moves,
    and the last is empty); *)
Theorem C123_caller_sees_refuted : forall x l spare extra,
  exists w, wrun (new_world (x :: l) spare true) [Edit (ERemove 0) extra] = Some (w, [SEdit (Some x)])
    /\ forall s, In (0, s) (w_held w) -> view (w_heap w) s = l ++ [[]].
Proof.
  intros x l spare extra. unfold new_world. destruct (alloc [] (x :: l) (length (x :: l) + spare)) as [h s] eqn:A.
  destruct (alloc_ok [] (x :: l) (length (x :: l) + spare)) with (h' := h) (s := s) as (A1 & A2 & _ & _ & A5); [lia|exact A|].
  cbn [wrun wstep w_held w_heap w_songs edit_h]. unfold remove_h. rewrite A5. cbn [length Nat.eqb].
  change (0 <? 0)%Z with false. cbv iota zeta.
  replace (Z.of_nat (S (length l)) <? 0)%Z with false by (symmetry; apply Z.ltb_ge; lia).
  unfold go_load. rewrite A1. change (slice_get (x :: l) 0) with (@Ok song x). cbn [obind].
  pose proof (copy_ok h s 0 (0 + 1) A2) as C. rewrite A1 in C.
  assert (Cw : copy_within (x :: l) 0 (0 + 1) = Ok (l ++ [last (x :: l) []])).
  { unfold copy_within. replace (zlen (x :: l)) with (zlen l + 1)%Z by (rewrite zlen_cons; lia).
    change (0 <? 0)%Z with false. change (0 + 1 <? 0)%Z with false. pose proof (zlen_nonneg l).
    replace (zlen l + 1 <? 0)%Z with false by (symmetry; apply Z.ltb_ge; lia).
    replace (zlen l + 1 <? 0 + 1)%Z with false by (symmetry; apply Z.ltb_ge; lia). cbn [orb]. cbv zeta.
    change (Z.to_nat 0) with 0. change (Z.to_nat (0 + 1)) with 1. cbn [firstn skipn app].
    cbn [length]. rewrite Nat.min_r by lia. replace (S (length l) - 1) with (length l) by lia. rewrite firstn_all. cbn [plus]. f_equal. f_equal.
    clear. revert x. induction l as [|y l IH]; intro x; [reflexivity|]. cbn [length skipn]. exact (IH y). }
  rewrite Cw in C. destruct C as (d & e & -> & -> & C1 & C2). cbn [obind].
  pose proof (touches_valid _ _ _ _ C2 A2) as V2.
  pose proof (store_ok (go_copy h d e) s (Z.of_nat (S (length l)) - 1) [] V2) as St. rewrite C1 in St.
  assert (Ss : slice_set (l ++ [last (x :: l) []]) (Z.of_nat (S (length l)) - 1) [] = Ok (l ++ [[]])).
  { unfold slice_set. rewrite zlen_app. unfold zlen at 1. cbn [zlen length].
    replace (Z.of_nat (S (length l)) - 1 <? 0)%Z with false by (symmetry; apply Z.ltb_ge; lia).
    replace (Z.of_nat (length l) + zlen [last (x :: l) []] <=? Z.of_nat (S (length l)) - 1)%Z with false
      by (symmetry; apply Z.leb_gt; unfold zlen; cbn [length]; lia). cbn [orb].
    replace (Z.to_nat (Z.of_nat (S (length l)) - 1)) with (length l) by lia.
    rewrite firstn_app, Nat.sub_diag, firstn_all, firstn_O, app_nil_r.
    rewrite skipn_all2 by (rewrite app_length; cbn [length]; lia). reflexivity. }
  rewrite Ss in St. destruct St as (h2 & -> & S1 & S2). cbn [obind].
  pose proof (touches_valid _ _ _ _ S2 V2) as V3.
  pose proof (to_ok h2 s (Z.of_nat (S (length l)) - 1) V3) as To. rewrite zlen_view, A5 in To by exact V3. cbn [length] in To.
  specialize (To ltac:(lia)). rewrite S1 in To. unfold slice_to in To.
  replace (Z.of_nat (S (length l)) - 1 <? 0)%Z with false in To by (symmetry; apply Z.ltb_ge; lia).
  replace (zlen (l ++ [[]]) <? Z.of_nat (S (length l)) - 1)%Z with false in To
    by (symmetry; apply Z.ltb_ge; unfold zlen; rewrite app_length; cbn [length]; lia). cbn [orb] in To.
  destruct To as (p' & -> & _). cbn [obind]. eexists. split; [reflexivity|]. cbn [w_held w_heap].
  intros t [[= <-]|[]]. exact S1.
Qed.

(** and if there is room behind it and both append, the caller's song replaces the one added to
    the playlist. *)
Theorem C123_caller_appends_refuted : forall l spare s v e1 e2,
  exists w, wrun (new_world l (S spare) true) [Edit (EAdd s) e1; Append 0 v e2] = Some (w, [SEdit None; SNone])
    /\ view (w_heap w) (w_songs w) = l ++ [v].
Proof.
  intros l spare s v e1 e2. unfold new_world. destruct (alloc [] l (length l + S spare)) as [h p] eqn:A.
  destruct (alloc_ok [] l (length l + S spare)) with (h' := h) (s := p) as (A1 & A2 & _ & _ & A5); [lia|exact A|].
  assert (Cap : s_cap p = length l + S spare) by (unfold alloc in A; now injection A as <- <-).
  cbn [wrun wstep w_held w_heap w_songs edit_h nth_error]. unfold add_h.
  destruct (go_append h p s e1) as [h1 p1] eqn:G1. cbn [w_held w_heap w_songs nth_error].
  destruct (go_append h1 p v e2) as [h2 p2] eqn:G2.
  eexists. split; [reflexivity|]. cbn [w_heap w_songs].
  destruct (append_ok _ _ _ _ _ _ A2 G1) as (B1 & B2 & B3 & B4 & B5).
  pose proof (touches_valid _ _ _ _ B3 A2) as V1.
  unfold go_append in G1, G2. replace (s_len p <? s_cap p) with true in G1, G2 by (symmetry; apply Nat.ltb_lt; lia).
  injection G1 as G1h G1p. injection G2 as G2h G2p.
  assert (W : h2 = write h1 p1 (length l) [v]).
  { rewrite <- G2h, <- G1p, A5. reflexivity. }
  rewrite W, write_view by (try exact B2; rewrite B5, A5; cbn [length]; lia). rewrite B1, A1. unfold overwrite.
  rewrite firstn_app, Nat.sub_diag, firstn_all, firstn_O, app_nil_r.
  rewrite skipn_all2 by (rewrite app_length; cbn [length]; lia). now rewrite app_nil_r.
Qed.

(** *** Non-vacuity: a history with edits that grow within the array and beyond it, and a
    holder who writes into, appends to and cuts its copies. *)
Example C123_nonvacuous : exists w xs,
  wrun (new_world [] 0 true)
    [Edit (EAdd (T "a")) 3; AskSongs 1; Edit (EInsert (T "b") 0) 0; Store 1 0 (T "x"); AskSongs 2;
     Append 2 (T "y") 5; Edit (ERemove 0) 0; Cut 2 1 2; Store 4 0 (T "z"); AskSongs 3] = Some (w, xs)
  /\ In (SSongs [T "b"; T "a"]) xs /\ last xs SNone = SSongs [T "a"]
  /\ map (fun os => view (w_heap w) (snd os)) (w_held w)
     = [[]; [T "x"]; [T "b"; T "z"]; [T "b"; T "a"; T "y"]; [T "z"]; [T "a"]].
Proof. eexists. eexists. split; [vm_compute; reflexivity|]. split; [vm_compute; tauto|]. split; reflexivity. Qed.

Print Assumptions C123_plain_value_partial.
Print Assumptions C123_results_stay_partial.
Print Assumptions C123_same_panics_partial.
Print Assumptions C123_caller_writes_refuted.
Print Assumptions C123_caller_sees_refuted.
Print Assumptions C123_caller_appends_refuted.
