(** C19: any two chunks that arrive in the wrong order are played in the wrong order. *)
From Verif Require Import GoBase GoBaseFacts PlaylistModel QueueModel PlayerModel PlayerSpec PlayerProofs.
Local Open Scope Z_scope.

Lemma direct_plays k : forall q, Forall (fun x => ts_nan x = false) q -> (k <= length q)%nat ->
  stream_direct k q = Some {| p_out := map Some (firstn k q); p_q := skipn k q; p_drained := false |}.
Proof.
  induction k as [|k IH]; intros q F L; [reflexivity|]. destruct q as [|x q]; [cbn [length] in L; lia|].
  apply Forall_cons_iff in F as [F1 F2]. cbn [length] in L. cbn [stream_direct]. rewrite F1, (IH q F2) by lia. reflexivity.
Qed.

(** A player that is in step does not look at timestamps: it plays what it was given, in the order
    in which it was given it, at whatever time. *)
Theorem C19_in_step_ignores_time : forall sr now k q, Forall (fun x => ts_nan x = false) q -> (k <= length q)%nat ->
  play sr false [(now, k)] q = Some (map Some (firstn k q), skipn k q, false).
Proof.
  intros sr now k q F L. cbn [play]. unfold stream. destruct k as [|k].
  - cbn [stream_loop firstn skipn map]. destruct (2 * length q + 2 + 0)%nat; reflexivity.
  - replace (2 * length q + 2 + S k)%nat with (S (S (2 * length q + 1 + k))) by lia.
    cbn [stream_loop]. rewrite direct_plays by assumption. cbn [p_out p_drained p_q].
    rewrite map_length, firstn_length_le by exact L. rewrite Nat.sub_diag. cbn [prepend]. rewrite !app_nil_r. reflexivity.
Qed.

(** ** Reading everything *)

Lemma read_samples sr c cs l : forall i fd, skipn i (c_samples c) = l ->
  pl_run sr {| ready := true; chunks := c :: cs; rd := RAdd i; fed := fd |} (repeat LRead (length l + 2)) =
    Some {| ready := true; chunks := cs; rd := RTop; fed := fd ++ stamp_from sr (c_start c) i l |}.
Proof.
  induction l as [|x l IH]; intros i fd E.
  - cbn [length plus repeat pl_run pl_step ready negb rd chunks fed].
    replace (nth_error (c_samples c) i) with (@None (N * N)).
    + cbn [pl_run pl_step ready negb rd chunks fed tl stamp_from]. now rewrite app_nil_r.
    + symmetry. apply nth_error_None. pose proof (skipn_length i (c_samples c)) as Hl. rewrite E in Hl. cbn [length] in Hl. lia.
  - apply skipn_cons_nth in E as [E1 E2].
    cbn [length plus repeat pl_run pl_step ready negb rd chunks fed]. rewrite E1. cbn [pl_run].
    rewrite (IH (S i)) by exact E2. cbn [stamp_from]. rewrite <- app_assoc. reflexivity.
Qed.

Lemma read_chunks sr cs : forall fd, exists n,
  pl_run sr {| ready := true; chunks := cs; rd := RTop; fed := fd |} (repeat LRead n) =
    Some {| ready := true; chunks := []; rd := RTop; fed := fd ++ concat (map (stamp sr) cs) |}.
Proof.
  induction cs as [|c cs IH]; intro fd.
  - exists O. cbn. now rewrite app_nil_r.
  - destruct (IH (fd ++ stamp sr c)) as [n Hn]. exists (S ((length (c_samples c) + 2) + n)).
    cbn [repeat pl_run pl_step ready negb rd chunks fed]. rewrite repeat_app.
    assert (A : forall a b s s1, pl_run sr s a = Some s1 -> pl_run sr s (a ++ b) = pl_run sr s1 b).
    { clear. induction a as [|x a IH]; intros b s s1 H; cbn [app pl_run] in *; [now injection H as ->|].
      destruct (pl_step sr s x); [now apply IH|discriminate]. }
    rewrite (A _ _ _ _ (read_samples sr c cs (c_samples c) 0 fd eq_refl)).
    fold (stamp sr c). rewrite Hn. cbn [map concat]. now rewrite <- app_assoc.
Qed.

Lemma queued_reads n : queued_from true (repeat LRead n) = [].
Proof. induction n; [reflexivity|assumption]. Qed.

(** Every list of chunks can be received, and is fed in the order of arrival. *)
Lemma received_in_order sr cs : exists acts s,
  queued_from false acts = cs /\ pl_run sr init_pl acts = Some s /\ fed s = concat (map (stamp sr) cs).
Proof.
  destruct (read_chunks sr cs []) as [n Hn].
  exists (LInit :: map LQueue cs ++ repeat LRead n). eexists. split; [|split].
  - cbn [queued_from]. induction cs as [|c cs' IH]; [apply queued_reads|]. cbn [map app queued_from]. f_equal.
    clear. induction cs' as [|c cs' IH]; [apply queued_reads|]. cbn [map app queued_from]. now f_equal.
  - cbn [pl_run pl_step init_pl ready fed].
    assert (Q : forall l k fd, pl_run sr {| ready := true; chunks := k; rd := RTop; fed := fd |} (map LQueue l ++ repeat LRead n) =
                   pl_run sr {| ready := true; chunks := k ++ l; rd := RTop; fed := fd |} (repeat LRead n)).
    { induction l as [|c l IH]; intros k fd; [now rewrite app_nil_r|].
      cbn [map app pl_run pl_step ready negb rd chunks fed]. rewrite IH, <- app_assoc. reflexivity. }
    rewrite Q. exact Hn.
  - reflexivity.
Qed.

Lemma nondecreasing_head a l b : nondecreasing (a :: l ++ [b]) -> a <= b.
Proof.
  revert a. induction l as [|x l IH]; intros a H; [exact (proj1 H)|].
  cbn [app] in H. destruct H as [H1 H2]. specialize (IH x H2). lia.
Qed.

(** Any two chunks of sound whose order of arrival is not their order in time: a player that is in
    step plays the later one first and then goes back in time, at any time and rate. *)
Theorem C19_any_two_chunks_refuted : forall sr early late now, 0 < sr ->
  c_start early < c_start late -> c_samples early <> [] -> c_samples late <> [] ->
  Forall (fun x => is_nan (fst x) = false) (c_samples early ++ c_samples late) ->
  exists acts s out q',
    queued_from false acts = [late; early] /\ pl_run sr init_pl acts = Some s /\
    play sr false [(now, S (length (c_samples late)))] (fed s) = Some (out, q', false) /\
    ~ nondecreasing (map snd (played out)).
Proof.
  intros sr e l now Hs Ht He Hl Hn.
  destruct (received_in_order sr [l; e]) as (acts & s & Q & R & Fd).
  exists acts, s. eexists. eexists. split; [exact Q|]. split; [exact R|].
  cbn [map concat] in Fd. rewrite app_nil_r in Fd.
  assert (FN : Forall (fun x => ts_nan x = false) (fed s)).
  { rewrite Fd. apply Forall_app in Hn as [N1 N2].
    assert (G : forall st ss i, Forall (fun x => is_nan (fst x) = false) ss ->
              Forall (fun x => ts_nan x = false) (stamp_from sr st i ss)).
    { clear. intros st ss. induction ss as [|x ss IH]; intros i F; cbn [stamp_from]; [apply Forall_nil|].
      apply Forall_cons_iff in F as [F1 F2]. apply Forall_cons; [exact F1|now apply IH]. }
    apply Forall_app. split; apply G; assumption. }
  assert (FL : length (fed s) = (length (c_samples l) + length (c_samples e))%nat).
  { rewrite Fd, app_length. unfold stamp. now rewrite !stamp_from_length. }
  destruct (c_samples e) as [|x es] eqn:Ee; [congruence|]. cbn [length] in FL.
  split; [apply C19_in_step_ignores_time; [exact FN|lia]|].
  assert (FF : firstn (S (length (c_samples l))) (fed s) = stamp sr l ++ [(x, c_start e)]).
  { rewrite Fd. replace (S (length (c_samples l))) with (length (stamp sr l) + 1)%nat
      by (unfold stamp; rewrite stamp_from_length; lia).
    rewrite firstn_app_2. unfold stamp at 2. rewrite Ee. cbn [stamp_from firstn].
    rewrite dur_0 by exact Hs. now rewrite Z.add_0_r. }
  rewrite FF. assert (P : forall q : list tsample, played (map Some q) = q).
  { induction q as [|y q IH]; [reflexivity|]. unfold played in *. cbn [map concat app]. now rewrite IH. }
  rewrite P. destruct (c_samples l) as [|y ls] eqn:El; [congruence|].
  unfold stamp. rewrite El. cbn [stamp_from app map snd]. rewrite map_app. cbn [map snd].
  rewrite dur_0 by exact Hs. rewrite Z.add_0_r. intro H. apply nondecreasing_head in H. lia.
Qed.

Example C19_tight_example :
  let early := {| c_start := 0; c_samples := [(1%N, 1%N); (2%N, 2%N)] |} in
  let late := {| c_start := 2000000; c_samples := [(3%N, 3%N)] |} in
  c_start early < c_start late /\ c_samples early <> [] /\ c_samples late <> [] /\
  Forall (fun x => is_nan (fst x) = false) (c_samples early ++ c_samples late).
Proof.
  cbv zeta. cbn [c_start c_samples]. split; [lia|]. split; [discriminate|]. split; [discriminate|].
  cbn [app]. repeat (apply Forall_cons; [vm_compute; reflexivity|]). apply Forall_nil.
Qed.

Print Assumptions C19_in_step_ignores_time.
Print Assumptions C19_any_two_chunks_refuted.
