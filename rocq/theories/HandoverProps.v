(** C109: a player hands over every chunk once, whole and in order, whatever the schedule. *)
From Coq Require Import Permutation.
From Verif Require Import GoBase PlaylistModel QueueModel PlayerModel PlayerSpec HandoverModel HandoverSpec HandoverProofs.
Local Open Scope Z_scope.

(** the player does not crash: no index is out of range *)
Theorem C109_no_panic : forall sr cap acts s es,
  h_run sr (h_init cap) acts = Some (s, es) -> h_reader s <> HPanicked.
Proof. intros sr cap acts s es R. pose proof (run_inv sr acts _ [] _ _ (inv_init sr cap) R) as I. exact (i_ok _ _ _ I). Qed.

(** every message is queued at most once, and the samples in the queue are those of the chunks, in
    the order in which these were queued, each with its time: a beginning of that at any moment *)
Theorem C109_in_order : forall sr cap acts s es, 0 < sr ->
  h_run sr (h_init cap) acts = Some (s, es) ->
  (exists waiting, Permutation (arrived acts) (queued_in es ++ waiting)) /\
  (exists rest, stamped_chunks sr (queued_in es) (added_in es ++ rest)).
Proof.
  intros sr cap acts s es Sr R. split.
  - exists (pending s). exact (run_pending sr acts _ _ _ R).
  - pose proof (run_inv sr acts _ [] _ _ (inv_init sr cap) R) as I. cbn [app] in I.
    destruct (i_hist _ _ _ I) as (done & Q & A). destruct (partial_rest sr (h_reader s) (h_chunks s)) as (rest & P).
    exists rest. rewrite A, Q, <- app_assoc, <- P, <- concat_app, <- map_app. now apply stamps_chunks.
Qed.

(** and all of it once the goroutines have finished *)
Theorem C109_exactly_once : forall sr cap acts s es, 0 < sr ->
  h_run sr (h_init cap) acts = Some (s, es) -> finished s ->
  Permutation (arrived acts) (queued_in es) /\ stamped_chunks sr (queued_in es) (added_in es).
Proof.
  intros sr cap acts s es Sr R (F1 & F2 & F3). split.
  - pose proof (run_pending sr acts _ _ _ R) as P. cbn in P.
    assert (E : pending s = []).
    { unfold pending. induction (h_queuers s) as [|p l IH]; [reflexivity|]. inversion F3; subst. cbn. now apply IH. }
    now rewrite E, app_nil_r in P.
  - pose proof (run_inv sr acts _ [] _ _ (inv_init sr cap) R) as I. cbn [app] in I.
    destruct (i_hist _ _ _ I) as (done & Q & A). rewrite F1, F2 in *. cbn in A. rewrite app_nil_r in *. rewrite Q, A. now apply stamps_chunks.
Qed.

(** nothing gets stuck: as long as something is left to do, some goroutine can do it, or the
    sample queue is full and the reader waits for the play loop *)
Theorem C109_progress : forall sr cap acts s es,
  h_run sr (h_init cap) acts = Some (s, es) -> ~ finished s ->
  (exists a s' e, (a = RStep \/ exists g, a = QStep g) /\ h_step sr s a = Some (s', e) /\ s' <> s) \/
  (h_room s = 0%nat /\ exists st i x l, h_reader s = HAdd st i (x :: l)).
Proof. intros sr cap acts s es R. pose proof (run_inv sr acts _ [] _ _ (inv_init sr cap) R) as I. exact (progress sr s _ I). Qed.

(** and it ends: only so many steps can be made without a new message *)
Theorem C109_finishes : forall sr cap acts s es,
  h_run sr (h_init cap) acts = Some (s, es) ->
  exists most, forall n s', works sr s n s' -> (n <= most)%nat.
Proof. intros sr cap acts s es R. pose proof (run_inv sr acts _ [] _ _ (inv_init sr cap) R) as I. exists (work s). intros n s' W. exact (works_bound sr s n s' W _ I). Qed.

(** At most the queue's capacity of samples is ahead of the play loop, and adding waits only
    when that many are. *)
Theorem C109_capacity : forall sr cap acts s es, h_run sr (h_init cap) acts = Some (s, es) ->
  (length (added_in es) <= cap + taken acts)%nat /\
  ((length (added_in es) < cap + taken acts)%nat -> forall st i x l, h_reader s = HAdd st i (x :: l) -> h_step sr s RStep <> None).
Proof.
  intros sr cap acts s es R. apply run_room in R. cbn [h_init h_room] in R. split; [lia|].
  intros Lt st i x l E. cbn [h_step]. rewrite E. destruct (h_room s) eqn:Rm; [lia|]. intros D. discriminate D.
Qed.

(** two messages whose goroutines overtake each other, and a queue with a single place *)
Definition ex_a : chunk := {| c_start := 5; c_samples := [(1, 2); (3, 4)]%N |}.
Definition ex_b : chunk := {| c_start := 9; c_samples := [(7, 8)]%N |}.
Definition ex_acts : list h_act :=
  [Arrives ex_a; Arrives ex_b; RStep; QStep 1; QStep 1; QStep 1; RStep; QStep 1; RStep; QStep 1; RStep; QStep 0; RStep; RStep; RStep; RStep; RStep;
   QStep 0; QStep 0; QStep 0; QStep 0; RStep; RStep; RStep; RStep; RStep; RStep; RStep; RStep; RStep; Takes; RStep; Takes; RStep; RStep; RStep; RStep; RStep; RStep; RStep; RStep].
Definition ex_run := h_run 1000000000 (h_init 1) ex_acts.
Example C109_ex_run : exists s es, ex_run = Some (s, es) /\ finished s /\ queued_in es = [ex_b; ex_a] /\
  added_in es = [((7, 8)%N, 9); ((1, 2)%N, 5); ((3, 4)%N, 6)].
Proof. eexists _, _. split; [vm_compute; reflexivity|]. split; [split; [reflexivity|split; [reflexivity|repeat constructor]]|now split]. Qed.
(** a message that waits while the reader is inside and the queue is full *)
Example C109_ex_waits : exists s es, h_run 1000000000 (h_init 0) [Arrives ex_a; QStep 0; QStep 0; QStep 0; QStep 0; QStep 0; RStep; RStep; RStep; RStep; Arrives ex_b; QStep 1] = Some (s, es) /\
  ~ finished s /\ h_step 1000000000 s RStep = None /\ h_step 1000000000 s (QStep 1) = None.
Proof. eexists _, _. split; [vm_compute; reflexivity|]. split; [intros (F & _); discriminate F|]. now split. Qed.
(** a step of a goroutine *)
Example C109_ex_works : exists s es s', h_run 1000000000 (h_init 1) [Arrives ex_b] = Some (s, es) /\ works 1000000000 s 1 s'.
Proof.
  eexists _, _, _. split; [vm_compute; reflexivity|].
  eapply works_step; [right; exists 0%nat; reflexivity|vm_compute; reflexivity|discriminate|apply works_none].
Qed.

Print Assumptions C109_no_panic.
Print Assumptions C109_in_order.
Print Assumptions C109_exactly_once.
Print Assumptions C109_progress.
Print Assumptions C109_finishes.
Print Assumptions C109_capacity.
