(** Properties C15-C17: the sample queue. *)
From Verif Require Import GoBase GoBaseFacts QueueModel QueueSpec QueueProofs QueueWakeProofs ChanSpec.

(* ================= C15 ================= *)
(** Every history of calls behaves as on the bounded FIFO: same results, and a call waits
    exactly when the FIFO says so. *)
Theorem C15_bounded_fifo : forall n os, (1 <= n)%nat ->
  match qrun (new_queue n) os, fifo_run n [] os with
  | None, None => True
  | Some (_, xs), Some (l, ys) => xs = ys /\ (length l <= n)%nat
  | _, _ => False
  end.
Proof.
  intros n os Hn. pose proof (qrun_refines os (new_queue n) [] (rep_new n Hn)) as H.
  assert (Hc : q_cap (new_queue n) = n) by (unfold q_cap; cbn; apply repeat_length).
  pose proof (cap_run_q os (new_queue n)) as Hcr.
  rewrite Hc in H.
  destruct (qrun (new_queue n) os) as [[q xs]|], (fifo_run n [] os) as [[l ys]|]; auto.
  destruct H as [HR ->]. split; [reflexivity|]. pose proof (r_len _ _ HR) as Hl.
  rewrite (Hcr q ys eq_refl), Hc in Hl. exact Hl.
Qed.
Print Assumptions C15_bounded_fifo.

Definition ts (k : Z) : tsample := ((1, 2)%N, k).
Example C15_nonvacuous : exists q, qrun (new_queue 2)
  [QAdd (ts 1); QAdd (ts 2); QLen; QRemove; QAdd (ts 3); QPeek; QRemove; QRemove; QAdd (ts 4); QLen; QRemove; QLen] =
  Some (q, [ODone; ODone; OLen 2; OSample (ts 1); ODone; OSample (ts 2); OSample (ts 2); OSample (ts 3); ODone;
            OLen 1; OSample (ts 4); OLen 0]) /\
  qrun (new_queue 2) [QAdd (ts 1); QAdd (ts 2); QAdd (ts 3)] = None /\ qrun (new_queue 2) [QPeek] = None.
Proof. eexists. split; [vm_compute; reflexivity|]. split; reflexivity. Qed.

(* ================= C16 ================= *)
(** For every interleaving of one adding and one removing goroutine: what was removed is
    the beginning of what was added (in order, nothing lost or duplicated), Peek returned the
    next element, and never more than the capacity is stored. *)
Theorem C16_concurrent_fifo : forall n acts s, (1 <= n)%nat ->
  qmoves (init_q n) acts = Some s ->
  is_prefix (removed s) (added s) /\
  (length (added s) <= length (removed s) + n)%nat /\
  Forall (fun e => nth_error (added s) (fst e) = Some (snd e)) (peeked s).
Proof.
  intros n acts s Hn H. destruct (safe_run n acts _ [] s (safe_init n Hn) H) as [l HS].
  split; [exists l; exact (s_log n s l HS)|]. split; [|exact (s_peek n s l HS)].
  rewrite (s_log n s l HS), app_length. pose proof (r_len _ _ (s_rep n s l HS)) as Hl.
  rewrite (s_cap n s l HS) in Hl. lia.
Qed.
Print Assumptions C16_concurrent_fifo.

(** No torn element: whenever the adder is about to write a slot and the remover about to
    read one, the slots are different; and cond.L is never held by both. *)
Theorem C16_no_tearing : forall n acts s x p, (1 <= n)%nat ->
  qmoves (init_q n) acts = Some s -> a_pc s = AWrite x -> r_pc s = RRead p ->
  (head (qq s) mod n <> tail (qq s) mod n)%nat.
Proof.
  intros n acts s x p Hn H Ha Hr. destruct (safe_run n acts _ [] s (safe_init n Hn) H) as [l HS].
  pose proof (s_a n s l HS) as H1. rewrite Ha in H1.
  pose proof (s_r n s l HS) as H2. rewrite Hr in H2.
  pose proof (slot_free (qq s) l 0 (s_rep n s l HS)) as Hf.
  rewrite (s_cap n s l HS), Nat.add_0_r in Hf. apply Hf; [exact H1|].
  destruct l; [congruence|cbn; lia].
Qed.
Print Assumptions C16_no_tearing.

Theorem C16_mutual_exclusion : forall n acts s, (1 <= n)%nat ->
  qmoves (init_q n) acts = Some s -> a_holds (a_pc s) && r_holds (r_pc s) = false.
Proof.
  intros n acts s Hn H. destruct (safe_run n acts _ [] s (safe_init n Hn) H) as [l HS].
  exact (s_mutex n s l HS).
Qed.
Print Assumptions C16_mutual_exclusion.

Fixpoint rep_act (k : nat) (a : qact) : list qact := match k with O => [] | S j => a :: rep_act j a end.
Example C16_nonvacuous : exists s,
  qmoves (init_q 1)
    (AStart (ts 1) :: rep_act 6 AStep ++ AStart (ts 2) :: rep_act 4 AStep (* full: asleep *)
     ++ RStart true :: rep_act 4 RStep ++ RStart false :: rep_act 6 RStep (* wakes the adder *)
     ++ rep_act 7 AStep) = Some s /\
  added s = [ts 1; ts 2] /\ removed s = [ts 1] /\ peeked s = [(0%nat, ts 1)].
Proof. eexists. split; [vm_compute; reflexivity|]. repeat split. Qed.

(* ================= C17 ================= *)
(** With capacity >= 2 the two goroutines are never both waiting, and a goroutine that
    missed its notification is notified by the very next operation of the other one: as
    long as the remover waits un-notified at most one element can be stored (two while the
    add that will notify it is finishing), as long as the adder waits un-notified at most
    one slot is free. *)
Theorem C17_no_deadlock_partial : forall n acts s, (2 <= n)%nat ->
  qmoves (init_q n) acts = Some s ->
  ~ (remover_waiting s /\ adder_waiting s) /\
  (remover_waiting s -> (stored s <= 1 \/ (stored s = 2 /\ a_pc s = ABcast))%nat) /\
  (adder_waiting s -> (n - 1 <= stored s \/ (stored s = n - 2 /\ exists v, r_pc s = RBcast v))%nat) /\
  (a_pc s = ABcast -> exists s', qmove s AStep = Some s' /\ r_reg s' = false) /\
  ((exists v, r_pc s = RBcast v) -> exists s', qmove s RStep = Some s' /\ a_reg s' = false).
Proof. exact wake_lemma. Qed.
Print Assumptions C17_no_deadlock_partial.

(** Consequently some goroutine that is inside a call can always move, except a lone
    goroutine waiting for the other side to make its next call. *)
Theorem C17_someone_moves : forall n acts s, (2 <= n)%nat ->
  qmoves (init_q n) acts = Some s ->
  qmove s AStep <> None \/ qmove s RStep <> None \/
  (a_pc s = AIdle /\ (r_pc s = RIdle \/ remover_asleep s)) \/ (r_pc s = RIdle /\ adder_asleep s).
Proof. exact someone_moves. Qed.
Print Assumptions C17_someone_moves.

(** The lost wake-up: an element is stored, the remover sleeps un-notified, the adder is
    idle; nothing wakes the remover until the next Add. *)
Theorem C17_lost_wakeup_refuted : forall n, (1 <= n)%nat -> exists acts s,
  qmoves (init_q n) acts = Some s /\ stored s = 1%nat /\ remover_asleep s /\ a_pc s = AIdle /\
  qmove s RStep = None.
Proof. exact lost_wakeup. Qed.
Print Assumptions C17_lost_wakeup_refuted.

(** With capacity 1 the next Add makes it a deadlock: both goroutines sleep un-notified and
    neither can ever move again. *)
Theorem C17_deadlock_refuted : exists acts s,
  qmoves (init_q 1) acts = Some s /\ remover_asleep s /\ adder_asleep s /\
  forall a, qmove s a = None.
Proof.
  exists ([AStart (ts 1); AStep; AStep; AStep; RStart false; RStep; RStep; AStep; AStep; AStep; RStep; RStep;
           AStart (ts 2); AStep; AStep; AStep; AStep]).
  eexists. split; [vm_compute; reflexivity|]. repeat split; try (eexists; reflexivity).
  intros [x| |p| ]; reflexivity.
Qed.
Print Assumptions C17_deadlock_refuted.

Example C17_nonvacuous : exists s,
  qmoves (init_q 2) (RStart false :: rep_act 4 RStep) = Some s /\ remover_waiting s /\ remover_asleep s.
Proof. eexists. split; [vm_compute; reflexivity|]. split; [right; reflexivity|split; [eexists; reflexivity|reflexivity]]. Qed.
