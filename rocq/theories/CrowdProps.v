(** C129: the sample queue serves any number of goroutines. *)
From Verif Require Import GoBase GoBaseFacts QueueModel QueueSpec QueueProofs CrowdModel CrowdSpec CrowdProofs.
Local Open Scope nat_scope.

(** However many goroutines call Add, Remove, Peek and Len, and in whatever order their steps come: what
    they see is what they would see if each call were made at one moment between its beginning and its
    end on a FIFO of capacity [n]; it never holds more than [n]. *)
Theorem C129_linearizable : forall n acts s es, 1 <= n -> mrun (new_crowd n) acts = Some (s, es) ->
  exists l, linearizable n es l /\ length l <= n.
Proof.
  intros n acts s es H R. destruct (inv_reached _ _ _ _ H R) as (l & ps & I & E).
  exists l. split; [|rewrite <- (i_cap _ _ _ _ I); exact (r_len _ _ (i_rep _ _ _ _ I))].
  exists ps. split; [exact E|]. split; [intro g; eexists; exact (i_turn _ _ _ _ I g)|exact (i_lin _ _ _ _ I)].
Qed.

(** No element of the buffer is stored into by two goroutines at a time, and none is read while one stores into it. *)
Theorem C129_no_tearing : forall n acts s es g k i j, 1 <= n -> mrun (new_crowd n) acts = Some (s, es) ->
  stores_into s g i -> (stores_into s k j -> k = g) /\ (reads_from s k j -> i <> j).
Proof.
  intros n acts s es g k i j H R (x & P & ->). destruct (inv_reached _ _ _ _ H R) as (l & ps & I & _). split.
  - intros (y & Q & _). apply (hw_unique s g k (i_locks _ _ _ _ I)); [rewrite P|rewrite Q]; reflexivity.
  - intros (Q & ->). apply (slots_differ _ _ (i_rep _ _ _ _ I)); [exact (read_knows _ _ _ _ _ I Q)|exact (write_knows _ _ _ _ _ _ I P)].
Qed.

(** If the buffer has at least two elements and nobody calls Len: when nobody can go on, there are not both
    a goroutine waiting to store and one waiting to take, a goroutine waits to take only
    if at most one element is stored, and one waits to store only if at most one is missing. *)
Theorem C129_no_deadlock_partial : forall n acts s es, 2 <= n -> no_len acts -> mrun (new_crowd n) acts = Some (s, es) -> stuck s ->
  exists l, linearizable n es l /\
    (forall g k, adding es g -> taking es k -> False) /\
    (forall g, taking es g -> length l <= 1) /\
    (forall g, adding es g -> n <= S (length l)).
Proof.
  intros n acts s es H NL R S0.
  destruct (waits_run n acts H NL _ _ _ _ _ (inv_new n ltac:(lia)) (waits_new n) (fun _ => eq_refl) R) as (l & ps & I & E & W & A).
  cbn [app] in I. subst es. destruct (stuck_pending n s l ps I W A S0) as [F G].
  exists l. split; [|split; [|split]].
  - exists ps. split; [reflexivity|]. split; [intro g; eexists; exact (i_turn _ _ _ _ I g)|exact (i_lin _ _ _ _ I)].
  - intros g k P Q. destruct (F g P) as [_ [a Ha]]. destruct (G k Q) as [_ [b Hb]]. exact (w_both _ _ _ W a b Ha Hb).
  - intros g P. apply (G g P).
  - intros g P. apply (F g P).
Qed.

(** Refuted for Len: for every size a goroutine that calls Len while the queue is full and another waits
    to store, and one that calls Remove after it, are enough for nobody ever to return again: Add waits for space
    and keeps headMutex, Len waits for headMutex and keeps tailMutex, Remove waits for tailMutex. *)
Theorem C129_len_deadlock_refuted : forall n, 1 <= n -> exists acts s es l,
  mrun (new_crowd n) acts = Some (s, es) /\ linearizable n es l /\ length l = n /\
  adding es 0 /\ pending es 1 QLen /\ pending es 2 QRemove /\ dead s.
Proof.
  intros n H. destruct (fill n n zero_ts H (le_n n)) as (acts & s & es & l & R & Id & Rp & C & L).
  destruct (then_len s zero_ts Id) as (s' & R' & D & Q). { rewrite (rep_full _ _ Rp), C. apply Nat.eqb_eq, L. }
  pose proof (mrun_app _ _ _ _ (Calls 0 (QAdd zero_ts) :: repeat (Steps 0) 6 ++ [Calls 1 QLen; Steps 1; Calls 2 QRemove; Steps 2]) R) as RR. rewrite R' in RR.
  destruct (inv_reached _ _ _ _ H RR) as (l' & ps & I & E).
  eexists _, _, _, l'. split; [exact RR|]. split; [|split].
  - exists ps. split; [exact E|]. split; [intro g; eexists; exact (i_turn _ _ _ _ I g)|exact (i_lin _ _ _ _ I)].
  - rewrite <- L. apply (same_length (mq s)); [rewrite <- Q; exact (i_rep _ _ _ _ I)|exact Rp].
  - repeat apply conj.
    + exists zero_ts, es, [Called 1 QLen; Called 2 QRemove]. split; [reflexivity|]. intros r [X|[X|[]]]; discriminate.
    + exists (es ++ [Called 0 (QAdd zero_ts)]), [Called 2 QRemove]. split; [now rewrite <- app_assoc|]. intros r [X|[]]; discriminate.
    + exists (es ++ [Called 0 (QAdd zero_ts); Called 1 QLen]), []. split; [now rewrite <- app_assoc|]. intros r [].
    + intros acts' s2 es2 g r. apply dead_run. exact D.
Qed.

(** One element may stay behind: a goroutine that found the queue empty before another stored an
    element can sleep beside it. *)
Definition t1 : tsample := ((1, 2)%N, 3%Z).
Definition t2 : tsample := ((4, 5)%N, 6%Z).
Definition left_behind : list mact :=
  [Calls 0 (QAdd t1); Steps 0; Steps 0; Steps 0; Steps 0; Steps 0;    (* before line 21 *)
   Calls 1 QRemove; Steps 1; Steps 1; Steps 1; Steps 1;               (* found it empty *)
   Steps 0; Steps 0; Steps 0; Steps 0;                                (* stores and notifies *)
   Steps 1; Steps 1].                                                 (* sleeps *)
Lemma left_behind_free : no_len left_behind.
Proof. intros g H. repeat (destruct H as [H|H]; [discriminate|]). destruct H. Qed.

Theorem C129_left_behind_refuted : exists s es, mrun (new_crowd 2) left_behind = Some (s, es) /\ stuck s /\
  pending es 1 QRemove /\ linearizable 2 es [t1].
Proof.
  eexists _, _. split; [vm_compute; reflexivity|]. split; [|split].
  - intro g. destruct g as [|[|g]]; reflexivity.
  - exists [Called 0 (QAdd t1)], [Returned 0 ODone]. split; [reflexivity|]. intros r [X|[]]. discriminate.
  - exists [Begins 0 (QAdd t1); Begins 1 QRemove; Takes_effect 0 (QAdd t1) ODone; Ends 0 ODone]. split; [reflexivity|]. split; [|reflexivity].
    intro g. change [Begins 0 (QAdd t1); Begins 1 QRemove; Takes_effect 0 (QAdd t1) ODone; Ends 0 ODone]
      with (((([] ++ [Begins 0 (QAdd t1)]) ++ [Begins 1 QRemove]) ++ [Takes_effect 0 (QAdd t1) ODone]) ++ [Ends 0 ODone]).
    destruct g as [|[|g]].
    + exists NotIn. apply turn_ends. apply turn_effect. apply turn_other; [discriminate|]. apply turn_begins. apply turn_nil.
    + exists (Before QRemove). apply turn_other; [discriminate|]. apply turn_other; [discriminate|]. apply turn_begins. apply turn_other; [discriminate|]. apply turn_nil.
    + exists NotIn. do 4 (apply turn_other; [discriminate|]). apply turn_nil.
Qed.

(** Not vacuous: two goroutines store, one takes, one peeks, one asks for the length, all under way at once. *)
Example C129_many : exists s, mrun (new_crowd 2)
    ([Calls 0 (QAdd t1); Calls 1 (QAdd t2); Calls 2 QPeek; Calls 3 QRemove; Steps 2; Steps 1; Steps 1; Steps 3; Steps 2; Steps 2; Steps 2; Steps 2]
     ++ repeat (Steps 1) 7 ++ repeat (Steps 2) 6 ++ repeat (Steps 0) 5 ++ repeat (Steps 3) 6 ++ [Steps 0; Steps 0; Steps 3; Steps 3; Calls 4 QLen; Steps 4] ++ repeat (Steps 0) 2 ++ repeat (Steps 4) 4)
   = Some (s, [Called 0 (QAdd t1); Called 1 (QAdd t2); Called 2 QPeek; Called 3 QRemove; Returned 1 ODone; Returned 2 (OSample t2);
               Returned 3 (OSample t2); Called 4 QLen; Returned 0 ODone; Returned 4 (OLen 1)]).
Proof. eexists. vm_compute. reflexivity. Qed.

(** Not vacuous: a goroutine stores while another reads. *)
Example C129_both_touch : exists s es, mrun (new_crowd 2)
    (Calls 0 (QAdd t1) :: repeat (Steps 0) 9 ++ Calls 0 (QAdd t2) :: repeat (Steps 0) 5 ++ Calls 1 QPeek :: repeat (Steps 1) 4) = Some (s, es) /\
  stores_into s 0 1 /\ reads_from s 1 0.
Proof. eexists _, _. split; [vm_compute; reflexivity|]. split; [exists t2; split; reflexivity|split; [right; reflexivity|reflexivity]]. Qed.

(** Not vacuous: goroutines wait to store into a full queue; goroutines wait to take from an empty one. *)
Example C129_stuck_full : exists acts s es, no_len acts /\ mrun (new_crowd 2) acts = Some (s, es) /\ stuck s /\ adding es 1 /\ adding es 2.
Proof.
  exists (Calls 0 (QAdd t1) :: repeat (Steps 0) 9 ++ Calls 0 (QAdd t2) :: repeat (Steps 0) 9 ++ Calls 1 (QAdd t1) :: repeat (Steps 1) 6 ++ [Calls 2 (QAdd t2)]).
  eexists _, _. split; [intros g H; cbn in H; repeat (destruct H as [H|H]; [discriminate|]); destruct H|]. split; [vm_compute; reflexivity|]. split; [|split].
  - intro g. destruct g as [|[|[|g]]]; reflexivity.
  - exists t1, [Called 0 (QAdd t1); Returned 0 ODone; Called 0 (QAdd t2); Returned 0 ODone], [Called 2 (QAdd t2)]. split; [reflexivity|]. intros r [X|[]]; discriminate.
  - exists t2, [Called 0 (QAdd t1); Returned 0 ODone; Called 0 (QAdd t2); Returned 0 ODone; Called 1 (QAdd t1)], []. split; [reflexivity|]. intros r [].
Qed.

Print Assumptions C129_linearizable.
Print Assumptions C129_no_tearing.
Print Assumptions C129_no_deadlock_partial.
Print Assumptions C129_len_deadlock_refuted.
Print Assumptions C129_left_behind_refuted.
