(** Properties C26-C28: clock synchronisation. *)
From Verif Require Import GoBase GoBaseFacts TimingModel TimingSpec TimingProofs.
From Coq Require Import ZifyBool ZifyNat.
Local Open Scope Z_scope.

(* ================= C26 ================= *)
(** Client clock t0 at sending; the server clock is theta ahead of the client's; the
    request takes d1, the server p, the response d2. *)
Theorem C26_offset_estimate : forall t0 theta d1 p d2,
  in_int64 (2 * theta + d1 - d2) ->
  let est := calc_offset t0 (t0 + d1 + theta) (t0 + d1 + p + theta) (t0 + d1 + p + d2) in
  (d1 = d2 -> est = theta) /\ 2 * Z.abs (est - theta) <= Z.abs (d1 - d2) + 1.
Proof.
  intros t0 theta d1 p d2 H. cbn zeta. rewrite calc_exact.
  - replace (t0 + d1 + theta - t0 + (t0 + d1 + p + theta - (t0 + d1 + p + d2))) with (2 * theta + (d1 - d2)) by ring.
    set (e := d1 - d2). split.
    + intros E. replace e with 0 by lia. rewrite Z.add_0_r, Z.mul_comm. apply Z.quot_mul. lia.
    + pose proof (Z.quot_rem' (2 * theta + e) 2) as E.
      destruct (Z.le_gt_cases 0 (2 * theta + e)) as [Hp|Hp].
      * pose proof (Z.rem_bound_pos (2 * theta + e) 2 Hp ltac:(lia)). lia.
      * pose proof (Z.rem_bound_pos (- (2 * theta + e)) 2 ltac:(lia) ltac:(lia)) as B. rewrite Z.rem_opp_l in B by lia. lia.
  - replace (t0 + d1 + theta - t0 + (t0 + d1 + p + theta - (t0 + d1 + p + d2))) with (2 * theta + d1 - d2) by ring. exact H.
Qed.
Print Assumptions C26_offset_estimate.

Example C26_nonvacuous :
  calc_offset 1000 (1000 + 50 + -700) (1000 + 50 + 3 + -700) (1000 + 50 + 3 + 50) = -700 /\
  calc_offset 1000 (1000 + 50 + -700) (1000 + 50 + 3 + -700) (1000 + 50 + 3 + 75) = -712 /\
  in_int64 (2 * -700 + 50 - 75).
Proof. repeat split; vm_compute; congruence. Qed.

(* ================= C27 ================= *)
(** A round: ResetOffsets(n) while no response is being handled, then responses handled in
    any interleaving.  Before the n-th response the old offset stays in force; when n
    responses have been handled completely the offset is the mean rounded down. *)
Theorem C27_round : forall grow s n acts s', (1 <= n)%nat -> nobody_running s -> no_reset acts ->
  trun grow s (TReset (Z.of_nat n) :: acts) = Some (Ok s') ->
  ((length (measured acts) < n)%nat -> off s' = off s) /\
  (length (measured acts) = n -> Forall in_int64 (measured acts) -> nobody_running s' ->
     off s' = total (measured acts) / Z.of_nat n).
Proof.
  intros grow s n acts s' Hn Hd Hnr H. cbn [trun tstep] in H.
  destruct (Z.ltb_spec (Z.of_nat n) 0); [lia|]. rewrite Nat2Z.id in H.
  split.
  - intros Hlt. pose proof (round_run grow n (off s) acts Hn Hnr [] _ s' ltac:(cbn [app]; lia) (round_start n s Hn Hd) H) as HR.
    cbn [app] in HR. exact (proj1 (rd_few _ _ _ _ HR Hlt)).
  - intros Heq Hall Hd'. pose proof (round_run grow n (off s) acts Hn Hnr [] _ s' ltac:(cbn [app]; lia) (round_start n s Hn Hd) H) as HR.
    cbn [app] in HR. destruct (rd_full _ _ _ _ HR Heq Hall) as [(i & p & Hi & Dp)|E].
    + exfalso. unfold nobody_running in Hd'. rewrite Forall_forall in Hd'. apply nth_error_In in Hi. specialize (Hd' _ Hi). subst p.
      destruct Dp as [|[|[|]]]; discriminate.
    + rewrite E. unfold zlen. rewrite Heq. reflexivity.
Qed.
Print Assumptions C27_round.

(** At every moment of the round the offset is the old one or the mean of all n. *)
Theorem C27_old_or_mean : forall grow s n acts s', (1 <= n)%nat -> nobody_running s -> no_reset acts ->
  (length (measured acts) <= n)%nat -> Forall in_int64 (measured acts) ->
  trun grow s (TReset (Z.of_nat n) :: acts) = Some (Ok s') ->
  off s' = off s \/ (length (measured acts) = n /\ off s' = total (measured acts) / Z.of_nat n).
Proof.
  intros grow s n acts s' Hn Hd Hnr Hle Hall H. cbn [trun tstep] in H.
  destruct (Z.ltb_spec (Z.of_nat n) 0); [lia|]. rewrite Nat2Z.id in H.
  pose proof (round_run grow n (off s) acts Hn Hnr [] _ s' ltac:(cbn [app]; lia) (round_start n s Hn Hd) H) as HR. cbn [app] in HR.
  destruct (Nat.eq_dec (length (measured acts)) n) as [Heq|Hne].
  - destruct (rd_keep _ _ _ _ HR Heq Hall) as [E|E]; [left; exact E|right]. split; [exact Heq|].
    rewrite E. unfold zlen. rewrite Heq. reflexivity.
  - left. exact (proj1 (rd_few _ _ _ _ HR ltac:(lia))).
Qed.
Print Assumptions C27_old_or_mean.

(** The mean lies between the smallest and the largest measurement, so it fits an int64. *)
Theorem C27_mean_between : forall l lo hi, l <> [] -> Forall (fun x => lo <= x <= hi) l ->
  lo <= total l / zlen l <= hi.
Proof. exact mean_bounds. Qed.
Print Assumptions C27_mean_between.

Theorem C27_no_overflow : forall l, l <> [] -> Forall in_int64 l -> average l = Ok (total l / zlen l).
Proof. exact average_mean. Qed.
Print Assumptions C27_no_overflow.

(** Three responses handled concurrently; the sum is odd and negative, and the sum of the
    measurements exceeds an int64. *)
Example C27_nonvacuous : exists s', 
  trun (fun n => 2 * n)%nat {| offs := [7]; ocap := 4; off := 99; upcs := [UDone] |}
    (TReset 3 :: [TAppend (-2^63); TAppend (-2^63); TLen 2; TAppend (2^62); TCap 2; TLen 3; TCap 3; TCap 1; TLen 1; TAvg 1; TAvg 3]) = Some (Ok s') /\
  nobody_running s' /\ off s' = -4611686018427387904.
Proof. eexists. split; [vm_compute; reflexivity|]. split; [repeat constructor|reflexivity]. Qed.

(* ================= C28 ================= *)
(** No panic if every new round (with a non-negative number of cycles) starts when no
    response is being handled. *)
Theorem C28_no_panic_partial : forall grow acts s,
  (offs s = [] -> nobody_running s) ->
  (forall pre n post s1, acts = pre ++ TReset n :: post -> trun grow s pre = Some (Ok s1) -> 0 <= n /\ nobody_running s1) ->
  trun grow s acts <> Some Panic.
Proof.
  intros grow acts. induction acts as [|a acts IH]; intros s HC Hr; cbn [trun]; [discriminate|].
  assert (Hra : match a with TReset n => 0 <= n /\ nobody_running s | _ => True end).
  { destruct a; auto. apply (Hr [] n acts s eq_refl eq_refl). }
  pose proof (no_panic_step grow s a HC Hra) as Hs.
  destruct (tstep grow s a) as [[s1|]|] eqn:E; [|contradiction|discriminate].
  apply IH; [exact Hs|].
  intros pre n post s2 Hp Hrun. apply (Hr (a :: pre) n post s2); [rewrite Hp; reflexivity|]. cbn [trun]. rewrite E. exact Hrun.
Qed.
Print Assumptions C28_no_panic_partial.

Theorem C28_initial_state_ok : offs init_t = [] -> nobody_running init_t.
Proof. intros _. constructor. Qed.

(** Refuted: for every number of cycles n, when a new round starts between the length check
    of the n-th response and its computation of the average, the client divides by zero. *)
Theorem C28_panic_refuted : forall grow n, (1 <= n)%nat -> exists acts,
  trun grow init_t acts = Some Panic /\
  Forall (fun a => match a with TReset m => m = Z.of_nat n | _ => True end) acts.
Proof.
  intros grow n Hn.
  exists (TReset (Z.of_nat n) :: repeat (TAppend 0) n ++ [TLen 0; TCap 0; TReset (Z.of_nat n); TAvg 0]).
  split.
  - cbn [trun tstep]. destruct (Z.ltb_spec (Z.of_nat n) 0); [lia|]. rewrite Nat2Z.id.
    assert (Happ : forall k s rest, (length (offs s) + k <= ocap s)%nat ->
      trun grow s (repeat (TAppend 0) k ++ rest) =
      trun grow {| offs := offs s ++ repeat 0 k; ocap := ocap s; off := off s; upcs := upcs s ++ repeat UCheck k |} rest).
    { induction k as [|k IH]; intros s rest Hk.
      - cbn [repeat app]. rewrite !app_nil_r. destruct s; reflexivity.
      - cbn [repeat app trun tstep]. rewrite app_length. cbn [length].
        destruct (Nat.leb_spec (length (offs s) + 1) (ocap s)); [|lia].
        rewrite IH; cbn [offs ocap off upcs]; [|rewrite app_length; cbn; lia]. rewrite <- !app_assoc. reflexivity. }
    rewrite Happ by (cbn; lia). cbn [offs ocap off upcs app init_t].
    destruct n as [|n]; [lia|]. cbn [repeat app trun tstep nth_error upcs offs ocap off].
    cbn [go_to set_pc upcs offs ocap off nth_error length]. rewrite repeat_length, Nat.eqb_refl. cbn [go_to set_pc upcs offs ocap off nth_error].
    destruct (Z.ltb_spec (Z.of_nat (S n)) 0); [lia|]. reflexivity.
  - constructor; [reflexivity|]. apply Forall_app. split.
    + apply Forall_forall. intros x Hx. apply repeat_spec in Hx. subst. exact I.
    + repeat constructor.
Qed.
Print Assumptions C28_panic_refuted.

Example C28_nonvacuous : exists s,
  trun (fun n => n) init_t [TReset 1; TAppend 5; TLen 0; TCap 0; TAvg 0; TReset 1; TAppend 7; TCap 1; TLen 1; TAvg 1] = Some (Ok s) /\ off s = 7.
Proof. eexists. split; [vm_compute; reflexivity|reflexivity]. Qed.
