(** C110: several control sessions and the streaming loop share one playlist. *)
From Coq Require Import Permutation.
From Verif Require Import GoBase PlaylistModel PlaylistSpec SessionsModel SessionsSpec SessionsProofs.
Local Open Scope Z_scope.

(** Whatever the schedule, the calls have the results and the effect they would have one after the
    other, in the order in which they returned; each session's calls return in the order it made them. *)
Theorem C110_one_after_the_other_partial : forall l0 pos0 n acts s ds,
  s_run (s_init l0 pos0 n) acts = Some (s, ds) -> ss_crashed s = false ->
  exists l, one_by_one l0 ds l /\ (all_idle s -> ss_songs s = l) /\
  forall g, exists waiting, calls_of g acts = returned_to g ds ++ waiting /\ (length waiting <= 1)%nat /\ (all_idle s -> waiting = []).
Proof.
  intros l0 pos0 n acts s ds R A. destruct (run_inv acts l0 pos0 [] _ [] s ds (inv_init l0 pos0 n) R) as [(_ & I)|(C & _)]; [|congruence].
  cbn [app] in I. destruct (v_hist _ _ _ _ _ I) as (l & O & H1 & H2). exists l. split; [exact O|]. split.
  - intros ID. apply H2. intros g e p N. apply nth_error_In in N. unfold all_idle in ID. rewrite Forall_forall in ID. now apply ID in N.
  - intros g. eexists. split; [apply (v_calls _ _ _ _ _ I g)|]. split.
    + destruct (nth_error (ss_gs s) g) as [[|o| | |]|]; cbn; lia.
    + intros ID. destruct (nth_error (ss_gs s) g) as [p|] eqn:N; [|reflexivity]. apply nth_error_In in N. unfold all_idle in ID. rewrite Forall_forall in ID. apply ID in N. now subst.
Qed.

(** no song is lost, doubled or invented *)
Theorem C110_nothing_lost : forall l0 pos0 n acts s ds,
  s_run (s_init l0 pos0 n) acts = Some (s, ds) -> ss_crashed s = false -> all_idle s -> ~ In [] (l0 ++ put_in ds) ->
  Permutation (ss_songs s ++ taken_out ds) (l0 ++ put_in ds).
Proof.
  intros l0 pos0 n acts s ds R A ID NE. destruct (C110_one_after_the_other_partial _ _ _ _ _ _ R A) as (l & O & E & _).
  rewrite (E ID). now apply one_conserves.
Qed.

(** a session's own songs keep their order, whatever the others append or insert *)
Theorem C110_own_order : forall l0 pos0 n acts s ds g,
  s_run (s_init l0 pos0 n) acts = Some (s, ds) -> ss_crashed s = false -> all_idle s -> existsb removes ds = false ->
  sub (l0 ++ appended_by g ds) (ss_songs s).
Proof.
  intros l0 pos0 n acts s ds g R A ID NR. destruct (C110_one_after_the_other_partial _ _ _ _ _ _ R A) as (l & O & E & _).
  rewrite (E ID). eapply one_keeps_order; eauto. apply sub_refl.
Qed.

(** only these crash the server: the position just behind the end (C02), a negative position (C05) *)
Theorem C110_crash_only : forall l0 pos0 n acts s ds,
  s_run (s_init l0 pos0 n) acts = Some (s, ds) -> ss_crashed s = true ->
  (exists l g, one_by_one l0 ds l /\ l <> [] /\ In (Calls g (OEdit (ERemove (zlen l)))) acts) \/
  pos0 < 0 \/ (exists g p, In (Calls g (OJump p)) acts /\ p < 0).
Proof.
  intros l0 pos0 n acts s ds R A. destruct (run_inv acts l0 pos0 [] _ [] s ds (inv_init l0 pos0 n) R) as [(C & _)|(_ & C)]; [congruence|exact C].
Qed.

(** no deadlock, and every call returns after finitely many steps *)
Theorem C110_progress : forall l0 pos0 n acts s ds,
  s_run (s_init l0 pos0 n) acts = Some (s, ds) -> ss_crashed s = false -> ~ all_idle s ->
  exists g s' e, s_step s (Steps g) = Some (s', e).
Proof.
  intros l0 pos0 n acts s ds R A NI. destruct (run_inv acts l0 pos0 [] _ [] s ds (inv_init l0 pos0 n) R) as [(_ & I)|(C & _)]; [|congruence].
  eapply progress; eauto.
Qed.
Theorem C110_returns : forall l0 pos0 n acts s ds,
  s_run (s_init l0 pos0 n) acts = Some (s, ds) -> ss_crashed s = false ->
  exists most, forall more s' e, s_run s more = Some (s', e) -> Forall (fun a => exists g, a = Steps g) more -> (length more <= most)%nat.
Proof.
  intros l0 pos0 n acts s ds R A. destruct (run_inv acts l0 pos0 [] _ [] s ds (inv_init l0 pos0 n) R) as [(_ & I)|(C & _)]; [|congruence].
  exists (s_rank s). intros more s' e R2 F. eapply run_rank; eauto.
Qed.

Definition xa : song := T "a". Definition xb : song := T "b". Definition xc : song := T "c".
Definition steps (g : nat) (n : nat) : list s_act := repeat (Steps g) n.
(** a call alone: called, its turn, inside, and out again *)
Definition add_alone (g : nat) (x : song) : list s_act := Calls g (OEdit (EAdd x)) :: steps g 5.

(** The songs of one queue command do not stay together when another session adds at the same time. *)
Theorem C110_queue_together_refuted : exists acts s ds,
  s_run (s_init [] 0 2) acts = Some (s, ds) /\ all_idle s /\ calls_of 0 acts = [OEdit (EAdd xa); OEdit (EAdd xc)] /\ ss_songs s = [xa; xb; xc].
Proof.
  exists (add_alone 0 xa ++ add_alone 1 xb ++ add_alone 0 xc). eexists _, _. split; [vm_compute; reflexivity|]. split; [repeat constructor|]. now split.
Qed.

(** A jump made while the streaming loop fetches the next song is lost: what is fetched after it is
    not the song jumped to. *)
Theorem C110_jump_refuted : exists acts s ds,
  s_run (s_init [xa; xb; xc] 0 2) acts = Some (s, ds) /\ all_idle s /\
  ds = [{| d_g := 1; d_op := OJump 2; d_res := SNone |}; {| d_g := 0; d_op := ONext; d_res := SSong xa |}; {| d_g := 0; d_op := ONext; d_res := SSong xa |}].
Proof.
  exists (Calls 0 ONext :: steps 0 3 ++ [Calls 1 (OJump 2); Steps 1] ++ steps 0 3 ++ Calls 0 ONext :: steps 0 6). eexists _, _.
  split; [vm_compute; reflexivity|]. split; [repeat constructor|]. vm_compute. reflexivity.
Qed.

(** three sessions and the loop at once: the hypotheses are met *)
Definition ex_acts : list s_act :=
  [Calls 0 (OEdit (EInsert xc 1)); Calls 1 OSongs; Calls 2 (OEdit (ERemove 7)); Calls 3 ONext; Steps 1; Steps 1; Steps 3; Steps 0; Steps 1; Steps 3; Steps 1; Steps 3; Steps 1; Steps 1; Steps 3; Steps 3; Steps 3;
   Steps 0; Steps 0; Steps 0; Steps 0; Steps 0; Steps 0] ++ steps 2 7.
Example C110_ex : exists s ds, s_run (s_init [xa; xb] 4 4) ex_acts = Some (s, ds) /\ ss_crashed s = false /\ all_idle s /\ ss_songs s = [xa; xc] /\
  taken_out ds = [xb] /\ map d_res ds = [SList [xa; xb]; SSong xa; SNone; SSong xb].
Proof. eexists _, _. split; [vm_compute; reflexivity|]. split; [reflexivity|]. split; [repeat constructor|]. now split. Qed.
Example C110_ex_order : exists s ds, s_run (s_init [xa] 0 2) (add_alone 1 xb ++ add_alone 0 xc) = Some (s, ds) /\ all_idle s /\ existsb removes ds = false /\ appended_by 0 ds = [xc].
Proof. eexists _, _. split; [vm_compute; reflexivity|]. split; [repeat constructor|]. now split. Qed.
Example C110_ex_crash : exists s ds, s_run (s_init [xa] 0 1) (Calls 0 (OEdit (ERemove 1)) :: steps 0 4) = Some (s, ds) /\ ss_crashed s = true.
Proof. eexists _, _. split; [vm_compute; reflexivity|]. reflexivity. Qed.
Example C110_ex_waits : exists s ds, s_run (s_init [xa] 0 2) [Calls 0 OSongs; Steps 0; Calls 1 (OEdit (EAdd xb)); Steps 1] = Some (s, ds) /\ ~ all_idle s /\ s_step s (Steps 1) = None.
Proof. eexists _, _. split; [vm_compute; reflexivity|]. split; [|reflexivity]. intros H. inversion H. discriminate. Qed.

Print Assumptions C110_one_after_the_other_partial.
Print Assumptions C110_nothing_lost.
Print Assumptions C110_own_order.
Print Assumptions C110_crash_only.
Print Assumptions C110_progress.
Print Assumptions C110_returns.
Print Assumptions C110_queue_together_refuted.
Print Assumptions C110_jump_refuted.
