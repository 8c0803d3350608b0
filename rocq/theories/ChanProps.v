(** Properties C13 and C14: the channels between the streaming loop and Fill. *)
From Verif Require Import GoBase GoBaseFacts PlaylistModel ChanModel ChanSpec ChanProofs.
Local Open Scope Z_scope.

(* ================= C13 ================= *)
(** For every interleaving: what Fill handed out is a beginning of the stream pushed, with
    low and high values paired as pushed, and every call returned the index of its first sample. *)
Theorem C13_fill_faithful : forall c acts s,
  crun (init_chan c) acts = Some s ->
  is_prefix (handed_out (returned s)) (hist s) /\ indices_exact 0 (returned s).
Proof.
  intros c acts s H. pose proof (inv_run acts _ s (inv_init c) H) as HI.
  split; [exact (inv_prefix s HI)|exact (i_exact s HI)].
Qed.
Print Assumptions C13_fill_faithful.

(** No sample is withheld either: apart from at most [cap] samples in the channels, the
    ones collected by a Fill under way and the one being pushed, everything pushed has
    been handed out. *)
Theorem C13_nothing_withheld : forall c acts s,
  crun (init_chan c) acts = Some s -> fill s = FIdle ->
  (length (hist s) <= length (handed_out (returned s)) + c + 1)%nat.
Proof.
  intros c acts s H Hf. pose proof (inv_run acts _ s (inv_init c) H) as HI.
  pose proof (cap_run acts _ _ H) as Hc. cbn [init_chan cap] in Hc.
  destruct (inv_counts s HI) as [Cl _]. pose proof (i_capl s HI) as Hcl.
  destruct (handed_out_combine _ (i_ret s HI)) as [Hh Hlen].
  rewrite Hh, combine_length, <- Hlen, Nat.min_id.
  unfold got_low, todo_low in Cl. rewrite Hf in Cl. destruct (prod s); cbn [length] in Cl; lia.
Qed.
Print Assumptions C13_nothing_withheld.

(** The write index announced to listeners (C10) is the number of samples pushed before. *)
Theorem C13_write_index : forall c acts s,
  crun (init_chan c) acts = Some s -> prod s = PIdle -> idx_w s = zlen (hist s).
Proof.
  intros c acts s H Hp. pose proof (inv_run acts _ s (inv_init c) H) as HI.
  rewrite (i_w s HI), Hp. lia.
Qed.
Print Assumptions C13_write_index.

Example C13_nonvacuous : exists s,
  crun (init_chan 1)
    [CPush (1%N, 2%N); CSendLow; CFill 2; CRecvLow; CSendHigh; CIncr; CPush (3%N, 4%N); CSendLow; CRecvLow;
     CRecvHigh; CSendHigh; CRecvHigh; CReturn; CIncr; CFill 1; CPush (5%N, 6%N); CSendLow; CRecvLow; CSendHigh;
     CRecvHigh; CReturn] = Some s /\
  returned s = [(0, [1%N; 3%N], [2%N; 4%N]); (2, [5%N], [6%N])].
Proof. eexists. split; [vm_compute; reflexivity|reflexivity]. Qed.

(* ================= C14 ================= *)
(** While a Fill is under way, it can return or somebody can take a step; once the k
    samples have been produced this is so even if nothing more is produced. *)
Theorem C14_no_deadlock : forall c acts s k, (1 <= c)%nat ->
  crun (init_chan c) acts = Some s -> filling s k ->
  fill_done s \/
  exists a, working a = true /\ cstep s a <> None /\
    ((length (handed_out (returned s)) + k <= length (hist s))%nat -> starts_push a = false).
Proof.
  intros c acts s k Hc H Hf. pose proof (inv_run acts _ s (inv_init c) H) as HI.
  assert (Hcap : (1 <= cap s)%nat) by (rewrite (cap_run acts _ _ H); exact Hc).
  destruct (handed_out_combine _ (i_ret s HI)) as [Hh Hlen].
  rewrite Hh, combine_length, <- Hlen, Nat.min_id.
  exact (progress s k HI Hcap Hf).
Qed.
Print Assumptions C14_no_deadlock.

(** And it takes at most 6k + 4c + 7 steps of all goroutines together. *)
Theorem C14_fill_bounded : forall c acts s k more s', 
  crun (init_chan c) acts = Some s -> filling s k ->
  Forall (fun a => working a = true) more -> crun s more = Some s' ->
  (length more <= 6 * k + 4 * cap s + 7)%nat.
Proof.
  intros c acts s k more s' H Hf Hw Hm. pose proof (inv_run acts _ s (inv_init c) H) as HI.
  pose proof (measure_run more s s' k HI Hf Hw Hm). pose proof (measure_bound s k HI Hf). lia.
Qed.
Print Assumptions C14_fill_bounded.

Example C14_nonvacuous : exists s,
  crun (init_chan 1) [CPush (1%N, 2%N); CSendLow; CFill 3; CRecvLow; CSendHigh; CIncr; CPush (3%N, 4%N); CSendLow; CRecvLow]
    = Some s /\ filling s 3 /\ cstep s CSendHigh = None /\ cstep s CRecvLow = None /\ cstep s CRecvHigh <> None.
Proof. eexists. split; [vm_compute; reflexivity|]. split; [eexists; eexists; reflexivity|]. repeat split. discriminate. Qed.
