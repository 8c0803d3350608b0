(** Broadcasting: theorems for C33-C36 and C64. *)
From Verif Require Import GoBase GoBaseFacts WireModel SenderModel SenderSpec SenderProofs.
From Coq Require Import Permutation.
Local Open Scope Z_scope.

(** * C33: messages reach exactly the subscribers *)

(** After any history of connects, disconnects and subscriptions the sender is in a
    defined state, and a broadcast is written once to each connection that should get the
    message and to no other. *)
Theorem C33_exactly_the_subscribers : forall (h : list op), added_once h ->
  exists st, run_ops new_mms h = Ok st
    /\ forall m, NoDup (recipients st m) /\ forall c, In c (recipients st m) <-> should_get h m c.
Proof.
  intros h Hon. destruct (run_ops_ok h new_mms) as [st E]. exists st; split; [exact E|].
  intros m. exact (recipients_spec h m st Hon E).
Qed.

(** In a running broadcast the connections written to are the recipients, each once. *)
Theorem C33_written_once : forall E (h : list op) (m : message) (st : mms) (res : nat -> send_result E) b r,
  added_once h -> run_ops new_mms h = Ok st ->
  bc_run st m res (bc_start st) b -> bc_returned b = Some r ->
  NoDup (attempted b) /\ forall c, In c (attempted b) <-> should_get h m c.
Proof.
  intros E h m st res b r Hon Hst Hrun Hret.
  destruct (bc_result st m res b r Hrun Hret) as [Hp _].
  destruct (recipients_spec h m st Hon Hst) as [Hnd Hin]. split.
  - apply (Permutation_NoDup (Permutation_sym Hp)); exact Hnd.
  - intros c. rewrite <- Hin. split; apply Permutation_in; [exact Hp|apply Permutation_sym; exact Hp].
Qed.

(** A player (0), an info client (1), one with both channels (2), one that left (3) and
    one without a subscription (4). *)
Definition ex_history : list op :=
  [AddConn 0; AddConn 3; Subscribe 0 AUDIO; AddConn 1; Subscribe 3 META; AddConn 2; Subscribe 1 META;
   DelConn 3; Subscribe 2 META; Subscribe 2 AUDIO; AddConn 4].
Example C33_example : added_once ex_history
  /\ (do st <- run_ops new_mms ex_history; Ok (map (recipients st)
        [QueueChunkRequest 0 0 [] [] 0; SetVolumeRequest 0; ChunkInfo 0 0 0; PingMessage]))
     = Ok [[0; 2]; [0; 2; 1]; [2; 1]; [0; 2; 1; 4]]%nat.
Proof. split; [vm_compute; repeat constructor; cbn; intuition congruence|vm_compute; reflexivity]. Qed.

(** * C34: a closed connection gets nothing more and disturbs nobody *)

Theorem C34_closed_gets_nothing : forall (h1 h2 : list op) (c : nat) (m : message) (st : mms),
  added_once (h1 ++ DelConn c :: h2) -> In (AddConn c) h1 ->
  run_ops new_mms (h1 ++ DelConn c :: h2) = Ok st -> ~ In c (recipients st m).
Proof.
  intros h1 h2 c m st Hon Hadd Hst Hin.
  apply (recipients_spec _ m st Hon Hst) in Hin. destruct Hin as [(k1 & k2 & E & Hn) _].
  unfold added_once in Hon.
  assert (Hcase : In (DelConn c) k2 \/ In (AddConn c) h2).
  { revert k1 E. clear Hon Hadd Hst st. induction h1 as [|o h1 IH]; intros k1 E; destruct k1 as [|o' k1]; cbn [app] in E.
    - discriminate.
    - injection E as <- E. right. rewrite E. apply in_or_app; right; left; reflexivity.
    - injection E as -> E. left. rewrite <- E. apply in_or_app; right; left; reflexivity.
    - injection E as _ E. apply (IH _ E). }
  destruct Hcase as [Hx|Hx]; [contradiction|].
  rewrite flat_map_app in Hon. cbn [flat_map app] in Hon.
  assert (H1 : In c (flat_map (fun o => match o with AddConn c => [c] | _ => [] end) h1)).
  { apply in_flat_map. exists (AddConn c); split; [exact Hadd|left; reflexivity]. }
  assert (H2 : In c (flat_map (fun o => match o with AddConn c => [c] | _ => [] end) h2)).
  { apply in_flat_map. exists (AddConn c); split; [exact Hx|left; reflexivity]. }
  apply in_split in H1. destruct H1 as (a & b & E1). rewrite E1, <- app_assoc in Hon.
  cbn [app] in Hon. apply NoDup_remove_2 in Hon. apply Hon. apply in_or_app; right. apply in_or_app; right; exact H2.
Qed.

(** Removing [c] changes nothing for anybody else: same recipients of every message, same
    subscriptions (for every history, even one adding a connection twice). *)
Theorem C34_others_undisturbed : forall (h : list op) (c : nat) (st st' : mms),
  run_ops new_mms h = Ok st -> run_ops new_mms (h ++ [DelConn c]) = Ok st' ->
  channels st' = channels st
  /\ (forall m c', c' <> c -> (In c' (recipients st' m) <-> In c' (recipients st m)))
  /\ (forall c', c' <> c -> (In c' (connections st') <-> In c' (connections st)))
  /\ (forall c', c' <> c -> count_occ Nat.eq_dec (connections st') c' = count_occ Nat.eq_dec (connections st) c').
Proof.
  intros h c st st' Hst Hst'. rewrite run_ops_app, Hst in Hst'. cbn [obind run_ops apply_op] in Hst'.
  assert (H : channels st' = channels st /\ (st' = st \/ Permutation (connections st) (c :: connections st'))).
  { destruct (del_conn_spec st c) as [[_ E]|(s & E & Hc & Hp)]; rewrite E in Hst'; cbn [obind] in Hst'; injection Hst' as <-; auto. }
  destruct H as [Hc Hp]. split; [exact Hc|].
  assert (Hin : forall c', c' <> c -> (In c' (connections st') <-> In c' (connections st))).
  { intros c' Hne. destruct Hp as [->|Hp]; [reflexivity|]. split; intros Hx.
    - apply (Permutation_in _ (Permutation_sym Hp)); right; exact Hx.
    - apply (Permutation_in _ Hp) in Hx. destruct Hx as [Hx|Hx]; [congruence|exact Hx]. }
  split; [|split; [exact Hin|]].
  - intros m c' Hne. unfold recipients. rewrite !filter_In, (Hin c' Hne).
    unfold writes_to, is_subscribed. rewrite Hc. reflexivity.
  - intros c' Hne. destruct Hp as [->|Hp]; [reflexivity|].
    rewrite (Permutation_count_occ Nat.eq_dec) in Hp. rewrite (Hp c'). cbn [count_occ].
    destruct (Nat.eq_dec c c'); [congruence|reflexivity].
Qed.

Example C34_example :
  (do st <- run_ops new_mms (ex_history ++ [DelConn 0]);
   Ok (recipients st (SetVolumeRequest 0), recipients st PingMessage)) = Ok ([2; 1], [4; 2; 1])%nat.
Proof. vm_compute. reflexivity. Qed.

(** * C35: a failing client does not stop the others and is reported *)

(** In every execution of the goroutines of a broadcast that returns: every recipient was
    attempted exactly once; the result is nil iff every write succeeded, and otherwise
    holds exactly the errors of the failed recipients. *)
Theorem C35_result : forall E (st : mms) (m : message) (res : nat -> send_result E) b r,
  bc_run st m res (bc_start st) b -> bc_returned b = Some r ->
  Permutation (attempted b) (recipients st m)
  /\ (r = None <-> forall c, In c (recipients st m) -> res c = Sent)
  /\ (forall l, r = Some l -> Permutation l (failures res (recipients st m))).
Proof.
  intros E st m res b r Hrun Hret. destruct (bc_result st m res b r Hrun Hret) as [Hp Hr].
  split; [exact Hp|]. split.
  - split; [intros ->; exact Hr|]. intros Hs. destruct r as [l|]; [|reflexivity]. exfalso.
    destruct Hr as [Hne Hl]. apply Hne. apply Permutation_nil. rewrite Hl. unfold failures.
    assert (Hz : forall k, (forall c, In c k -> res c = Sent) ->
       flat_map (fun c => match res c with Failed e => [e] | _ => [] end) k = []).
    { induction k as [|c k IH]; intros Hk; [reflexivity|]. cbn [flat_map]. rewrite (Hk c) by (left; reflexivity).
      apply IH. intros c' Hc'. apply Hk; right; exact Hc'. }
    rewrite (Hz _ Hs). constructor.
  - intros l ->. apply Hr.
Qed.

(** As long as no write blocks for ever, every execution returns: some step is always
    possible, and every step brings the return closer ([bc_size] is a bound on the
    remaining steps). *)
Theorem C35_returns : forall E (st : mms) (m : message) (res : nat -> send_result E) b,
  (forall c, In c (recipients st m) -> res c <> Stalled) ->
  bc_run st m res (bc_start st) b ->
  (bc_returned b <> None \/ exists b', bc_step st m res b b')
  /\ (forall b', bc_step st m res b b' -> (bc_size b' < bc_size b)%nat).
Proof.
  intros E st m res b Hok Hrun. split; [|apply bc_step_size].
  apply bc_progress; [|exact Hok]. apply (bc_inv_run st m res _ _ (bc_inv_start st m res) Hrun).
Qed.

(** Whatever the writes to the others do - fail or even block for ever - every recipient
    can still be attempted: no recipient's write waits for another's. *)
Theorem C35_independent : forall E (st : mms) (m : message) (res : nat -> send_result E) b,
  bc_run st m res (bc_start st) b ->
  exists b', bc_run st m res b b' /\ Permutation (attempted b') (recipients st m).
Proof.
  intros E st m res b Hrun.
  apply (bc_attempt_all st m res (length (fresh b))); [|reflexivity].
  apply (bc_inv_run st m res _ _ (bc_inv_start st m res) Hrun).
Qed.

Definition ex_st : mms := {| connections := [7; 8; 9]%nat; channels := fun c => if Nat.eqb c 8 then None else Some [META] |}.
Definition ex_res (c : nat) : send_result N := if Nat.eqb c 9 then Failed 42%N else Sent.
Example C35_example : exists b,
  bc_run ex_st (PauseInfo true 5) ex_res (bc_start ex_st) b /\ bc_returned b = Some (Some [42%N])
  /\ attempted b = [9; 7]%nat.
Proof.
  eexists. split; [|split; [|]].
  - eapply BcCons; [apply (BcStart _ _ _ 9 [7; 8]%nat []); reflexivity|]. cbn [app].
    eapply BcCons; [apply (BcSkip _ _ _ 8 [7]%nat []); reflexivity|]. cbn [app].
    eapply BcCons; [apply (BcFailed _ _ _ 9 42%N _ [] []); reflexivity|]. cbn [app].
    eapply BcCons; [apply (BcStart _ _ _ 7 [] []); reflexivity|]. cbn [app].
    eapply BcCons; [apply (BcSent _ _ _ 7 _ [] []); reflexivity|]. cbn [app].
    eapply BcCons; [apply (BcAppend _ _ _ 42%N _ _ [] [])|]. cbn [app].
    apply BcNil.
  - reflexivity.
  - reflexivity.
Qed.

(** * C36: the last volume set is the one clients use *)

(** Partial: it holds when each volume message is handled before the next one arrives;
    in every execution the volume is one of those sent. *)
Theorem C36_prompt_handling_partial : forall (vs : list N) (last : N) (x : option N) (s : volume_client),
  vol_run_prompt {| inbox := vs ++ [last]; handlers := []; volume := x |} s ->
  inbox s = [] -> handlers s = [] -> volume s = Some last.
Proof.
  intros vs last x s Hrun Hi Hh.
  destruct (vol_prompt_inv (vs ++ [last]) _ _ Hrun) as (got & Hg & Hc).
  { exists []. split; [reflexivity|]. left. split; [reflexivity|left; reflexivity]. }
  rewrite Hi, app_nil_r in Hg. subst got. rewrite Hh in Hc.
  destruct Hc as [[_ [H|(g & v & E & Hv)]]|(g & v & _ & E)]; [destruct vs; discriminate| |discriminate].
  apply app_inj_tail in E. destruct E as [_ ->]. exact Hv.
Qed.

Theorem C36_one_of_those_sent_partial : forall (vs : list N) (x : option N) (s : volume_client),
  vol_run {| inbox := vs; handlers := []; volume := x |} s ->
  volume s = x \/ exists v, In v vs /\ volume s = Some v.
Proof.
  intros vs x s Hrun. apply (vol_run_in vs _ _ Hrun). cbn [inbox handlers]. intros v [H|[]]; exact H.
Qed.

(** Refuted: any of the volumes sent can be the one the client ends with. *)
Theorem C36_last_volume_refuted : forall (vs : list N) (v : N) (x : option N), In v vs ->
  exists s, vol_run {| inbox := vs; handlers := []; volume := x |} s
    /\ inbox s = [] /\ handlers s = [] /\ volume s = Some v.
Proof.
  intros vs v x Hin. exists {| inbox := []; handlers := []; volume := Some v |}.
  split; [apply vol_any_last; exact Hin|repeat split].
Qed.

Example C36_example : vol_run_prompt {| inbox := [1%N; 2%N]; handlers := []; volume := None |}
                                     {| inbox := []; handlers := []; volume := Some 2%N |}.
Proof.
  eapply VolPCons; [apply VolReceive|cbn; lia|]. cbn [app].
  eapply VolPCons; [apply (VolHandle 1%N [2%N] [] [])|cbn; lia|]. cbn [app].
  eapply VolPCons; [apply VolReceive|cbn; lia|]. cbn [app].
  eapply VolPCons; [apply (VolHandle 2%N [] [] [])|cbn; lia|]. apply VolPNil.
Qed.

(** * C64: a client that stops reading does not stop the service for the others *)

(** Partial: within the one broadcast the others are served ([C35_independent]). *)
Theorem C64_same_broadcast_partial : forall E (st : mms) (m : message) (res : nat -> send_result E) b,
  bc_run st m res (bc_start st) b ->
  exists b', bc_run st m res b b' /\ Permutation (attempted b') (recipients st m).
Proof. exact C35_independent. Qed.

(** As long as no client has stalled, nothing is stuck and nobody is forgotten: the broadcasts under way can
    return and then every waiting call that connects, disconnects or subscribes a client takes effect. *)
Theorem C64_all_served_partial : forall s : hub, Forall (fun d => snd d = false) (delivering s) ->
  exists st', run_ops (hub_state s) (waiting_writers s) = Ok st' /\
    hub_run s {| delivering := []; waiting_writers := []; hub_state := st'; begun := begun s |}.
Proof.
  intros [d w st b] H. cbn [delivering waiting_writers hub_state begun] in *.
  assert (W : forall st, exists st', run_ops st w = Ok st' /\
    hub_run {| delivering := []; waiting_writers := w; hub_state := st; begun := b |} {| delivering := []; waiting_writers := []; hub_state := st'; begun := b |}).
  { clear. induction w as [|o w IH]; intro st; [exists st; split; [reflexivity|apply HubNil]|].
    destruct (apply_op_ok st o) as [st1 E]. destruct (IH st1) as (st2 & E2 & R). exists st2. split; [cbn [run_ops]; rewrite E; exact E2|].
    eapply HubCons; [apply (HubWrite [] o w st st1 b E)|exact R]. }
  destruct (W st) as (st' & E & R). exists st'. split; [exact E|]. clear W E. induction d as [|[m x] d IH]; [exact R|].
  inversion H as [|? ? Hx Hd]; subst. cbn in Hx. subst x. eapply HubCons; [apply (HubReturn [] d m w st b)|exact (IH Hd)].
Qed.
Print Assumptions C64_all_served_partial.
Example C64_served_nonvacuous : forall st m c, exists st',
  hub_run {| delivering := [(m, false)]; waiting_writers := [AddConn c; DelConn c]; hub_state := st; begun := [m] |}
          {| delivering := []; waiting_writers := []; hub_state := st'; begun := [m] |}.
Proof.
  intros st m c. destruct (C64_all_served_partial {| delivering := [(m, false)]; waiting_writers := [AddConn c; DelConn c]; hub_state := st; begun := [m] |}) as (st' & _ & R); [repeat constructor|].
  exists st'. exact R.
Qed.

(** Refuted (1): a broadcast with a stalled recipient never returns, in any execution. *)
Theorem C64_never_returns_refuted : forall E (st : mms) (m : message) (res : nat -> send_result E) c,
  In c (recipients st m) -> res c = Stalled ->
  forall b, bc_run st m res (bc_start st) b -> bc_returned b = None.
Proof. intros E st m res c Hc Hs b Hr. exact (bc_stalled_forever st m res b c Hc Hs Hr). Qed.

(** Refuted (2): it keeps the read lock; as soon as any client then connects, disconnects
    or subscribes, no broadcast ever starts again and no client is ever added, removed or
    subscribed. *)
Theorem C64_service_frozen_refuted : forall (s s' : hub) (m : message),
  In (m, true) (delivering s) -> waiting_writers s <> [] -> hub_run s s' ->
  begun s' = begun s /\ hub_state s' = hub_state s.
Proof. intros s s' m Hd Hw Hr. destruct (hub_frozen s s' m Hr Hd Hw) as (H1 & H2 & _); auto. Qed.

(** Such a state is reached from the start by a broadcast to a stalled client and a new
    connection. *)
Example C64_example : forall st m o, exists s,
  hub_run {| delivering := []; waiting_writers := []; hub_state := st; begun := [] |} s
  /\ In (m, true) (delivering s) /\ waiting_writers s = [o] /\ begun s = [m].
Proof.
  intros st m o. eexists. split; [|split; [|split]].
  - eapply HubCons; [apply (HubBroadcast [] st [] m true)|]. eapply HubCons; [apply (HubWant _ [] st _ o)|]. apply HubNil.
  - left; reflexivity.
  - reflexivity.
  - reflexivity.
Qed.

Print Assumptions C33_exactly_the_subscribers.
Print Assumptions C33_written_once.
Print Assumptions C34_closed_gets_nothing.
Print Assumptions C34_others_undisturbed.
Print Assumptions C35_result.
Print Assumptions C35_returns.
Print Assumptions C35_independent.
Print Assumptions C36_prompt_handling_partial.
Print Assumptions C36_one_of_those_sent_partial.
Print Assumptions C36_last_volume_refuted.
Print Assumptions C64_never_returns_refuted.
Print Assumptions C64_service_frozen_refuted.
