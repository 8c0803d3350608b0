(** Wake-ups of the sample queue (C17). *)
From Verif Require Import GoBase GoBaseFacts QueueModel QueueSpec QueueProofs.
From Coq Require Import ZifyBool ZifyNat ZifyN.

Lemma cap_run_q os : forall q q' xs, qrun q os = Some (q', xs) -> q_cap q' = q_cap q.
Proof.
  induction os as [|o os IH]; intros q q' xs H; cbn [qrun] in H; [congruence|].
  destruct (qstep q o) as [[q1 x]|] eqn:E; [|discriminate].
  destruct (qrun q1 os) as [[q2 ys]|] eqn:E2; [|discriminate]. injection H as <- <-.
  rewrite (IH _ _ _ E2). exact (cap_step_q _ _ _ _ E).
Qed.

Definition r_waits (s : qstate) : bool :=
  match r_pc s with RRegister _ => true | _ => r_reg s end.
Definition a_waits (s : qstate) : bool :=
  match a_pc s with ARegister _ => true | _ => a_reg s end.

Record Wake (n : nat) (s : qstate) : Prop := {
  w_excl : r_waits s && a_waits s = false;
  w_r : r_waits s = true ->
        match a_pc s with
        | ABcast => (stored s <= 2)%nat
        | _ => (stored s <= 1)%nat
        end;
  w_rr : match r_pc s with
         | RRegister _ => match a_pc s with AWrite _ | AIncr _ => stored s = 0%nat | _ => (stored s <= 1)%nat end
         | _ => True end;
  w_a : a_waits s = true ->
        match r_pc s with
        | RBcast _ => (n <= stored s + 2)%nat
        | _ => (n <= stored s + 1)%nat
        end;
  w_aa : match a_pc s with
         | ARegister _ => match r_pc s with RRead false | RIncr _ => stored s = n | _ => (n <= stored s + 1)%nat end
         | _ => True end
}.

Lemma wake_init n : Wake n (init_q n).
Proof. constructor; cbn; auto; discriminate. Qed.

Lemma stored_add s l x : added s = removed s ++ l ->
  (length (added s ++ [x]) - length (removed s) = S (length l))%nat.
Proof. intros ->. rewrite !app_length. cbn. lia. Qed.
Lemma stored_rem s v r : added s = removed s ++ v :: r ->
  (length (added s) - length (removed s ++ [v]) = length r)%nat.
Proof. intros ->. rewrite !app_length. cbn. lia. Qed.

Lemma wake_step n s l a s' : (2 <= n)%nat -> Safe n s l -> Wake n s -> qmove s a = Some s' -> Wake n s'.
Proof.
  intros Hn HS [Hx Hwr Hwrr Hwa Hwaa] H.
  pose proof (safe_stored n s l HS) as Hst. rewrite Hst in *.
  destruct HS as [HR Hc Hlog Ha Hr Hm Har Hrr _].
  pose proof (rep_full _ _ HR) as Hf. rewrite Hc in Hf.
  pose proof (rep_empty _ _ HR) as He.
  pose proof (r_len _ _ HR) as Hl. rewrite Hc in Hl. clear HR Hc.
  unfold stored in Hst.
  destruct s as [q apcv rpcv ar rr ad re pk]. unfold r_waits, a_waits in *.
  qsimpl.
  destruct a as [x| |p| ]; cbn [qmove a_pc r_pc qq] in H.
  - destruct apcv; try discriminate. injection H as <-.
    constructor; unfold r_waits, a_waits, stored; qsimpl; rewrite ?Hst; auto.
  - destruct apcv as [|x|x|x|x|x|x|x|x|]; try discriminate.
    + destruct (r_holds rpcv) eqn:Eh; [discriminate|]. injection H as <-.
      constructor; unfold r_waits, a_waits, stored; qsimpl; rewrite ?Hst; auto.
    + rewrite Hf in H. destruct (Nat.eqb_spec (length l) n) as [E|E]; injection H as <-;
        constructor; unfold r_waits, a_waits, stored; qsimpl; rewrite ?Hst; auto.
      * destruct rpcv, rr; cbn in *; try discriminate; auto; specialize (Hwr eq_refl); lia.
      * destruct rpcv; intros; lia.
      * destruct rpcv as [| | | | | | |[]| |]; lia.
    + injection H as <-. constructor; unfold r_waits, a_waits, stored; qsimpl; rewrite ?Hst; auto.
    + injection H as <-. constructor; unfold r_waits, a_waits, stored; qsimpl; rewrite ?Hst; auto.
    + destruct ar; [discriminate|]. injection H as <-.
      constructor; unfold r_waits, a_waits, stored; qsimpl; rewrite ?Hst; auto.
    + injection H as <-. constructor; unfold r_waits, a_waits, stored; qsimpl; rewrite ?Hst; auto.
      destruct rpcv; auto; cbn in Hm; discriminate.
    + injection H as <-. constructor; unfold r_waits, a_waits, stored; qsimpl; rewrite ?Hst; auto.
    + injection H as <-.
      pose proof (stored_add (Build_qstate q (AIncr x) rpcv ar rr ad re pk) l x Hlog) as Hsa. qsimpl.
      constructor; unfold r_waits, a_waits, stored; qsimpl; rewrite ?Hsa; auto.
      * intros Hw. specialize (Hwr Hw). lia.
      * destruct rpcv; auto. lia.
      * intros Hw. specialize (Hwa Hw). destruct rpcv; lia.
    + injection H as <-.
      constructor; unfold r_waits, a_waits, stored; qsimpl; rewrite ?Hst; auto; try discriminate.
      * rewrite andb_false_r; reflexivity.
      * destruct rpcv; intros; try discriminate. exact Hwrr.
  - destruct rpcv; try discriminate. injection H as <-.
    constructor; unfold r_waits, a_waits, stored; qsimpl; rewrite ?Hst; auto.
  - destruct rpcv as [|p|p|p|p|p|p|p|v|v]; try discriminate.
    + destruct (a_holds apcv) eqn:Eh; [discriminate|]. injection H as <-.
      constructor; unfold r_waits, a_waits, stored; qsimpl; rewrite ?Hst; auto.
    + rewrite He in H. destruct l as [|y l]; injection H as <-;
        constructor; unfold r_waits, a_waits, stored; qsimpl; rewrite ?Hst; cbn [length] in *; auto.
      * destruct apcv, ar; cbn in *; try discriminate; auto; specialize (Hwa eq_refl); lia.
      * destruct apcv; intros; lia.
      * destruct apcv; lia.
    + injection H as <-. constructor; unfold r_waits, a_waits, stored; qsimpl; rewrite ?Hst; auto.
    + injection H as <-. constructor; unfold r_waits, a_waits, stored; qsimpl; rewrite ?Hst; auto.
    + destruct rr; [discriminate|]. injection H as <-.
      constructor; unfold r_waits, a_waits, stored; qsimpl; rewrite ?Hst; auto.
    + injection H as <-. constructor; unfold r_waits, a_waits, stored; qsimpl; rewrite ?Hst; auto.
      destruct apcv; auto; cbn in Hm; discriminate.
    + destruct p; injection H as <-; constructor; unfold r_waits, a_waits, stored; qsimpl; rewrite ?Hst; auto.
    + injection H as <-. destruct Hr as [r ->].
      pose proof (stored_rem (Build_qstate q apcv (RIncr v) ar rr ad re pk) v r Hlog) as Hsa. qsimpl. cbn [length] in *.
      constructor; unfold r_waits, a_waits, stored; qsimpl; rewrite ?Hsa; auto.
      * intros Hw. specialize (Hwr Hw). destruct apcv; lia.
      * intros Hw. specialize (Hwa Hw). lia.
      * destruct apcv; auto. lia.
    + injection H as <-.
      constructor; unfold r_waits, a_waits, stored; qsimpl; rewrite ?Hst; auto; try discriminate.
      destruct apcv; intros; try discriminate. exact Hwaa.
Qed.

Lemma wake_run n acts : forall s l s', (2 <= n)%nat -> Safe n s l -> Wake n s ->
  qmoves s acts = Some s' -> Wake n s' /\ exists l', Safe n s' l'.
Proof.
  induction acts as [|a acts IH]; intros s l s' Hn HS HW H; cbn [qmoves] in H.
  - injection H as <-. eauto.
  - destruct (qmove s a) as [s1|] eqn:E; [|discriminate].
    destruct (safe_step n s l a s1 HS E) as [l1 HS1].
    exact (IH s1 l1 s' Hn HS1 (wake_step n s l a s1 Hn HS HW E) H).
Qed.

Lemma r_waits_iff s : remover_waiting s -> r_waits s = true.
Proof. unfold remover_waiting, r_waits. intros [[p ->]|H]; [reflexivity|]. destruct (r_pc s); auto. Qed.
Lemma a_waits_iff s : adder_waiting s -> a_waits s = true.
Proof. unfold adder_waiting, a_waits. intros [[p ->]|H]; [reflexivity|]. destruct (a_pc s); auto. Qed.

Lemma wake_lemma : forall n acts s, (2 <= n)%nat ->
  qmoves (init_q n) acts = Some s ->
  ~ (remover_waiting s /\ adder_waiting s) /\
  (remover_waiting s -> (stored s <= 1 \/ (stored s = 2 /\ a_pc s = ABcast))%nat) /\
  (adder_waiting s -> (n - 1 <= stored s \/ (stored s = n - 2 /\ exists v, r_pc s = RBcast v))%nat) /\
  (a_pc s = ABcast -> exists s', qmove s AStep = Some s' /\ r_reg s' = false) /\
  ((exists v, r_pc s = RBcast v) -> exists s', qmove s RStep = Some s' /\ a_reg s' = false).
Proof.
  intros n acts s Hn H.
  destruct (wake_run n acts _ [] s Hn (safe_init n ltac:(lia)) (wake_init n) H) as [[Hx Hwr _ Hwa _] _].
  split; [|split; [|split; [|split]]].
  - intros [H1 H2]. apply r_waits_iff in H1. apply a_waits_iff in H2. rewrite H1, H2 in Hx. discriminate.
  - intros H1. specialize (Hwr (r_waits_iff s H1)).
    destruct (a_pc s); auto. destruct (Nat.le_gt_cases (stored s) 1); [auto|right; split; [lia|reflexivity]].
  - intros H1. specialize (Hwa (a_waits_iff s H1)).
    destruct (r_pc s) as [| | | | | | | | |v]; try (left; lia).
    destruct (Nat.le_gt_cases (n - 1) (stored s)); [auto|right; split; [lia|exists v; reflexivity]].
  - intros E. cbn [qmove]. rewrite E. eexists; split; [reflexivity|reflexivity].
  - intros [v E]. cbn [qmove]. rewrite E. eexists; split; [reflexivity|reflexivity].
Qed.

Lemma someone_moves : forall n acts s, (2 <= n)%nat ->
  qmoves (init_q n) acts = Some s ->
  qmove s AStep <> None \/ qmove s RStep <> None \/
  (a_pc s = AIdle /\ (r_pc s = RIdle \/ remover_asleep s)) \/ (r_pc s = RIdle /\ adder_asleep s).
Proof.
  intros n acts s Hn H.
  destruct (wake_run n acts _ [] s Hn (safe_init n ltac:(lia)) (wake_init n) H) as [[Hx _ _ _ _] [l HS]].
  unfold r_waits, a_waits, remover_asleep, adder_asleep in *. cbn [qmove].
  destruct (a_pc s) as [|x|x|x|x|x|x|x|x|] eqn:Ea; try (left; discriminate).
  - right. destruct (r_pc s) as [|p|p|p|p|p|p|[]|v|v] eqn:Er; try (left; discriminate).
    + right. left. auto.
    + destruct (empty (qq s)); left; discriminate.
    + destruct (r_reg s); [right; left; split; [reflexivity|right; eauto]|left; discriminate].
  - destruct (r_holds (r_pc s)) eqn:Eh; [|left; discriminate].
    right; left. destruct (r_pc s) as [|p|p|p|p|p|p|[]|v|v] eqn:Er; try discriminate.
    destruct (empty (qq s)); discriminate.
  - left. destruct (full (qq s)); discriminate.
  - destruct (a_reg s) eqn:Eg; [|left; discriminate]. rewrite andb_true_r in Hx. right.
    destruct (r_pc s) as [|p|p|p|p|p|p|[]|v|v] eqn:Er; try (left; discriminate).
    + right. right. eauto.
    + destruct (empty (qq s)); left; discriminate.
    + rewrite Hx. left; discriminate.
Qed.

Lemma full_new n : (1 <= n)%nat -> full (new_queue n) = false.
Proof. intros Hn. rewrite (rep_full _ _ (rep_new n Hn)). unfold q_cap; cbn. rewrite repeat_length. destruct n; [lia|reflexivity]. Qed.

Lemma qm_cons s a r s1 s' : qmove s a = Some s1 -> qmoves s1 r = Some s' -> qmoves s (a :: r) = Some s'.
Proof. intros H1 H2. cbn [qmoves]. rewrite H1. exact H2. Qed.

Ltac qgo Hf := eapply qm_cons; [cbn [qmove a_pc r_pc r_holds a_holds qq set_a set_r set_q set_reg log_added log_removed log_peeked a_reg r_reg];
  rewrite ?Hf; reflexivity|cbn [a_pc r_pc r_holds a_holds qq set_a set_r set_q set_reg log_added log_removed log_peeked a_reg r_reg added removed peeked]].

Lemma lost_wakeup : forall n, (1 <= n)%nat -> exists acts s,
  qmoves (init_q n) acts = Some s /\ stored s = 1%nat /\ remover_asleep s /\ a_pc s = AIdle /\
  qmove s RStep = None.
Proof.
  intros n Hn. pose proof (full_new n Hn) as Hf.
  exists [AStart zero_ts; AStep; AStep; AStep; RStart false; RStep; RStep; AStep; AStep; AStep; RStep; RStep].
  eexists. split.
  - unfold init_q. do 6 qgo Hf.
    eapply qm_cons; [cbn [qmove r_pc qq]; change (empty (new_queue n)) with true; cbv iota; reflexivity|].
    do 5 qgo Hf. cbn [qmoves]. reflexivity.
  - split; [reflexivity|]. split; [split; [eexists; reflexivity|reflexivity]|]. split; reflexivity.
Qed.
