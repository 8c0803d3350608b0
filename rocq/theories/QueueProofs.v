(** Proofs about the sample queue. *)
From Verif Require Import GoBase GoBaseFacts QueueModel QueueSpec.
From Coq Require Import ZifyBool ZifyNat ZifyN.
Ltac Zify.zify_post_hook ::= Z.div_mod_to_equations.

Lemma upd_length {A} (l : list A) i x : length (upd l i x) = length l.
Proof. revert i; induction l as [|y l IH]; intros [|i]; cbn; auto. Qed.
Lemma nth_upd_same {A} (l : list A) i x d : (i < length l)%nat -> nth i (upd l i x) d = x.
Proof. revert i; induction l as [|y l IH]; intros [|i] H; cbn in *; try lia; auto. apply IH; lia. Qed.
Lemma nth_upd_other {A} (l : list A) i j x d : i <> j -> nth j (upd l i x) d = nth j l d.
Proof. revert i j; induction l as [|y l IH]; intros [|i] [|j] H; cbn; auto; try congruence; apply IH; congruence. Qed.

(** [q] stores the elements of [l], oldest first. *)
Record Rep (q : queue) (l : list tsample) : Prop := {
  r_cap : (1 <= q_cap q)%nat;
  r_head : (head q < 2 * q_cap q)%nat;
  r_tail : (tail q < 2 * q_cap q)%nat;
  r_len : (length l <= q_cap q)%nat;
  r_pos : head q = ((tail q + length l) mod (2 * q_cap q))%nat;
  r_data : forall i, (i < length l)%nat -> nth ((tail q + i) mod q_cap q) (buf q) zero_ts = nth i l zero_ts
}.

Lemma mod_eq_small a b n : (0 < n)%nat -> (a mod n = b mod n)%nat -> (a <= b < a + n)%nat -> a = b.
Proof.
  intros Hn He Hr.
  pose proof (Nat.div_mod a n ltac:(lia)). pose proof (Nat.div_mod b n ltac:(lia)).
  assert (b - a < n)%nat by lia.
  assert (n * (b / n) - n * (a / n) = b - a)%nat by lia.
  assert (b / n = a / n \/ (b / n > a / n)%nat) as [E|E].
  { assert (a / n <= b / n)%nat by (apply Nat.div_le_mono; lia). lia. }
  - rewrite E in *. lia.
  - assert (n * (b / n) >= n * (a / n) + n)%nat by nia. lia.
Qed.

Lemma mod2n_mod n a : (1 <= n)%nat -> ((a mod (2 * n)) mod n = a mod n)%nat.
Proof.
  intros Hn. rewrite (Nat.mul_comm 2 n). rewrite Nat.mod_mul_r by lia.
  rewrite Nat.mul_comm, Nat.mod_add by lia. apply Nat.mod_mod. lia.
Qed.

Lemma rep_new n : (1 <= n)%nat -> Rep (new_queue n) [].
Proof.
  intros Hn. constructor; unfold q_cap; cbn [new_queue buf head tail length]; rewrite ?repeat_length; try lia.
  rewrite Nat.mod_small; lia.
Qed.

Lemma rep_empty q l : Rep q l -> empty q = (match l with [] => true | _ => false end).
Proof.
  intros [Hc Hh Ht Hl Hp Hd]. unfold empty.
  destruct l as [|x l].
  - cbn [length] in *. rewrite Nat.add_0_r, Nat.mod_small in Hp by lia. lia.
  - cbn [length] in *. apply Nat.eqb_neq. intros E.
    assert (tail q = tail q + S (length l))%nat; [|lia].
    apply (mod_eq_small _ _ (2 * q_cap q)); [lia| |lia].
    rewrite <- Hp, (Nat.mod_small (tail q)) by lia. lia.
Qed.

Lemma rep_full q l : Rep q l -> full q = (length l =? q_cap q)%nat.
Proof.
  intros [Hc Hh Ht Hl Hp Hd]. unfold full.
  destruct (Nat.eqb_spec (length l) (q_cap q)) as [E|E].
  - rewrite <- E. rewrite E at 2. rewrite Hp. rewrite Nat.eqb_refl. reflexivity.
  - apply Nat.eqb_neq. intros E2. apply E.
    assert (tail q + length l = tail q + q_cap q)%nat; [|lia].
    apply (mod_eq_small _ _ (2 * q_cap q)); [lia|congruence|lia].
Qed.

Lemma rep_len q l : Rep q l -> q_len q = zlen l.
Proof.
  intros [Hc Hh Ht Hl Hp Hd]. unfold q_len, zlen.
  assert (Hcase : (tail q + length l < 2 * q_cap q /\ head q = tail q + length l)%nat \/
                  (2 * q_cap q <= tail q + length l /\ head q + 2 * q_cap q = tail q + length l)%nat).
  { destruct (Nat.lt_ge_cases (tail q + length l) (2 * q_cap q)) as [H|H].
    - left. rewrite Nat.mod_small in Hp by lia. lia.
    - right. split; [exact H|].
      replace (tail q + length l)%nat with (tail q + length l - 2 * q_cap q + 1 * (2 * q_cap q))%nat in Hp by lia.
      rewrite Nat.mod_add in Hp by lia. rewrite Nat.mod_small in Hp by lia. lia. }
  destruct (Nat.leb_spec (tail q) (head q)); lia.
Qed.

Lemma rep_read q x l : Rep q (x :: l) -> read_tail q = x.
Proof.
  intros [Hc Hh Ht Hl Hp Hd]. unfold read_tail.
  specialize (Hd 0%nat). rewrite Nat.add_0_r in Hd. apply Hd. cbn; lia.
Qed.

Lemma rep_incr_tail q x l : Rep q (x :: l) -> Rep (incr_tail q) l.
Proof.
  intros [Hc Hh Ht Hl Hp Hd]. cbn [length] in *.
  constructor; unfold q_cap, incr_tail in *; cbn [buf head tail] in *; unfold inc; try lia.
  - apply Nat.mod_upper_bound; lia.
  - rewrite Nat.add_mod_idemp_l by lia. rewrite Hp. f_equal. lia.
  - intros i Hi. specialize (Hd (S i)). cbn [nth] in Hd. rewrite <- Hd by lia. f_equal.
    rewrite <- (mod2n_mod _ ((tail q + 1) mod _ + i)) by lia.
    rewrite Nat.add_mod_idemp_l by lia. rewrite mod2n_mod by lia. f_equal. lia.
Qed.

(** After the element was written at the head slot. *)
Definition written (q : queue) (x : tsample) : Prop := nth (head q mod q_cap q) (buf q) zero_ts = x.

Lemma slot_free q l i : Rep q l -> (length l < q_cap q)%nat -> (i < length l)%nat ->
  (head q mod q_cap q <> (tail q + i) mod q_cap q)%nat.
Proof.
  intros [Hc Hh Ht Hl Hp Hd] Hlt Hi E.
  rewrite Hp, mod2n_mod in E by lia.
  assert (tail q + i = tail q + length l)%nat; [|lia].
  apply (mod_eq_small _ _ (q_cap q)); [lia|congruence|lia].
Qed.

Lemma rep_write q x l : Rep q l -> (length l < q_cap q)%nat ->
  Rep (write_head q x) l /\ written (write_head q x) x.
Proof.
  intros HR Hlt. pose proof HR as [Hc Hh Ht Hl Hp Hd].
  assert (Hcap : q_cap (write_head q x) = q_cap q) by (unfold q_cap, write_head; cbn; apply upd_length).
  split.
  - constructor; rewrite ?Hcap; unfold write_head; cbn [buf head tail]; auto.
    intros i Hi. rewrite nth_upd_other by (apply (slot_free q l i HR Hlt Hi)). apply Hd; exact Hi.
  - unfold written. rewrite Hcap. unfold write_head; cbn [buf head tail].
    apply nth_upd_same. unfold q_cap in *. apply Nat.mod_upper_bound. lia.
Qed.

Lemma rep_incr_head q x l : Rep q l -> (length l < q_cap q)%nat -> written q x ->
  Rep (incr_head q) (l ++ [x]).
Proof.
  intros [Hc Hh Ht Hl Hp Hd] Hlt Hw. unfold written in Hw.
  constructor; unfold q_cap, incr_head in *; cbn [buf head tail] in *; unfold inc, q_cap in *; rewrite ?app_length; cbn [length]; try lia.
  - rewrite Hp, Nat.add_mod_idemp_l by lia. f_equal. lia.
  - intros i Hi. destruct (Nat.eq_dec i (length l)) as [->|Hne].
    + rewrite app_nth2, Nat.sub_diag by lia. cbn [nth].
      rewrite <- Hw. rewrite Hp, mod2n_mod by lia. reflexivity.
    + rewrite app_nth1 by lia. apply Hd. lia.
Qed.

(* ---------------- C15 ---------------- *)

Lemma cap_step_q q o q' x : qstep q o = Some (q', x) -> q_cap q' = q_cap q.
Proof.
  destruct o; cbn [qstep].
  - destruct (full q); [discriminate|]. intros H; injection H as <- <-. unfold q_cap; cbn. apply upd_length.
  - destruct (empty q); [discriminate|]. intros H; injection H as <- <-. reflexivity.
  - destruct (empty q); [discriminate|]. intros H; injection H as <- <-. reflexivity.
  - intros H; injection H as <- <-. reflexivity.
Qed.

Lemma qstep_refines q l o :
  Rep q l ->
  match qstep q o, fifo_step (q_cap q) l o with
  | None, None => True
  | Some (q', x), Some (l', y) => Rep q' l' /\ x = y
  | _, _ => False
  end.
Proof.
  intros HR. destruct o as [x| | | ]; cbn [qstep fifo_step].
  - rewrite (rep_full q l HR). destruct (Nat.eqb_spec (length l) (q_cap q)) as [E|E]; [exact I|].
    split; [|reflexivity]. pose proof (r_len q l HR).
    destruct (rep_write q x l HR) as [HR' Hw]; [lia|].
    apply rep_incr_head; [exact HR'| |exact Hw].
    unfold q_cap, write_head. cbn [buf]. rewrite upd_length. unfold q_cap in *. lia.
  - rewrite (rep_empty q l HR). destruct l as [|y l]; [exact I|].
    split; [eapply rep_incr_tail; exact HR|]. f_equal. eapply rep_read; exact HR.
  - rewrite (rep_empty q l HR). destruct l as [|y l]; [exact I|].
    split; [exact HR|]. f_equal. eapply rep_read; exact HR.
  - split; [exact HR|]. f_equal. apply rep_len; exact HR.
Qed.

Lemma qrun_refines os : forall q l,
  Rep q l ->
  match qrun q os, fifo_run (q_cap q) l os with
  | None, None => True
  | Some (q', xs), Some (l', ys) => Rep q' l' /\ xs = ys
  | _, _ => False
  end.
Proof.
  induction os as [|o os IH]; intros q l HR; cbn [qrun fifo_run].
  - auto.
  - pose proof (qstep_refines q l o HR) as H.
    destruct (qstep q o) as [[q1 x]|] eqn:E1, (fifo_step (q_cap q) l o) as [[l1 y]|] eqn:E2; try contradiction; auto.
    destruct H as [HR1 ->]. pose proof (cap_step_q _ _ _ _ E1) as Hc.
    specialize (IH q1 l1 HR1). rewrite Hc in IH.
    destruct (qrun q1 os) as [[q2 xs]|], (fifo_run (q_cap q) l1 os) as [[l2 ys]|]; auto.
    destruct IH as [HR2 ->]. auto.
Qed.

(* ---------------- C16 ---------------- *)

Record Safe (n : nat) (s : qstate) (l : list tsample) : Prop := {
  s_rep : Rep (qq s) l;
  s_cap : q_cap (qq s) = n;
  s_log : added s = removed s ++ l;
  s_a : match a_pc s with
        | AUnlockL _ | AWrite _ => (length l < n)%nat
        | AIncr x => (length l < n)%nat /\ written (qq s) x
        | _ => True
        end;
  s_r : match r_pc s with
        | RUnlockL _ | RRead _ => l <> []
        | RIncr v => exists r, l = v :: r
        | _ => True
        end;
  s_mutex : a_holds (a_pc s) && r_holds (r_pc s) = false;
  s_areg : a_reg s = true -> exists x, a_pc s = AUnlockWait x \/ a_pc s = ASleep x;
  s_rreg : r_reg s = true -> exists p, r_pc s = RUnlockWait p \/ r_pc s = RSleep p;
  s_peek : Forall (fun e => nth_error (added s) (fst e) = Some (snd e)) (peeked s)
}.

Ltac qsimpl := cbn [qq a_pc r_pc a_reg r_reg added removed peeked set_a set_r set_q set_reg log_added log_removed log_peeked] in *.

Lemma peek_grow a x (pk : list (nat * tsample)) :
  Forall (fun e => nth_error a (fst e) = Some (snd e)) pk ->
  Forall (fun e => nth_error (a ++ [x]) (fst e) = Some (snd e)) pk.
Proof.
  intros H. eapply Forall_impl; [|exact H]. intros e He. cbn beta in *.
  rewrite nth_error_app1; [exact He|]. apply nth_error_Some. congruence.
Qed.

Lemma safe_init n : (1 <= n)%nat -> Safe n (init_q n) [].
Proof.
  intros Hn. constructor; cbn; auto; try discriminate.
  - apply rep_new; exact Hn.
  - unfold q_cap. cbn. apply repeat_length.
Qed.

Ltac qfin Har Hrr :=
  qsimpl; auto; try reflexivity; try discriminate; try congruence;
  try (rewrite andb_false_r; reflexivity);
  try match goal with E : _ = false |- _ && _ = false => rewrite ?E, ?andb_false_r; reflexivity end;
  try (let E := fresh in intros E; destruct (Har E) as (?y & [?Hy|?Hy]); congruence);
  try (let E := fresh in intros E; destruct (Hrr E) as (?y & [?Hy|?Hy]); congruence).

Lemma safe_step n s l a s' : Safe n s l -> qmove s a = Some s' -> exists l', Safe n s' l'.
Proof.
  intros [HR Hc Hlog Ha Hr Hm Har Hrr Hpk] H.
  destruct a as [x| |p| ]; cbn [qmove] in H.
  - destruct (a_pc s) eqn:Ea; try discriminate. injection H as <-. exists l.
    constructor; qfin Har Hrr.
  - destruct (a_pc s) as [|x|x|x|x|x|x|x|x|] eqn:Ea; try discriminate.
    + destruct (r_holds (r_pc s)) eqn:Eh; [discriminate|]. injection H as <-. exists l.
      constructor; qfin Har Hrr.
    + pose proof (rep_full _ _ HR) as Hf. pose proof (r_len _ _ HR) as Hl.
      destruct (full (qq s)); injection H as <-; exists l; constructor; qfin Har Hrr.
      symmetry in Hf. apply Nat.eqb_neq in Hf. lia.
    + injection H as <-. exists l. constructor; qfin Har Hrr. intros _. exists x; auto.
    + injection H as <-. exists l. constructor; qfin Har Hrr. intros _. exists x; auto.
    + destruct (a_reg s) eqn:Eg; [discriminate|]. injection H as <-. exists l.
      constructor; qfin Har Hrr.
    + injection H as <-. exists l. constructor; qfin Har Hrr.
    + injection H as <-. exists l. destruct (rep_write (qq s) x l HR) as [HR' Hw]; [lia|].
      constructor; qfin Har Hrr.
      unfold q_cap, write_head in *; cbn [buf]; rewrite upd_length; exact Hc.
    + injection H as <-. destruct Ha as [Hlt Hw]. exists (l ++ [x]).
      constructor; qfin Har Hrr.
      * apply rep_incr_head; [exact HR|lia|exact Hw].
      * rewrite Hlog, <- app_assoc. reflexivity.
      * destruct (r_pc s); auto; try (destruct l; cbn; congruence). destruct Hr as [r ->]. exists (r ++ [x]). reflexivity.
      * apply peek_grow. exact Hpk.
    + injection H as <-. exists l. constructor; qfin Har Hrr.
  - destruct (r_pc s) eqn:Er; try discriminate. injection H as <-. exists l.
    constructor; qfin Har Hrr.
  - destruct (r_pc s) as [|p|p|p|p|p|p|p|v|v] eqn:Er; try discriminate.
    + destruct (a_holds (a_pc s)) eqn:Eh; [discriminate|]. injection H as <-. exists l.
      constructor; qfin Har Hrr.
    + pose proof (rep_empty _ _ HR) as Hf.
      destruct (empty (qq s)); injection H as <-; exists l; constructor; qfin Har Hrr.
      destruct l; congruence.
    + injection H as <-. exists l. constructor; qfin Har Hrr. intros _. exists p; auto.
    + injection H as <-. exists l. constructor; qfin Har Hrr. intros _. exists p; auto.
    + destruct (r_reg s) eqn:Eg; [discriminate|]. injection H as <-. exists l.
      constructor; qfin Har Hrr.
    + injection H as <-. exists l. constructor; qfin Har Hrr.
    + destruct l as [|y l]; [congruence|]. pose proof (rep_read _ _ _ HR) as Hv.
      destruct p; injection H as <-; exists (y :: l); constructor; qfin Har Hrr.
      * apply Forall_app. split; [exact Hpk|]. constructor; [|constructor]. cbn [fst snd].
        rewrite Hlog, nth_error_app2, Nat.sub_diag by lia. cbn. rewrite Hv. reflexivity.
      * exists l. congruence.
    + injection H as <-. destruct Hr as [r ->]. exists r.
      constructor; qfin Har Hrr.
      * eapply rep_incr_tail; exact HR.
      * rewrite Hlog, <- app_assoc. reflexivity.
      * destruct (a_pc s); auto; cbn [length] in Ha; try lia. destruct Ha as [Hlt Hw]. split; [lia|exact Hw].
    + injection H as <-. exists l. constructor; qfin Har Hrr.
Qed.

Lemma safe_run n acts : forall s l s', Safe n s l -> qmoves s acts = Some s' -> exists l', Safe n s' l'.
Proof.
  induction acts as [|a acts IH]; intros s l s' HS H; cbn [qmoves] in H.
  - injection H as <-. eauto.
  - destruct (qmove s a) as [s1|] eqn:E; [|discriminate].
    destruct (safe_step n s l a s1 HS E) as [l1 HS1]. eapply IH; eassumption.
Qed.

Lemma safe_stored n s l : Safe n s l -> stored s = length l.
Proof. intros HS. unfold stored. rewrite (s_log n s l HS), app_length. lia. Qed.
