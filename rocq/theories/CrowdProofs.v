(** Proofs for C129. *)
From Verif Require Import GoBase GoBaseFacts QueueModel QueueSpec QueueProofs CrowdModel CrowdSpec.
Local Open Scope nat_scope.

Lemma put_same {A} (f : nat -> A) g x : put f g x g = x.
Proof. unfold put. now rewrite Nat.eqb_refl. Qed.
Lemma put_other {A} (f : nat -> A) g k x : k <> g -> put f g x k = f k.
Proof. intro N. unfold put. destruct (Nat.eqb_spec k g); congruence. Qed.
Lemma drop_in g k l : In k (drop g l) <-> In k l /\ k <> g.
Proof. unfold drop. rewrite filter_In. destruct (Nat.eqb_spec k g); cbn; intuition congruence. Qed.
Lemma free_none o : free o = true -> o = None.
Proof. destruct o; [discriminate|reflexivity]. Qed.
Lemma nobody_nil l : nobody l = true -> l = [].
Proof. destruct l; [reflexivity|discriminate]. Qed.

Lemma existsb_in c l : existsb (Nat.eqb c) l = true <-> In c l.
Proof. rewrite existsb_exists. split; [intros (x & I & E); apply Nat.eqb_eq in E; now subst|intro I; exists c; split; [exact I|apply Nat.eqb_refl]]. Qed.

(** ** The locks *)
Definition in_hw (p : place) : bool :=
  match p with DrainHead _ | Waiting (ForAdd _) _ | Write _ | IncHead _ | BcastAdd | UnlockHead => true | _ => false end.
Definition act_hw (p : place) : bool := match p with DrainHead _ => false | _ => in_hw p end.
Definition in_hr (p : place) : bool := match p with ReadLen | RUnlockHead _ => true | _ => false end.
Definition in_tw (p : place) : bool :=
  match p with DrainTail | Waiting ForRemove _ | ReadRemove | IncTail _ | BcastRemove _ | UnlockTail _ => true | _ => false end.
Definition act_tw (p : place) : bool := match p with DrainTail => false | _ => in_tw p end.
Definition in_tr (p : place) : bool :=
  match p with RLockHead | Waiting ForPeek _ | ReadPeek | RUnlockTail _ | ReadLen | RUnlockHead _ => true | _ => false end.
Definition in_cl (p : place) : bool := match p with Waiting _ (Check | Register | Release | LeaveL) => true | _ => false end.
Definition may_reg (p : place) : bool := match p with Waiting _ (Release | Asleep) => true | _ => false end.

Record Locks (s : mstate) : Prop := {
  k_hw : forall g, hw s = Some g <-> in_hw (places s g) = true;
  k_hr : forall g, In g (hr s) <-> in_hr (places s g) = true;
  k_tw : forall g, tw s = Some g <-> in_tw (places s g) = true;
  k_tr : forall g, In g (tr s) <-> in_tr (places s g) = true;
  k_cl : forall g, cl s = Some g <-> in_cl (places s g) = true;
  k_hx : forall g, act_hw (places s g) = true -> hr s = [];
  k_tx : forall g, act_tw (places s g) = true -> tr s = [];
  k_reg : forall g, In g (reg s) -> may_reg (places s g) = true
}.

Lemma act_in_hw p : act_hw p = true -> in_hw p = true.
Proof. destruct p; cbn; congruence. Qed.
Lemma act_in_tw p : act_tw p = true -> in_tw p = true.
Proof. destruct p; cbn; congruence. Qed.

(** all cases of a step *)
Ltac cases St :=
  unfold gstep in St;
  match type of St with context [places ?s ?g] => let E := fresh "E" in destruct (places s g) as [|x|x| | |len| |w ph|x|x| | | |v|v|v| | |r|r] eqn:E end;
  try discriminate St;
  try (match goal with E : places _ _ = Waiting ?w ?ph |- _ => destruct w as [?x| |]; destruct ph; cbv beta iota zeta in St end);
  repeat match type of St with context [if ?b then _ else _] => let B := fresh "B" in destruct b eqn:B; try discriminate St end;
  injection St as <- <-;
  try (match goal with B : free _ = true |- _ => apply free_none in B end);
  try (match goal with B : nobody _ = true |- _ => apply nobody_nil in B end).

Lemma locks_step s g s' es : Locks s -> gstep s g = Some (s', es) -> Locks s'.
Proof.
  intros [L1 L2 L3 L4 L5 L6 L7 L8] St. 
  cases St; (constructor; intro k; cbn [goes with_head with_tail with_cond with_q hw hr tw tr cl reg places mq];
    pose proof (L1 g) as M1; pose proof (L2 g) as M2; pose proof (L3 g) as M3; pose proof (L4 g) as M4; pose proof (L5 g) as M5; pose proof (L6 g) as M6; pose proof (L7 g) as M7; pose proof (L8 g) as M8; rewrite E in M1, M2, M3, M4, M5, M6, M7, M8;
    cbn [in_hw act_hw in_hr in_tw act_tw in_tr in_cl may_reg] in M1, M2, M3, M4, M5, M6, M7, M8;
    specialize (L1 k); specialize (L2 k); specialize (L3 k); specialize (L4 k); specialize (L5 k); specialize (L6 k); specialize (L7 k); specialize (L8 k);
    pose proof (act_in_hw (places s k)) as A1; pose proof (act_in_tw (places s k)) as A2;
    (destruct (Nat.eq_dec k g) as [->|N]; [rewrite ?put_same|rewrite ?put_other by exact N]); cbn [in_hw act_hw in_hr in_tw act_tw in_tr in_cl may_reg In];
    rewrite ?drop_in; try assumption; try (intuition congruence); try discriminate).
  1-3: intro I; apply (proj2 (existsb_in g (reg s))) in I; congruence.
  - intro A. rewrite (L6 A). reflexivity.
  - intro A. rewrite (L7 A). reflexivity.
Qed.

Lemma locks_call s g o : Locks s -> places s g = Out -> Locks (goes s g (entry o)).
Proof.
  intros [L1 L2 L3 L4 L5 L6 L7 L8] E. 
  constructor; intro k; cbn [goes hw hr tw tr cl reg places];
    specialize (L1 k); specialize (L2 k); specialize (L3 k); specialize (L4 k); specialize (L5 k); specialize (L6 k); specialize (L7 k); specialize (L8 k);
    (destruct (Nat.eq_dec k g) as [->|N]; [rewrite put_same, E in *|rewrite put_other by exact N]); try assumption;
    destruct o; cbn in *; assumption || congruence || intuition congruence.
Qed.
Lemma locks_new n : Locks (new_crowd n).
Proof. constructor; intro g; cbn; try (split; (discriminate || intros [])); try reflexivity; try discriminate; intros []. Qed.

(** ** The queue *)
Definition stage_of (p : place) : stage :=
  match p with
  | Out => NotIn
  | LockHead x | DrainHead x | Waiting (ForAdd x) _ | Write x | IncHead x => Before (QAdd x)
  | BcastAdd | UnlockHead => After ODone
  | LockTail | DrainTail | Waiting ForRemove _ | ReadRemove | IncTail _ => Before QRemove
  | BcastRemove v | UnlockTail v => After (OSample v)
  | RLockTail false | Waiting ForPeek _ | ReadPeek => Before QPeek
  | RLockTail true | RLockHead | ReadLen => Before QLen
  | RUnlockHead r | RUnlockTail r => After r
  end.
(** what a goroutine knows about what is stored *)
Definition knows (q : queue) (l : list tsample) (n : nat) (p : place) : Prop :=
  match p with
  | Waiting (ForAdd _) LeaveL | Write _ => length l < n
  | IncHead x => length l < n /\ written q x
  | Waiting (ForRemove | ForPeek) LeaveL | ReadRemove | ReadPeek => l <> []
  | IncTail v => exists r, l = v :: r
  | _ => True
  end.
Record Inv (n : nat) (s : mstate) (l : list tsample) (ps : list point) : Prop := {
  i_locks : Locks s;
  i_rep : Rep (mq s) l;
  i_cap : q_cap (mq s) = n;
  i_lin : fifo_run n [] (ops_of ps) = Some (l, outs_of ps);
  i_turn : forall g, in_turn g ps (stage_of (places s g));
  i_knows : forall g, knows (mq s) l n (places s g)
}.

(** the points a step adds *)
Definition adds (s : mstate) (g : nat) : list point :=
  match places s g with
  | IncHead x => [Takes_effect g (QAdd x) ODone]
  | UnlockHead => [Ends g ODone]
  | IncTail v => [Takes_effect g QRemove (OSample v)]
  | UnlockTail v => [Ends g (OSample v)]
  | ReadPeek => [Takes_effect g QPeek (OSample (read_tail (mq s)))]
  | ReadLen => [Takes_effect g QLen (OLen (q_len (mq s)))]
  | RUnlockTail r => [Ends g r]
  | _ => []
  end.

Lemma seen_app a b : seen_of (a ++ b) = seen_of a ++ seen_of b.
Proof. induction a as [|[] a IH]; cbn; congruence. Qed.
Lemma ops_app a b : ops_of (a ++ b) = ops_of a ++ ops_of b.
Proof. induction a as [|[] a IH]; cbn; congruence. Qed.
Lemma outs_app a b : outs_of (a ++ b) = outs_of a ++ outs_of b.
Proof. induction a as [|[] a IH]; cbn; congruence. Qed.
Lemma fifo_snoc n o : forall os l l1 xs, fifo_run n l os = Some (l1, xs) -> fifo_run n l (os ++ [o]) =
  match fifo_step n l1 o with None => None | Some (l2, x) => Some (l2, xs ++ [x]) end.
Proof.
  induction os as [|a os IH]; intros l l1 xs H; cbn [app fifo_run] in *.
  - injection H as <- <-. destruct (fifo_step n l o) as [[l2 x]|]; reflexivity.
  - destruct (fifo_step n l a) as [[l2 x]|]; [|discriminate]. destruct (fifo_run n l2 os) as [[l3 ys]|] eqn:R; [|discriminate].
    injection H as <- <-. rewrite (IH _ _ _ R). destruct (fifo_step n l3 o) as [[l4 y]|]; reflexivity.
Qed.

Lemma adds_seen s g s' es : gstep s g = Some (s', es) -> seen_of (adds s g) = es.
Proof. intro St. unfold adds. cases St; reflexivity. Qed.
Lemma turn_adds s g s' es ps : gstep s g = Some (s', es) -> (forall k, in_turn k ps (stage_of (places s k))) ->
  forall k, in_turn k (ps ++ adds s g) (stage_of (places s' k)).
Proof.
  intros St T k. pose proof (T k) as Tk. unfold adds.
  cases St; cbn [goes with_head with_tail with_cond with_q places];
    (destruct (Nat.eq_dec k g) as [->|N]; [rewrite put_same; rewrite E in Tk|rewrite put_other by exact N]); cbn [stage_of] in *; rewrite ?app_nil_r; try exact Tk;
    try (apply turn_other; [congruence|exact Tk]);
    try (now apply turn_effect); try (now apply turn_ends); try (destruct len; exact Tk).
Qed.
Lemma turn_call s g o ps : places s g = Out -> (forall k, in_turn k ps (stage_of (places s k))) ->
  forall k, in_turn k (ps ++ [Begins g o]) (stage_of (places (goes s g (entry o)) k)).
Proof.
  intros E T k. pose proof (T k) as Tk. cbn [goes places]. destruct (Nat.eq_dec k g) as [->|N].
  - rewrite put_same. rewrite E in Tk. cbn [stage_of] in Tk. apply turn_begins with (o := o) in Tk. destruct o; exact Tk.
  - rewrite put_other by exact N. apply turn_other; [congruence|exact Tk].
Qed.

(** the steps that leave the queue alone *)
Lemma inv_keep n s l ps pt g p s1 : Inv n s l ps -> mq s1 = mq s -> places s1 = places s -> Locks (goes s1 g p) ->
  (forall k, in_turn k (ps ++ pt) (stage_of (places (goes s1 g p) k))) -> knows (mq s) l n p ->
  ops_of pt = [] /\ outs_of pt = [] \/ (exists o r, ops_of pt = [o] /\ outs_of pt = [r] /\ fifo_step n l o = Some (l, r)) ->
  Inv n (goes s1 g p) l (ps ++ pt).
Proof.
  intros [K R C L T Kn] Q P Lk T' Kp O. constructor; cbn [goes mq places] in *; try rewrite Q; try assumption.
  - rewrite ops_app, outs_app. destruct O as [[-> ->]|(o & r & -> & -> & F)]; [now rewrite !app_nil_r|].
    rewrite (fifo_snoc _ _ _ _ _ _ L), F. reflexivity.
  - intro k. rewrite P. destruct (Nat.eq_dec k g) as [->|N]; [rewrite put_same; exact Kp|rewrite put_other by exact N; apply Kn].
Qed.

Lemma inv_step n s l ps g s' es : Inv n s l ps -> gstep s g = Some (s', es) -> exists l', Inv n s' l' (ps ++ adds s g).
Proof.
  intros I St. pose proof (locks_step _ _ _ _ (i_locks _ _ _ _ I) St) as Lk.
  pose proof (turn_adds _ _ _ _ _ St (i_turn _ _ _ _ I)) as T. pose proof (i_knows _ _ _ _ I g) as Kg.
  pose proof (rep_full _ _ (i_rep _ _ _ _ I)) as Fu. pose proof (rep_empty _ _ (i_rep _ _ _ _ I)) as Em. rewrite (i_cap _ _ _ _ I) in Fu.
  unfold adds in *. cases St; cbn [knows] in Kg;
    try (exists l; apply (inv_keep n s l ps); [exact I|reflexivity|reflexivity|exact Lk|exact T|cbn [knows]; first [exact Logic.I|exact Kg|destruct len; exact Logic.I]|left; split; reflexivity]).
  - exists l. apply (inv_keep n s l ps); [exact I|reflexivity|reflexivity|exact Lk|exact T| |left; split; reflexivity]. cbn [knows].
    symmetry in Fu. apply Nat.eqb_neq in Fu. pose proof (r_len _ _ (i_rep _ _ _ _ I)) as Rl. rewrite (i_cap _ _ _ _ I) in Rl. lia.
  - exists l. apply (inv_keep n s l ps); [exact I|reflexivity|reflexivity|exact Lk|exact T| |left; split; reflexivity]. cbn [knows]. destruct l; congruence.
  - exists l. apply (inv_keep n s l ps); [exact I|reflexivity|reflexivity|exact Lk|exact T| |left; split; reflexivity]. cbn [knows]. destruct l; congruence.
  - (* Write *)
    destruct I as [K R C L T0 Kn]. rewrite <- C in Kg. destruct (rep_write _ x _ R Kg) as [R' W].
    exists l. rewrite app_nil_r in *. constructor; try assumption.
    + cbn. rewrite <- C. unfold q_cap. cbn. apply upd_length.
    + intro k. cbn [goes with_q mq places]. destruct (Nat.eq_dec k g) as [->|N]; [rewrite put_same|rewrite put_other by exact N].
      * cbn [knows]. split; [lia|exact W].
      * specialize (Kn k). pose proof (k_hw _ K g) as Hg. rewrite E in Hg. pose proof (proj2 Hg eq_refl) as Hg'. pose proof (k_hw _ K k) as Hk.
        destruct (places s k); try exact Kn. cbn in Hk. pose proof (proj2 Hk eq_refl). congruence.
  - (* IncHead *)
    destruct I as [K R C L T0 Kn]. destruct Kg as [Lt W]. assert (Lt' := Lt). rewrite <- C in Lt'.
    exists (l ++ [x]). constructor; try assumption.
    + now apply rep_incr_head.
    + rewrite ops_app, outs_app. cbn [ops_of outs_of]. rewrite (fifo_snoc _ _ _ _ _ _ L). cbn [fifo_step].
      destruct (Nat.eqb_spec (length l) n); [lia|]. reflexivity.
    + intro k. cbn [goes with_q mq places]. destruct (Nat.eq_dec k g) as [->|N]; [rewrite put_same; exact Logic.I|rewrite put_other by exact N].
      specialize (Kn k). pose proof (k_hw _ K g) as Hg. rewrite E in Hg. pose proof (proj2 Hg eq_refl) as Hg'. pose proof (k_hw _ K k) as Hk.
      assert (Ne : l ++ [x] <> []) by (destruct l; discriminate).
      destruct (places s k) as [|y|y| | |len| |w ph|y|y| | | |v|v|v| | |r|r]; try exact Logic.I; try exact Ne;
        try (cbn in Hk; pose proof (proj2 Hk eq_refl); congruence).
      * destruct w as [y| |], ph; try exact Logic.I; try exact Ne. cbn in Hk. pose proof (proj2 Hk eq_refl). congruence.
      * destruct Kn as [r ->]. now exists (r ++ [x]).
  - (* ReadRemove *)
    exists l. apply (inv_keep n s l ps); [exact I|reflexivity|reflexivity|exact Lk|exact T| |left; split; reflexivity]. cbn [knows].
    destruct l as [|y l]; [congruence|]. rewrite (rep_read _ _ _ (i_rep _ _ _ _ I)). now exists l.
  - (* IncTail *)
    destruct I as [K R C L T0 Kn]. destruct Kg as [r ->].
    exists r. constructor; try assumption.
    + now apply rep_incr_tail with v.
    + rewrite ops_app, outs_app. cbn [ops_of outs_of]. rewrite (fifo_snoc _ _ _ _ _ _ L). reflexivity.
    + intro k. cbn [goes with_q mq places]. destruct (Nat.eq_dec k g) as [->|N]; [rewrite put_same; exact Logic.I|rewrite put_other by exact N].
      specialize (Kn k). pose proof (k_tw _ K g) as Hg. pose proof (k_tx _ K g) as Xg. rewrite E in Hg, Xg. pose proof (proj2 Hg eq_refl) as Hg'. specialize (Xg eq_refl).
      pose proof (k_tw _ K k) as Hk. pose proof (k_tr _ K k) as Hr. rewrite Xg in Hr.
      destruct (places s k) as [|y|y| | |len| |w ph|y|y| | | |v'|v'|v'| | |r'|r']; try exact Logic.I;
        try (cbn in Hk; pose proof (proj2 Hk eq_refl); congruence); try (cbn in Hr; destruct (proj2 Hr eq_refl)); cbn [knows length] in *.
      * destruct w as [y| |], ph; try exact Logic.I; [lia|..]; [cbn in Hk; pose proof (proj2 Hk eq_refl); congruence|cbn in Hr; destruct (proj2 Hr eq_refl)].
      * lia.
      * split; [lia|apply Kn].
  - (* ReadPeek *)
    exists l. apply (inv_keep n s l ps); [exact I|reflexivity|reflexivity|exact Lk|exact T|exact Logic.I|]. right.
    destruct l as [|y l]; [congruence|]. rewrite (rep_read _ _ _ (i_rep _ _ _ _ I)). repeat eexists.
  - (* ReadLen *)
    exists l. apply (inv_keep n s l ps); [exact I|reflexivity|reflexivity|exact Lk|exact T|exact Logic.I|]. right.
    rewrite (rep_len _ _ (i_rep _ _ _ _ I)). repeat eexists.
Qed.

Lemma inv_new n : 1 <= n -> Inv n (new_crowd n) [] [].
Proof.
  intro H. constructor.
  - apply locks_new.
  - now apply rep_new.
  - cbn. unfold q_cap. cbn. apply repeat_length.
  - reflexivity.
  - intro g. apply turn_nil.
  - intro g. exact Logic.I.
Qed.
Lemma inv_call n s l ps g o : Inv n s l ps -> places s g = Out -> Inv n (goes s g (entry o)) l (ps ++ [Begins g o]).
Proof.
  intros I E. pose proof (turn_call _ _ o _ E (i_turn _ _ _ _ I)) as T. pose proof (locks_call _ _ o (i_locks _ _ _ _ I) E) as Lk. destruct I as [K R C L T0 Kn]. constructor; try assumption.
  - rewrite ops_app, outs_app. cbn [ops_of outs_of]. now rewrite !app_nil_r.
  - intro k. cbn [goes mq places]. destruct (Nat.eq_dec k g) as [->|N]; [rewrite put_same; destruct o; exact Logic.I|rewrite put_other by exact N; apply Kn].
Qed.
Lemma inv_mstep n s l ps a s' es : Inv n s l ps -> mstep s a = Some (s', es) -> exists l' p, Inv n s' l' (ps ++ p) /\ seen_of p = es.
Proof.
  intros I H. destruct a as [g o|g]; cbn [mstep] in H.
  - destruct (places s g) eqn:E; try discriminate. injection H as <- <-. exists l, [Begins g o]. split; [now apply inv_call|reflexivity].
  - destruct (inv_step _ _ _ _ _ _ _ I H) as [l' I']. exists l', (adds s g). split; [exact I'|now apply adds_seen with s'].
Qed.
Lemma inv_run n acts : forall s l ps s' es, Inv n s l ps -> mrun s acts = Some (s', es) -> exists l' p, Inv n s' l' (ps ++ p) /\ seen_of p = es.
Proof.
  induction acts as [|a acts IH]; intros s l ps s' es I; cbn [mrun].
  - intros [= <- <-]. exists l, []. rewrite app_nil_r. split; [exact I|reflexivity].
  - destruct (mstep s a) as [[s1 e1]|] eqn:St; [|discriminate]. destruct (mrun s1 acts) as [[s2 e2]|] eqn:R; [|discriminate]. intros [= <- <-].
    destruct (inv_mstep _ _ _ _ _ _ _ I St) as (l1 & p1 & I1 & E1). destruct (IH _ _ _ _ _ I1 R) as (l2 & p2 & I2 & E2).
    exists l2, (p1 ++ p2). rewrite app_assoc. split; [exact I2|]. now rewrite seen_app, E1, E2.
Qed.
Lemma inv_reached n acts s es : 1 <= n -> mrun (new_crowd n) acts = Some (s, es) -> exists l ps, Inv n s l ps /\ seen_of ps = es.
Proof. intros H R. destruct (inv_run n acts _ _ _ _ _ (inv_new n H) R) as (l & ps & I & E). exists l, ps. split; [exact I|exact E]. Qed.

(** ** Waiting *)
(** the adder that may still store one element without taking cond.L; the remover likewise *)
Definition storing (s : mstate) : Prop := exists g x, places s g = Write x \/ places s g = IncHead x.
Definition removing (s : mstate) : Prop := exists g, places s g = ReadRemove \/ exists v, places s g = IncTail v.
Definition waits_full (s : mstate) (g : nat) : Prop :=
  exists x ph, places s g = Waiting (ForAdd x) ph /\ (ph = Register \/ In g (reg s)).
Definition waits_empty (s : mstate) (g : nat) : Prop :=
  exists w ph, places s g = Waiting w ph /\ (w = ForRemove \/ w = ForPeek) /\ (ph = Register \/ In g (reg s)).

Record Waits (n : nat) (s : mstate) (l : list tsample) : Prop := {
  w_empty0 : forall g w, places s g = Waiting w Register -> w = ForRemove \/ w = ForPeek -> length l = 0 \/ length l = 1 /\ ~ storing s;
  w_empty : forall g, waits_empty s g -> length l <= 1 \/ length l = 2 /\ exists k, places s k = BcastAdd;
  w_full0 : forall g x, places s g = Waiting (ForAdd x) Register -> length l = n \/ S (length l) = n /\ ~ removing s;
  w_full : forall g, waits_full s g -> n <= S (length l) \/ n = S (S (length l)) /\ exists k v, places s k = BcastRemove v;
  w_both : forall g k, waits_full s g -> waits_empty s k -> False
}.

Lemma waits_quiet n s l s' l' : Waits n s l -> length l' = length l ->
  (storing s' -> storing s) -> (removing s' -> removing s) ->
  (forall k, places s k = BcastAdd -> places s' k = BcastAdd) ->
  (forall k v, places s k = BcastRemove v -> places s' k = BcastRemove v) ->
  (forall k w, places s' k = Waiting w Register -> places s k = Waiting w Register) ->
  (forall k, waits_full s' k -> waits_full s k) -> (forall k, waits_empty s' k -> waits_empty s k) -> Waits n s' l'.
Proof.
  intros [W1 W2 W3 W4 W5] L A B C D E F G. constructor; rewrite ?L.
  - intros g w P O. destruct (W1 g w (E _ _ P) O) as [|[? Q]]; [now left|right; split; [assumption|intro X; apply Q, A, X]].
  - intros g P. destruct (W2 g (G _ P)) as [|[? [k Hk]]]; [now left|right]. split; [assumption|]. exists k. now apply C.
  - intros g x P. destruct (W3 g x (E _ _ P)) as [|[? Q]]; [now left|right; split; [assumption|intro X; apply Q, B, X]].
  - intros g P. destruct (W4 g (F _ P)) as [|[? (k & v & Hk)]]; [now left|right]. split; [assumption|]. exists k, v. now apply D.
  - intros g k P Q. exact (W5 g k (F _ P) (G _ Q)).
Qed.

Lemma same_length q l l' : Rep q l -> Rep q l' -> length l = length l'.
Proof. intros A B. apply rep_len in A. apply rep_len in B. unfold zlen in *. lia. Qed.

Lemma hw_unique s g k : Locks s -> in_hw (places s g) = true -> in_hw (places s k) = true -> k = g.
Proof. intros K A B. apply (k_hw _ K) in A. apply (k_hw _ K) in B. congruence. Qed.
Lemma cl_unique s g k : Locks s -> in_cl (places s g) = true -> in_cl (places s k) = true -> k = g.
Proof. intros K A B. apply (k_cl _ K) in A. apply (k_cl _ K) in B. congruence. Qed.
Lemma tw_unique s g k : Locks s -> in_tw (places s g) = true -> in_tw (places s k) = true -> k = g.
Proof. intros K A B. apply (k_tw _ K) in A. apply (k_tw _ K) in B. congruence. Qed.
Lemma tw_no_tr s g k : Locks s -> act_tw (places s g) = true -> in_tr (places s k) = true -> False.
Proof. intros K A B. apply (k_tx _ K) in A. apply (k_tr _ K) in B. rewrite A in B. exact B. Qed.
Lemma full_in_hw s g : waits_full s g -> in_hw (places s g) = true.
Proof. intros (x & ph & -> & _). reflexivity. Qed.
Lemma empty_in_tail s g : waits_empty s g -> act_tw (places s g) = true \/ in_tr (places s g) = true.
Proof. intros (w & ph & -> & [->| ->] & _); [left|right]; reflexivity. Qed.

Ltac at_k k g := let N := fresh "Ne" in destruct (Nat.eq_dec k g) as [->|N]; [rewrite ?put_same in *|rewrite ?put_other in * by exact N].
Ltac fields := cbn [goes with_head with_tail with_cond with_q places reg].
Ltac dull P := first [discriminate P|match type of P with context [if ?b then _ else _] => destruct b; discriminate P end].
Ltac quiet1 g E := unfold storing; fields; let k := fresh "k" in intros (k & y & P); at_k k g; [destruct P as [P|P]; first [dull P|exists g; eexists; left; exact E]|exists k, y; exact P].
Ltac quiet2 g E := unfold removing; fields; let k := fresh "k" in intros (k & P); at_k k g; [destruct P as [P|[y P]]; first [dull P|exists g; left; exact E]|exists k; exact P].
Ltac quiet3 g E := fields; let k := fresh "k" in intros k P; at_k k g; [congruence|exact P].
Ltac quiet4 g E := fields; let k := fresh "k" in intros k y P; at_k k g; [congruence|exact P].
Ltac quiet5 g E := fields; let k := fresh "k" in intros k y P; at_k k g; [dull P|exact P].
Ltac quiet6 g E := unfold waits_full; fields; let k := fresh "k" in intros k (y & ph & P & Q); at_k k g;
      [first [dull P|injection P as <- <-; cbn [In] in Q; exfalso; intuition congruence|injection P as <- <-; eexists _, _; split; [exact E|]; cbn [In] in Q; intuition congruence]
      |exists y, ph; split; [exact P|]; cbn [In] in Q; intuition congruence].
Ltac quiet7 g E := unfold waits_empty; fields; let k := fresh "k" in intros k (y & ph & P & O & Q); at_k k g;
      [first [dull P|injection P as <- <-; cbn [In] in Q; exfalso; intuition congruence|injection P as <- <-; eexists _, _; split; [exact E|]; split; [exact O|]; cbn [In] in Q; intuition congruence]
      |exists y, ph; split; [exact P|]; split; [exact O|]; cbn [In] in Q; intuition congruence].

Lemma waits_step n s l ps g s' es l' ps' : 2 <= n -> Inv n s l ps -> Waits n s l -> gstep s g = Some (s', es) -> Inv n s' l' ps' -> Waits n s' l'.
Proof.
  intros N2 I W St I'. pose proof (i_locks _ _ _ _ I) as K. pose proof (i_rep _ _ _ _ I) as R. pose proof (i_rep _ _ _ _ I') as R'. pose proof (i_cap _ _ _ _ I) as C.
  pose proof (k_reg _ K g) as Rg. pose proof (rep_full _ _ R) as Fu. pose proof (rep_empty _ _ R) as Em. rewrite C in Fu.
  pose proof (i_knows _ _ _ _ I g) as Kg.
  assert (Le : q_len (mq s') = q_len (mq s) -> length l' = length l) by (rewrite (rep_len _ _ R), (rep_len _ _ R'); unfold zlen; lia).
  cases St; try rewrite E in Rg; cbn [may_reg] in Rg;
  try (apply (waits_quiet n s l); [exact W|apply Le; reflexivity|quiet1 g E|quiet2 g E|quiet3 g E|quiet4 g E|quiet5 g E|quiet6 g E|quiet7 g E]; fail).
  - (* an adder finds the queue full *)
    assert (Ll : length l' = length l) by (apply Le; reflexivity). symmetry in Fu. apply Nat.eqb_eq in Fu.
    destruct W as [W1 W2 W3 W4 W5]. 
    assert (Qe : forall k, waits_empty (goes s g (Waiting (ForAdd x) Register)) k -> waits_empty s k) by quiet7 g E.
    assert (Hw : forall k, places s k = BcastAdd -> k = g) by (intros k P; apply (hw_unique s g k K); [rewrite E|rewrite P]; reflexivity).
    constructor; rewrite ?Ll.
    + intros k w P O. left.
      assert (P' : places s k = Waiting w Register) by (revert P; fields; at_k k g; [intros [= <-]; destruct O; congruence|tauto]).
      destruct (W1 k w P' O) as [|[L1 _]]; lia.
    + intros k P. destruct (W2 k (Qe _ P)) as [|[L2 [k' Hk]]]; [now left|]. rewrite (Hw _ Hk) in Hk. congruence.
    + intros k y P. now left.
    + intros k P. left. lia.
    + intros k k' P Q. destruct (W2 k' (Qe _ Q)) as [L1|[L2 [k2 Hk]]]; [lia|]. rewrite (Hw _ Hk) in Hk. congruence.
  - (* an adder leaves the loop *)
    assert (Ll : length l' = length l) by (apply Le; reflexivity). destruct W as [W1 W2 W3 W4 W5].
    assert (Cl : forall k w, places s k <> Waiting w Register).
    { intros k w P. pose proof (cl_unique s g k K) as U. rewrite E, P in U. rewrite (U eq_refl eq_refl) in P. congruence. }
    set (s1 := goes (with_cond s None (reg s)) g (Write x)) in *.
    assert (Cl' : forall k w, places s1 k <> Waiting w Register).
    { intros k w. unfold s1. fields. at_k k g; [discriminate|apply Cl]. }
    assert (Qe : forall k, waits_empty s1 k -> waits_empty s k) by (unfold s1; quiet7 g E).
    assert (Qf : forall k, waits_full s1 k -> waits_full s k) by (unfold s1; quiet6 g E).
    constructor; rewrite ?Ll.
    + intros k w P. destruct (Cl' _ _ P).
    + intros k P. destruct (W2 k (Qe _ P)) as [|[L2 [k' Hk]]]; [now left|right]. split; [exact L2|]. exists k'. unfold s1. fields. at_k k' g; congruence.
    + intros k w P. destruct (Cl' _ _ P).
    + intros k P. destruct (W4 k (Qf _ P)) as [|[L2 (k' & v & Hk)]]; [now left|right]. split; [exact L2|]. exists k', v. unfold s1. fields. at_k k' g; congruence.
    + intros k k' P Q. exact (W5 k k' (Qf _ P) (Qe _ Q)).
  - (* a remover finds the queue empty *)
    assert (L0 : l = []) by (destruct l; congruence). subst l. apply length_zero_iff_nil in Le; [|reflexivity]. subst l'.
    destruct W as [W1 W2 W3 W4 W5].
    assert (Qf : forall k, waits_full (goes s g (Waiting ForRemove Register)) k -> waits_full s k) by quiet6 g E.
    assert (Hw : forall k v, places s k = BcastRemove v -> k = g) by (intros k v P; apply (tw_unique s g k K); [rewrite E|rewrite P]; reflexivity).
    constructor; cbn [length].
    + intros k w P O. now left.
    + intros k P. left. lia.
    + intros k x P. exfalso.
      assert (P' : places s k = Waiting (ForAdd x) Register) by (revert P; fields; at_k k g; [discriminate|tauto]).
      destruct (W3 k x P') as [X|[X _]]; cbn in X; lia.
    + intros k P. exfalso. destruct (W4 k (Qf _ P)) as [X|[X (k' & v & Hk)]]; [cbn in X; lia|]. pose proof (Hw _ _ Hk). congruence.
    + intros k k' P Q. destruct (W4 k (Qf _ P)) as [X|[X (k2 & v & Hk)]]; [cbn in X; lia|]. pose proof (Hw _ _ Hk). congruence.
  - (* a remover leaves the loop *)
    assert (Ll : length l' = length l) by (apply Le; reflexivity). destruct W as [W1 W2 W3 W4 W5].
    assert (Cl : forall k w, places s k <> Waiting w Register).
    { intros k w P. pose proof (cl_unique s g k K) as U. rewrite E, P in U. rewrite (U eq_refl eq_refl) in P. congruence. }
    set (s1 := goes (with_cond s None (reg s)) g ReadRemove) in *.
    assert (Cl' : forall k w, places s1 k <> Waiting w Register).
    { intros k w. unfold s1. fields. at_k k g; [discriminate|apply Cl]. }
    assert (Qe : forall k, waits_empty s1 k -> waits_empty s k) by (unfold s1; quiet7 g E).
    assert (Qf : forall k, waits_full s1 k -> waits_full s k) by (unfold s1; quiet6 g E).
    constructor; rewrite ?Ll.
    + intros k w P. destruct (Cl' _ _ P).
    + intros k P. destruct (W2 k (Qe _ P)) as [|[L2 [k' Hk]]]; [now left|right]. split; [exact L2|]. exists k'. unfold s1. fields. at_k k' g; congruence.
    + intros k w P. destruct (Cl' _ _ P).
    + intros k P. destruct (W4 k (Qf _ P)) as [|[L2 (k' & v & Hk)]]; [now left|right]. split; [exact L2|]. exists k', v. unfold s1. fields. at_k k' g; congruence.
    + intros k k' P Q. exact (W5 k k' (Qf _ P) (Qe _ Q)).
  - (* a peeker finds the queue empty *)
    assert (L0 : l = []) by (destruct l; congruence). subst l. apply length_zero_iff_nil in Le; [|reflexivity]. subst l'.
    destruct W as [W1 W2 W3 W4 W5].
    assert (Qf : forall k, waits_full (goes s g (Waiting ForPeek Register)) k -> waits_full s k) by quiet6 g E.
    assert (Hw : forall k v, places s k = BcastRemove v -> False) by (intros k v P; apply (tw_no_tr s k g K); [rewrite P|rewrite E]; reflexivity).
    constructor; cbn [length].
    + intros k w P O. now left.
    + intros k P. left. lia.
    + intros k x P. exfalso.
      assert (P' : places s k = Waiting (ForAdd x) Register) by (revert P; fields; at_k k g; [discriminate|tauto]).
      destruct (W3 k x P') as [X|[X _]]; cbn in X; lia.
    + intros k P. exfalso. destruct (W4 k (Qf _ P)) as [X|[X (k' & v & Hk)]]; [cbn in X; lia|]. exact (Hw _ _ Hk).
    + intros k k' P Q. destruct (W4 k (Qf _ P)) as [X|[X (k2 & v & Hk)]]; [cbn in X; lia|]. exact (Hw _ _ Hk).
  - (* Write *)
    apply (waits_quiet n s l); [exact W| |quiet1 g E|quiet2 g E|quiet3 g E|quiet4 g E|quiet5 g E|quiet6 g E|quiet7 g E].
    apply Le. cbn [goes with_q mq]. unfold q_len, q_cap, write_head. cbn [buf head tail]. now rewrite upd_length.
  - (* IncHead *)
    destruct Kg as [Lt Wr]. pose proof Lt as Lt'. rewrite <- C in Lt'. pose proof (same_length _ _ _ R' (rep_incr_head _ _ _ R Lt' Wr)) as Ll. rewrite app_length in Ll. cbn in Ll.
    destruct W as [W1 W2 W3 W4 W5]. set (s1 := goes (with_q s (incr_head (mq s))) g BcastAdd) in *.
    assert (Hw : forall k, in_hw (places s k) = true -> k = g) by (intros k P; apply (hw_unique s g k K); [rewrite E; reflexivity|exact P]).
    assert (Ns : ~ storing s1).
    { unfold storing, s1. fields. intros (k & y & P). at_k k g; [destruct P; discriminate|]. apply Ne, Hw. destruct P as [->| ->]; reflexivity. }
    assert (Qe : forall k, waits_empty s1 k -> waits_empty s k) by (unfold s1; quiet7 g E).
    assert (Nf : forall k, ~ waits_full s1 k).
    { unfold waits_full, s1. fields. intros k (y & ph & P & Q). at_k k g; [discriminate|]. apply Ne, Hw. now rewrite P. }
    constructor.
    + intros k w P O. right. split; [|exact Ns].
      assert (P' : places s k = Waiting w Register) by (revert P; unfold s1; fields; at_k k g; [discriminate|tauto]).
      destruct (W1 k w P' O) as [|[_ X]]; [lia|]. destruct X. exists g, x. now right.
    + intros k P. destruct (W2 k (Qe _ P)) as [L1|[L2 [k' Hk]]].
      * destruct (Nat.eq_dec (length l) 0); [left; lia|right]. split; [lia|]. exists g. unfold s1. fields. apply put_same.
      * assert (k' = g) by (apply Hw; now rewrite Hk). congruence.
    + intros k y P. destruct (Nf k). exists y, Register. split; [exact P|now left].
    + intros k P. destruct (Nf k P).
    + intros k k' P _. exact (Nf k P).
  - (* BcastAdd *)
    assert (Ll : length l' = length l) by (apply Le; reflexivity). destruct W as [W1 W2 W3 W4 W5]. set (s1 := goes (with_cond s (cl s) []) g UnlockHead) in *.
    assert (Re : forall k w, places s1 k = Waiting w Register -> places s k = Waiting w Register) by (unfold s1; quiet5 g E).
    assert (Es : storing s1 -> storing s) by (unfold s1; quiet1 g E).
    assert (Er : removing s1 -> removing s) by (unfold s1; quiet2 g E).
    assert (Pe : forall k, waits_empty s1 k -> exists w, places s1 k = Waiting w Register /\ (w = ForRemove \/ w = ForPeek)).
    { intros k (w & ph & P & O & [->|[]]). eauto. }
    assert (Pf : forall k, waits_full s1 k -> exists x, places s1 k = Waiting (ForAdd x) Register).
    { intros k (x & ph & P & [->|[]]). eauto. }
    constructor; rewrite ?Ll.
    + intros k w P O. destruct (W1 k w (Re _ _ P) O) as [|[X Y]]; [now left|right; split; [exact X|tauto]].
    + intros k P. destruct (Pe _ P) as (w & P' & O). destruct (W1 k w (Re _ _ P') O) as [|[X Y]]; left; lia.
    + intros k w P. destruct (W3 k w (Re _ _ P)) as [|[X Y]]; [now left|right; split; [exact X|tauto]].
    + intros k P. destruct (Pf _ P) as (w & P'). destruct (W3 k w (Re _ _ P')) as [|[X Y]]; left; lia.
    + intros k k' P Q. destruct (Pe _ Q) as (w & Q' & O). destruct (Pf _ P) as (x & P').
      apply (W5 k k'); [exists x, Register|exists w, Register]; auto.
  - (* IncTail *)
    destruct Kg as [r Lr]. rewrite Lr in R. pose proof (same_length _ _ _ R' (rep_incr_tail _ _ _ R)) as Ll. assert (Ls : length l = S (length l')) by (rewrite Lr, Ll; reflexivity).
    destruct W as [W1 W2 W3 W4 W5]. set (s1 := goes (with_q s (incr_tail (mq s))) g (BcastRemove v)) in *.
    assert (Hw : forall k, in_tw (places s k) = true -> k = g) by (intros k P; apply (tw_unique s g k K); [rewrite E; reflexivity|exact P]).
    assert (Ht : forall k, in_tr (places s k) = true -> False) by (intros k P; apply (tw_no_tr s g k K); [rewrite E; reflexivity|exact P]).
    assert (Nr : ~ removing s1).
    { unfold removing, s1. fields. intros (k & P). at_k k g; [destruct P as [P|[y P]]; discriminate|]. apply Ne, Hw. destruct P as [->|[y ->]]; reflexivity. }
    assert (Qf : forall k, waits_full s1 k -> waits_full s k) by (unfold s1; quiet6 g E).
    assert (Nf : forall k, ~ waits_empty s1 k).
    { unfold waits_empty, s1. fields. intros k (w & ph & P & O & Q). at_k k g; [discriminate|].
      destruct O as [->| ->]; [apply Ne, Hw|apply (Ht k)]; now rewrite P. }
    constructor.
    + intros k w P O. destruct (Nf k). exists w, Register. auto.
    + intros k P. destruct (Nf k P).
    + intros k x P. right. split; [|exact Nr].
      assert (P' : places s k = Waiting (ForAdd x) Register) by (revert P; unfold s1; fields; at_k k g; [discriminate|tauto]).
      destruct (W3 k x P') as [|[_ X]]; [lia|]. destruct X. exists g. right. now exists v.
    + intros k P. destruct (W4 k (Qf _ P)) as [L1|[L2 (k' & v' & Hk)]].
      * destruct (Nat.eq_dec n (length l)); [left; lia|]. pose proof (r_len _ _ R) as Rl. rewrite Lr in *. rewrite C in Rl. 
        right. split; [lia|]. exists g, v. unfold s1. fields. apply put_same.
      * assert (k' = g) by (apply Hw; now rewrite Hk). congruence.
    + intros k k' _ Q. exact (Nf k' Q).
  - (* BcastRemove *)
    assert (Ll : length l' = length l) by (apply Le; reflexivity). destruct W as [W1 W2 W3 W4 W5]. set (s1 := goes (with_cond s (cl s) []) g (UnlockTail v)) in *.
    assert (Re : forall k w, places s1 k = Waiting w Register -> places s k = Waiting w Register) by (unfold s1; quiet5 g E).
    assert (Es : storing s1 -> storing s) by (unfold s1; quiet1 g E).
    assert (Er : removing s1 -> removing s) by (unfold s1; quiet2 g E).
    assert (Pe : forall k, waits_empty s1 k -> exists w, places s1 k = Waiting w Register /\ (w = ForRemove \/ w = ForPeek)).
    { intros k (w & ph & P & O & [->|[]]). eauto. }
    assert (Pf : forall k, waits_full s1 k -> exists x, places s1 k = Waiting (ForAdd x) Register).
    { intros k (x & ph & P & [->|[]]). eauto. }
    constructor; rewrite ?Ll.
    + intros k w P O. destruct (W1 k w (Re _ _ P) O) as [|[X Y]]; [now left|right; split; [exact X|tauto]].
    + intros k P. destruct (Pe _ P) as (w & P' & O). destruct (W1 k w (Re _ _ P') O) as [|[X Y]]; left; lia.
    + intros k w P. destruct (W3 k w (Re _ _ P)) as [|[X Y]]; [now left|right; split; [exact X|tauto]].
    + intros k P. destruct (Pf _ P) as (w & P'). destruct (W3 k w (Re _ _ P')) as [|[X Y]]; left; lia.
    + intros k k' P Q. destruct (Pe _ Q) as (w & Q' & O). destruct (Pf _ P) as (x & P').
      apply (W5 k k'); [exists x, Register|exists w, Register]; auto.
Qed.

Lemma waits_call n s l g o : Waits n s l -> places s g = Out -> Waits n (goes s g (entry o)) l.
Proof.
  intros W E.
  apply (waits_quiet n s l); [exact W|reflexivity|..]; unfold storing, removing, waits_full, waits_empty; fields.
  - intros (k & y & P). at_k k g; [destruct o, P; discriminate|exists k, y; exact P].
  - intros (k & P). at_k k g; [destruct o, P as [P|[y P]]; discriminate|exists k; exact P].
  - intros k P. at_k k g; [congruence|exact P].
  - intros k v P. at_k k g; [congruence|exact P].
  - intros k w P. at_k k g; [destruct o; discriminate|exact P].
  - intros k (y & ph & P & Q). at_k k g; [destruct o; discriminate|exists y, ph; auto].
  - intros k (y & ph & P & O & Q). at_k k g; [destruct o; discriminate|exists y, ph; auto].
Qed.
Lemma waits_new n : Waits n (new_crowd n) [].
Proof.
  constructor; cbn.
  - discriminate.
  - intros g (w & ph & P & _). discriminate.
  - discriminate.
  - intros g (w & ph & P & _). discriminate.
  - intros g k (w & ph & P & _). discriminate.
Qed.

(** nobody is in Len *)
Definition len_place (p : place) : bool := match p with RLockTail true | RLockHead | ReadLen | RUnlockHead _ => true | _ => false end.
Definition NoLen (s : mstate) : Prop := forall g, len_place (places s g) = false.
Lemma nolen_step s g s' es : NoLen s -> gstep s g = Some (s', es) -> NoLen s'.
Proof.
  intros A St k. pose proof (A k) as Ak. pose proof (A g) as Ag.
  cases St; fields; at_k k g; rewrite ?E in *; try exact Ak; try reflexivity; try discriminate.
Qed.


Lemma waits_run n acts : 2 <= n -> no_len acts -> forall s l ps s' es, Inv n s l ps -> Waits n s l -> NoLen s -> mrun s acts = Some (s', es) ->
  exists l' p, Inv n s' l' (ps ++ p) /\ seen_of p = es /\ Waits n s' l' /\ NoLen s'.
Proof.
  intro N2. induction acts as [|a acts IH]; intros NL s l ps s' es I W A; cbn [mrun].
  - intros [= <- <-]. exists l, []. rewrite app_nil_r. auto.
  - destruct (mstep s a) as [[s1 e1]|] eqn:St; [|discriminate]. destruct (mrun s1 acts) as [[s2 e2]|] eqn:R; [|discriminate]. intros [= <- <-].
    destruct (inv_mstep _ _ _ _ _ _ _ I St) as (l1 & p1 & I1 & E1).
    assert (X : exists l1 p1, Inv n s1 l1 (ps ++ p1) /\ seen_of p1 = e1 /\ Waits n s1 l1 /\ NoLen s1).
    { destruct a as [g o|g]; cbn [mstep] in St.
      - destruct (places s g) eqn:E; try discriminate. injection St as <- <-. exists l, [Begins g o].
        split; [now apply inv_call|split; [reflexivity|split; [now apply waits_call|]]].
        intro k. fields. at_k k g; [|apply A]. destruct o; try reflexivity. destruct (NL g). now left.
      - exists l1, p1. split; [exact I1|split; [exact E1|split]]; [exact (waits_step _ _ _ _ _ _ _ _ _ N2 I W St I1)|exact (nolen_step _ _ _ _ A St)]. }
    destruct X as (l1' & p1' & I1' & E1' & W1 & A1).
    assert (NL' : no_len acts) by (intros g H; apply (NL g); now right).
    destruct (IH NL' _ _ _ _ _ I1' W1 A1 R) as (l2 & p2 & I2 & E2 & W2 & A2).
    exists l2, (p1' ++ p2). rewrite app_assoc, seen_app, E1', E2. auto.
Qed.

(** ** Pending calls *)
Lemma pending_snoc es e g o : pending (es ++ [e]) g o <-> e = Called g o \/ (pending es g o /\ forall r, e <> Returned g r).
Proof.
  split.
  - intros (a & b & E & N). induction b as [|y b' _] using rev_ind.
    + apply app_inj_tail in E. destruct E as [_ ->]. now left.
    + change (a ++ Called g o :: b' ++ [y]) with (a ++ (Called g o :: b') ++ [y]) in E. rewrite app_assoc in E.
      apply app_inj_tail in E. destruct E as [-> <-]. right. split.
      * exists a, b'. split; [reflexivity|]. intros r H. apply (N r), in_or_app. now left.
      * intros r ->. apply (N r), in_or_app. right. now left.
  - intros [->|[(a & b & -> & N) R]].
    + exists es, []. split; [reflexivity|intros r []].
    + exists a, (b ++ [e]). split; [now rewrite <- app_assoc|]. intros r H. apply in_app_or in H. destruct H as [H|[H|[]]]; [exact (N r H)|exact (R r H)].
Qed.
Lemma turn_pending g ps st : in_turn g ps st ->
  match st with NotIn => forall o, ~ pending (seen_of ps) g o | Before o => forall o', pending (seen_of ps) g o' <-> o' = o | After _ => True end.
Proof.
  induction 1 as [|ps o T IH|ps o r T IH|ps r T IH|ps st p N T IH].
  - intros o (a & b & E & _). destruct a; discriminate.
  - intro o'. rewrite seen_app. cbn [seen_of]. rewrite pending_snoc. split; [intros [[=]|[P _]]; [congruence|destruct (IH _ P)]|intros ->; now left].
  - exact Logic.I.
  - intro o. rewrite seen_app. cbn [seen_of]. rewrite pending_snoc. intros [[=]|[_ P]]. now apply (P r).
  - assert (X : forall o, pending (seen_of (ps ++ [p])) g o <-> pending (seen_of ps) g o).
    { intro o. rewrite seen_app. destruct p; cbn [seen_of]; [|now rewrite app_nil_r|];
        rewrite pending_snoc; (split; [intros [X|[P _]]; [congruence|exact P]|intro P; right; split; [exact P|intros ? [=]; congruence]]). }
    destruct st; [|intro o'|exact Logic.I]; [intro o|]; rewrite X; [apply IH|apply IH].
Qed.

(** ** Where everybody stands if nobody can go on *)
Lemma stuck_places s g : Locks s -> NoLen s -> stuck s ->
  match places s g with
  | Out => True
  | LockHead _ => exists k, waits_full s k
  | Waiting (ForAdd _) Asleep => waits_full s g
  | LockTail | RLockTail false | DrainTail => exists k, waits_empty s k
  | Waiting _ Asleep => waits_empty s g
  | _ => False
  end.
Proof.
  intros K A Sk0. assert (Hr : hr s = []).
  { destruct (hr s) as [|k r] eqn:E; [reflexivity|]. assert (J : In k (hr s)) by (rewrite E; now left).
    apply (k_hr _ K) in J. pose proof (A k) as Ak. destruct (places s k); discriminate. }
  assert (Cl : cl s = None).
  { destruct (cl s) as [k|] eqn:E; [exfalso|reflexivity]. pose proof (proj1 (k_cl _ K k) E) as P. pose proof (Sk0 k) as Sk. cbn [mstep] in Sk. unfold gstep in Sk.
    destruct (places s k) as [|x|x| | |len| |w ph|x|x| | | |v|v|v| | |r|r]; try discriminate P. destruct ph; discriminate. }
  assert (Full : forall k, in_hw (places s k) = true -> waits_full s k).
  { intros k P. pose proof (Sk0 k) as Sk. cbn [mstep] in Sk. unfold gstep in Sk. rewrite Hr, Cl in Sk. unfold waits_full.
    destruct (places s k) as [|x|x| | |len| |w ph|x|x| | | |v|v|v| | |r|r]; try discriminate P; try discriminate Sk. destruct w as [x| |]; try discriminate P.
    destruct ph; try discriminate Sk. destruct (existsb (Nat.eqb k) (reg s)) eqn:B; [|discriminate]. apply existsb_in in B. exists x, Asleep. auto. }
  assert (Trd : forall k, in_tr (places s k) = true -> waits_empty s k).
  { intros k P. pose proof (Sk0 k) as Sk. pose proof (A k) as Ak. cbn [mstep] in Sk. unfold gstep in Sk. rewrite Cl in Sk. unfold waits_empty.
    destruct (places s k) as [|x|x| | |len| |w ph|x|x| | | |v|v|v| | |r|r]; try discriminate P; try discriminate Ak; try discriminate Sk. destruct w as [x| |]; try discriminate P.
    destruct ph; try discriminate Sk. destruct (existsb (Nat.eqb k) (reg s)) eqn:B; [|discriminate]. apply existsb_in in B. exists ForPeek, Asleep. auto. }
  assert (Twr : forall k, in_tw (places s k) = true -> exists k', waits_empty s k').
  { intros k P. pose proof (Sk0 k) as Sk. cbn [mstep] in Sk. unfold gstep in Sk. rewrite Cl in Sk.
    destruct (places s k) as [|x|x| | |len| |w ph|x|x| | | |v|v|v| | |r|r] eqn:Pk; try discriminate P; try discriminate Sk.
    - destruct (tr s) as [|k' r] eqn:E; [discriminate|]. exists k'. apply Trd, (k_tr _ K). rewrite E. now left.
    - destruct w as [x| |]; try discriminate P.
      destruct ph; try discriminate Sk. destruct (existsb (Nat.eqb k) (reg s)) eqn:B; [|discriminate]. apply existsb_in in B. exists k, ForRemove, Asleep. auto. }
  pose proof (Sk0 g) as Sg. pose proof (A g) as Ag. pose proof (Full g) as Fg. pose proof (Trd g) as Tg. pose proof (Twr g) as Wg. cbn [mstep] in Sg. unfold gstep in Sg. rewrite Hr, Cl in Sg.
  destruct (places s g) as [|x|x| | |len| |w ph|x|x| | | |v|v|v| | |r|r] eqn:P; try discriminate Sg; try discriminate Ag.
  - exact Logic.I.
  - destruct (hw s) as [k|] eqn:H; [|discriminate]. exists k. apply Full, (k_hw _ K), H.
  - destruct (tw s) as [k|] eqn:H; [|discriminate]. apply (Twr k), (k_tw _ K), H.
  - now apply Wg.
  - destruct len; [discriminate|]. destruct (tw s) as [k|] eqn:H; [|discriminate]. apply (Twr k), (k_tw _ K), H.
  - destruct w as [x| |], ph; try discriminate Sg; [now apply Fg| |now apply Tg].
    destruct (existsb (Nat.eqb g) (reg s)) eqn:B; [|discriminate]. apply existsb_in in B. exists ForRemove, Asleep. auto.
Qed.

Lemma stuck_pending n s l ps : Inv n s l ps -> Waits n s l -> NoLen s -> stuck s ->
  (forall g, adding (seen_of ps) g -> n <= S (length l) /\ exists k, waits_full s k) /\
  (forall g, taking (seen_of ps) g -> length l <= 1 /\ exists k, waits_empty s k).
Proof.
  intros I W A Sk0. pose proof (i_locks _ _ _ _ I) as K.
  assert (NF : forall k, waits_full s k -> n <= S (length l)).
  { intros k P. destruct (w_full _ _ _ W k P) as [|[_ (k' & v & Q)]]; [assumption|]. pose proof (stuck_places s k' K A Sk0) as X. rewrite Q in X. destruct X. }
  assert (NE : forall k, waits_empty s k -> length l <= 1).
  { intros k P. destruct (w_empty _ _ _ W k P) as [|[_ (k' & Q)]]; [assumption|]. pose proof (stuck_places s k' K A Sk0) as X. rewrite Q in X. destruct X. }
  split; intros g P.
  - assert (X : exists k, waits_full s k); [|split; [destruct X as [k Hk]; exact (NF k Hk)|exact X]].
    destruct P as [x P]. pose proof (stuck_places s g K A Sk0) as Sg. pose proof (turn_pending _ _ _ (i_turn _ _ _ _ I g)) as T.
    destruct (places s g) as [|y|y| | |len| |w ph|y|y| | | |v|v|v| | |r|r]; cbn [stage_of] in T; try destruct Sg; try destruct len; try (destruct w as [y| |], ph); cbn [stage_of] in T;
      try (destruct Sg; fail); try (apply T in P; destruct P; fail); try (apply T in P; discriminate P); eauto.
  - assert (X : exists k, waits_empty s k); [|split; [destruct X as [k Hk]; exact (NE k Hk)|exact X]].
    pose proof (stuck_places s g K A Sk0) as Sg. pose proof (turn_pending _ _ _ (i_turn _ _ _ _ I g)) as T.
    destruct (places s g) as [|y|y| | |len| |w ph|y|y| | | |v|v|v| | |r|r]; cbn [stage_of] in T; try (destruct Sg; fail); try destruct len; try (destruct w as [y| |], ph); cbn [stage_of] in T;
      try (destruct Sg; fail); try (destruct P as [P|P]; apply T in P; destruct P; fail); try (destruct P as [P|P]; apply T in P; discriminate P); eauto.
Qed.

(** ** Len and a full queue *)
Record Dead (s : mstate) : Prop := {
  d_hw : exists a x, hw s = Some a /\ places s a = Waiting (ForAdd x) Asleep /\ In a (reg s);
  d_tr : exists k, In k (tr s) /\ places s k = RLockHead;
  d_tw : exists r, tw s = Some r /\ places s r = DrainTail;
  d_all : forall g, match places s g with
    | Out | LockHead _ | LockTail | RLockTail _ | RLockHead | DrainTail => True
    | Waiting (ForAdd _) Asleep => hw s = Some g /\ In g (reg s) | _ => False end
}.
Lemma dead_step s g : Dead s -> gstep s g = None.
Proof.
  intros [(a & x & H & Pa & Ra) (k & Tk & Pk) (r & Tr & Pr) All]. specialize (All g). unfold gstep. rewrite H, Tr.
  destruct (places s g) as [|y|y| | |len| |w ph|y|y| | | |v|v|v| | |q|q]; try destruct All; try reflexivity.
  - destruct (tr s); [destruct Tk|reflexivity].
  - destruct w as [y| |], ph; try destruct All. apply existsb_in in H1. now rewrite H1.
Qed.
Lemma dead_call s g o : Dead s -> places s g = Out -> Dead (goes s g (entry o)).
Proof.
  intros [(a & x & H & Pa & Ra) (k & Tk & Pk) (r & Tr & Pr) All] E. constructor; cbn [goes hw hr tw tr reg places].
  - exists a, x. rewrite put_other by congruence. auto.
  - exists k. rewrite put_other by congruence. auto.
  - exists r. rewrite put_other by congruence. auto.
  - intro j. at_k j g; [destruct o; exact Logic.I|apply All].
Qed.
Lemma dead_run acts : forall s s' es g r, Dead s -> mrun s acts = Some (s', es) -> ~ In (Returned g r) es.
Proof.
  induction acts as [|a acts IH]; intros s s' es g r D; cbn [mrun].
  - intros [= <- <-] [].
  - destruct a as [h o|h]; cbn [mstep]; [|now rewrite (dead_step _ h D)].
    destruct (places s h) eqn:E; try discriminate. destruct (mrun _ acts) as [[s2 e2]|] eqn:R; [|discriminate]. intros [= <- <-] [H|H]; [discriminate|].
    exact (IH _ _ _ _ _ (dead_call _ _ o D E) R H).
Qed.

Record idle (s : mstate) : Prop := {
  o_hw : hw s = None; o_hr : hr s = []; o_tw : tw s = None; o_tr : tr s = []; o_cl : cl s = None; o_out : forall g, places s g = Out
}.
Lemma mrun_app a : forall s s1 e1 b, mrun s a = Some (s1, e1) -> mrun s (a ++ b) = match mrun s1 b with None => None | Some (s2, e2) => Some (s2, e1 ++ e2) end.
Proof.
  induction a as [|x a IH]; intros s s1 e1 b; cbn [app mrun].
  - intros [= <- <-]. destruct (mrun s b) as [[s2 e2]|]; reflexivity.
  - destruct (mstep s x) as [[s2 e2]|]; [|discriminate]. destruct (mrun s2 a) as [[s3 e3]|] eqn:R; [|discriminate]. intros [= <- <-].
    rewrite (IH _ _ _ b R). destruct (mrun s3 b) as [[s4 e4]|]; [|reflexivity]. now rewrite app_assoc.
Qed.
Lemma mrun_cons s a s1 e1 acts s2 e2 : mstep s a = Some (s1, e1) -> mrun s1 acts = Some (s2, e2) -> mrun s (a :: acts) = Some (s2, e1 ++ e2).
Proof. intros A B. cbn [mrun]. now rewrite A, B. Qed.
Lemma add_alone s x : idle s -> full (mq s) = false ->
  exists acts s' es, mrun s acts = Some (s', es) /\ idle s' /\ mq s' = incr_head (write_head (mq s) x).
Proof.
  destruct s as [q h hr0 t tr0 c rg f]. intros [A1 A2 A3 A4 A5 A6] Fu. cbn [mq hw hr tw tr cl places] in *. subst.
  exists (Calls 0 (QAdd x) :: repeat (Steps 0) 9). cbn [repeat].
  eexists _, _. split; [|split].
  - eapply mrun_cons; [cbn [mstep places]; rewrite (A6 0); reflexivity|].
    do 9 (eapply mrun_cons; [cbn [mstep entry]; unfold gstep; fields; rewrite put_same; cbn [hw hr tw tr cl mq nobody free reg goes with_head with_cond with_q]; rewrite ?Fu; reflexivity|]). reflexivity.
  - constructor; try reflexivity. intro g. fields. destruct (Nat.eq_dec g 0) as [->|N]; [apply put_same|rewrite !put_other by exact N; apply A6].
  - reflexivity.
Qed.
Lemma fill n m (x : tsample) : 1 <= n -> m <= n -> exists acts s es l, mrun (new_crowd n) acts = Some (s, es) /\ idle s /\ Rep (mq s) l /\ q_cap (mq s) = n /\ length l = m.
Proof.
  intro H. induction m as [|m IH]; intro L.
  - exists [], (new_crowd n), [], []. split; [reflexivity|split; [now constructor|split; [now apply rep_new|split; [|reflexivity]]]]. cbn. unfold q_cap. cbn. apply repeat_length.
  - destruct IH as (acts & s & es & l & R & I & Rp & C & Ll); [lia|].
    destruct (add_alone s x I) as (a2 & s2 & e2 & R2 & I2 & Q).
    { rewrite (rep_full _ _ Rp), C. apply Nat.eqb_neq. lia. }
    exists (acts ++ a2), s2, (es ++ e2), (l ++ [x]). rewrite (mrun_app _ _ _ _ a2 R), R2. split; [reflexivity|split; [exact I2|]].
    destruct (rep_write _ x _ Rp) as [Rp' Wr]; [lia|].
    assert (C' : q_cap (write_head (mq s) x) = n) by (rewrite <- C; unfold q_cap; cbn; apply upd_length).
    rewrite Q. split; [apply rep_incr_head; [exact Rp'|rewrite C'; lia|exact Wr]|]. split; [exact C'|rewrite app_length; cbn; lia].
Qed.
Lemma then_len s x : idle s -> full (mq s) = true ->
  exists s', mrun s (Calls 0 (QAdd x) :: repeat (Steps 0) 6 ++ [Calls 1 QLen; Steps 1; Calls 2 QRemove; Steps 2])
    = Some (s', [Called 0 (QAdd x); Called 1 QLen; Called 2 QRemove]) /\ Dead s' /\ mq s' = mq s.
Proof.
  destruct s as [q h hr0 t tr0 c rg f]. intros [A1 A2 A3 A4 A5 A6] Fu. cbn [mq hw hr tw tr cl places] in *. subst. cbn [repeat app].
  eexists. split; [|split].
  - change [Called 0 (QAdd x); Called 1 QLen; Called 2 QRemove] with ([Called 0 (QAdd x)] ++ [] ++ [] ++ [] ++ [] ++ [] ++ [] ++ [Called 1 QLen] ++ [] ++ [Called 2 QRemove] ++ [] ++ []).
    eapply mrun_cons; [cbn [mstep places]; rewrite (A6 0); reflexivity|].
    do 6 (eapply mrun_cons; [cbn [mstep entry]; unfold gstep; fields; rewrite put_same; cbn [hw hr tw tr cl mq nobody free reg goes with_head with_cond with_q]; rewrite ?Fu; reflexivity|]).
    eapply mrun_cons; [cbn [mstep]; fields; rewrite !put_other by discriminate; rewrite (A6 1); reflexivity|].
    eapply mrun_cons; [cbn [mstep entry]; unfold gstep; fields; rewrite put_same; reflexivity|].
    eapply mrun_cons; [cbn [mstep]; fields; rewrite !put_other by discriminate; rewrite (A6 2); reflexivity|].
    eapply mrun_cons; [cbn [mstep entry]; unfold gstep; fields; rewrite put_same; reflexivity|]. reflexivity.
  - constructor; fields; cbn [hw hr tw tr goes with_head with_tail with_cond].
    + exists 0, x. rewrite !put_other by discriminate. rewrite put_same. cbn. auto.
    + exists 1. rewrite (put_other _ 2), (put_other _ 2), put_same by discriminate. cbn. auto.
    + exists 2. rewrite put_same. auto.
    + intro g. unfold put. destruct (Nat.eqb_spec g 2); [exact Logic.I|]. destruct (Nat.eqb_spec g 1); [exact Logic.I|].
      destruct (Nat.eqb_spec g 0); [subst; cbn; auto|now rewrite A6].
  - reflexivity.
Qed.

(** ** Which element is touched *)
Lemma slots_differ q l : Rep q l -> l <> [] -> length l < q_cap q -> head q mod q_cap q <> tail q mod q_cap q.
Proof.
  intros R Ne Lt E. pose proof (r_cap _ _ R) as Cp. rewrite (r_pos _ _ R), mod2n_mod in E by lia.
  assert (0 < length l) by (destruct l; [congruence|cbn; lia]).
  assert (tail q = tail q + length l); [|lia]. apply (mod_eq_small _ _ (q_cap q)); [lia|now symmetry|lia].
Qed.
Lemma write_knows n s l ps g x : Inv n s l ps -> places s g = Write x -> length l < q_cap (mq s).
Proof. intros I E. pose proof (i_knows _ _ _ _ I g) as Kg. rewrite E in Kg. now rewrite (i_cap _ _ _ _ I). Qed.
Lemma read_knows n s l ps g : Inv n s l ps -> places s g = ReadRemove \/ places s g = ReadPeek -> l <> [].
Proof. intros I E. pose proof (i_knows _ _ _ _ I g) as Kg. destruct E as [E|E]; rewrite E in Kg; exact Kg. Qed.
