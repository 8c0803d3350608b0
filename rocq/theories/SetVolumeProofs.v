(** Proofs for C128. *)
From Verif Require Import GoBase GoBaseFacts SetVolumeModel SetVolumeSpec.
Local Open Scope nat_scope.

Lemma set_same {A} (f : nat -> A) i x : set f i x i = x.
Proof. unfold set. now rewrite Nat.eqb_refl. Qed.
Lemma set_other {A} (f : nat -> A) i j x : j <> i -> set f i x j = f j.
Proof. intro N. unfold set. destruct (Nat.eqb_spec j i); congruence. Qed.

Lemma vrun_app a : forall s b, vrun s (a ++ b) =
  match vrun s a with None => None | Some (s1, e1) => match vrun s1 b with None => None | Some (s2, e2) => Some (s2, e1 ++ e2) end end.
Proof.
  induction a as [|x a IH]; intros s b; cbn [app vrun].
  - destruct (vrun s b) as [[s2 e2]|]; reflexivity.
  - destruct (vstep s x) as [[s1 e1]|]; [|reflexivity]. rewrite IH.
    destruct (vrun s1 a) as [[s2 e2]|]; [|reflexivity]. destruct (vrun s2 b) as [[s3 e3]|]; [|reflexivity]. now rewrite app_assoc.
Qed.
Lemma vrun_trans s a s1 e1 b s2 e2 : vrun s a = Some (s1, e1) -> vrun s1 b = Some (s2, e2) -> vrun s (a ++ b) = Some (s2, e1 ++ e2).
Proof. intros A B. now rewrite vrun_app, A, B. Qed.
Lemma vrun_snoc s acts a s' es : vrun s (acts ++ [a]) = Some (s', es) ->
  exists s1 e1 e2, vrun s acts = Some (s1, e1) /\ vstep s1 a = Some (s', e2) /\ es = e1 ++ e2.
Proof.
  rewrite vrun_app. destruct (vrun s acts) as [[s1 e1]|]; [|discriminate]. cbn [vrun].
  destruct (vstep s1 a) as [[s2 e2]|] eqn:St; [|discriminate]. intros [= <- <-]. exists s1, e1, e2. rewrite app_nil_r. repeat split. exact St.
Qed.

Lemma last_sent_app c a b : last_sent c (a ++ b) = match last_sent c b with Some v => Some v | None => last_sent c a end.
Proof. induction a as [|e a IH]; cbn; [destruct (last_sent c b); reflexivity|]. rewrite IH. destruct (last_sent c b); [reflexivity|]. destruct (last_sent c a); reflexivity. Qed.
Lemma replies_app a b : replies (a ++ b) = replies a ++ replies b.
Proof. induction a as [|[] a IH]; cbn; congruence. Qed.
Lemma told_app i a b : told i (a ++ b) = told i a ++ told i b.
Proof. induction a as [|[] a IH]; cbn; try congruence. destruct (_ =? i); cbn; congruence. Qed.
Lemma typed_app a b : typed (a ++ b) = typed a ++ typed b.
Proof. induction a as [|[] a IH]; cbn; try destruct r; cbn; congruence. Qed.
Lemma seen_app a b : volumes_seen (a ++ b) = volumes_seen a ++ volumes_seen b.
Proof. induction a as [|[] a IH]; cbn; congruence. Qed.

Lemma existsb_in c l : existsb (Nat.eqb c) l = true <-> In c l.
Proof. rewrite existsb_exists. split; [intros (x & I & E); apply Nat.eqb_eq in E; now subst|intro I; exists c; split; [exact I|apply Nat.eqb_refl]]. Qed.
Lemma without_in c x l : In x (without c l) <-> In x l /\ x <> c.
Proof. unfold without. rewrite filter_In. destruct (Nat.eqb_spec x c); cbn; intuition congruence. Qed.

(** ** Only what was typed *)
Definition from (vs : list N) (s : vstate) : Prop :=
  In (volume s) vs
  /\ (forall i, match session s i with Built v | Sending v _ _ => In v vs | _ => True end)
  /\ (forall c, match client s c with Read v => In v vs | _ => True end).

Lemma from_step vs s a s' es : from vs s -> vstep s a = Some (s', es) ->
  from (vs ++ typed [a]) s' /\ (forall v, In v (volumes_seen es) -> In v (vs ++ typed [a])).
Proof.
  intros (V & Se & C) H.
  assert (In1 : forall v, In v vs -> In v (vs ++ typed [a])) by (intros; apply in_or_app; now left).
  assert (Se1 : forall i p, (match p with Built v | Sending v _ _ => In v (vs ++ typed [a]) | _ => True end) ->
    forall j, match set (session s) i p j with Built v | Sending v _ _ => In v (vs ++ typed [a]) | _ => True end).
  { intros i p Hp j. unfold set. destruct (j =? i); [exact Hp|]. specialize (Se j). destruct (session s j); auto. }
  assert (Se2 : forall j, match session s j with Built v | Sending v _ _ => In v (vs ++ typed [a]) | _ => True end)
    by (intro j; specialize (Se j); destruct (session s j); auto).
  assert (C1 : forall i p, (match p with Read v => In v (vs ++ typed [a]) | _ => True end) ->
    forall j, match set (client s) i p j with Read v => In v (vs ++ typed [a]) | _ => True end).
  { intros i p Hp j. unfold set. destruct (j =? i); [exact Hp|]. specialize (C j). destruct (client s j); auto. }
  assert (C2 : forall j, match client s j with Read v => In v (vs ++ typed [a]) | _ => True end)
    by (intro j; specialize (C j); destruct (client s j); auto).
  destruct a as [i r|i|i|i c ok|i|i|c|c|c ok]; cbn [vstep] in H.
  - destruct (session s i) eqn:E; try discriminate. destruct r as [v|]; injection H as <- <-.
    + split; [|intros ? []]. repeat split; cbn; auto; [apply in_or_app; right; now left|apply Se1; exact I].
    + split; [|intros ? []]. repeat split; cbn; auto. apply in_or_app. right. now left.
  - destruct (session s i) eqn:E; try discriminate. injection H as <- <-. split; [|intros ? []]. repeat split; cbn; auto; try (apply Se1; auto).
  - pose proof (Se i) as Si. destruct (session s i) eqn:E; try discriminate. injection H as <- <-. split; [|intros ? []]. repeat split; cbn; auto; try (apply Se1; auto).
  - pose proof (Se i) as Si. destruct (session s i) eqn:E; try discriminate. destruct (existsb (Nat.eqb c) left); [|discriminate]. injection H as <- <-.
    split; [repeat split; cbn; auto; try (apply Se1; auto)|]. destruct ok; [|intros ? []]. intros w [<-|[]]. auto.
  - pose proof (Se i) as Si. destruct (session s i) as [| | |v [] b|] eqn:E; try discriminate. injection H as <- <-. split; [|intros ? []]. repeat split; cbn; auto; try (apply Se1; exact I).
  - destruct (session s i) eqn:E; try discriminate. injection H as <- <-. split; [repeat split; cbn; auto; try (apply Se1; exact I)|].
    intros w [<-|[]]. auto.
  - destruct (client s c) eqn:E; try discriminate. destruct (_ && _)%bool; [|discriminate]. injection H as <- <-. split; [|intros ? []]. repeat split; cbn; auto. apply C1. exact I.
  - destruct (client s c) eqn:E; try discriminate. injection H as <- <-. split; [|intros ? []]. repeat split; cbn; auto; try (apply C1; cbn; auto).
  - pose proof (C c) as Cc. destruct (client s c) eqn:E; try discriminate. injection H as <- <-. split; [repeat split; cbn; auto; try (apply C1; exact I)|].
    destruct ok; [|intros ? []]. intros w [<-|[]]. auto.
Qed.

Lemma from_run v cs acts : forall s es, vrun (started v cs) acts = Some (s, es) ->
  from (v :: typed acts) s /\ (forall w, In w (volumes_seen es) -> In w (v :: typed acts)).
Proof.
  induction acts as [|a acts IH] using rev_ind; intros s es H.
  - injection H as <- <-. split; [repeat split; cbn; auto|intros ? []].
  - apply vrun_snoc in H as (s1 & e1 & e2 & R & St & ->). destruct (IH _ _ R) as [F S]. destruct (from_step _ _ _ _ _ F St) as [F' S'].
    rewrite typed_app. split; [exact F'|]. intros w. rewrite seen_app, in_app_iff. intros [I|I]; [|exact (S' w I)].
    change (v :: typed acts ++ typed [a]) with ((v :: typed acts) ++ typed [a]). apply in_or_app. left. auto.
Qed.

(** whoever subscribed is connected *)
Lemma connected v cs acts : forall s es, vrun (started v cs) acts = Some (s, es) -> forall c, client s c <> Fresh -> In c (clients s).
Proof.
  induction acts as [|a acts IH] using rev_ind; intros s es H.
  - injection H as <- <-. intros c N. destruct (N eq_refl).
  - apply vrun_snoc in H as (s1 & e1 & e2 & R & St & ->). specialize (IH _ _ R). clear R.
    assert (G : forall d p c, client s1 d <> Fresh \/ In d (clients s1) -> set (client s1) d p c <> Fresh -> In c (clients s1)).
    { intros d p c Hd. unfold set. destruct (Nat.eqb_spec c d) as [->|]; [intros _; destruct Hd; auto|auto]. }
    destruct a as [i r|i|i|i c ok|i|i|c|c|c ok]; cbn [vstep] in St.
    + destruct (session s1 i); try discriminate. destruct r; injection St as <- <-; exact IH.
    + destruct (session s1 i); try discriminate. injection St as <- <-; exact IH.
    + destruct (session s1 i); try discriminate. injection St as <- <-; exact IH.
    + destruct (session s1 i); try discriminate. destruct (existsb _ _); [|discriminate]. injection St as <- <-; exact IH.
    + destruct (session s1 i) as [| | |v0 [] b|]; try discriminate. injection St as <- <-; exact IH.
    + destruct (session s1 i); try discriminate. injection St as <- <-; exact IH.
    + destruct (client s1 c) eqn:E; try discriminate. destruct (readers s1 =? 0); [|discriminate]. cbn [andb] in St.
      destruct (existsb _ _) eqn:X; [|discriminate]. injection St as <- <-. intros d. apply G. right. now apply existsb_in.
    + destruct (client s1 c) eqn:E; try discriminate. injection St as <- <-. intros d. apply G. left. congruence.
    + destruct (client s1 c) eqn:E; try discriminate. injection St as <- <-. intros d. apply G. left. congruence.
Qed.

(** ** One thing at a time *)
Section Undisturbed.
Variable s0 : vstate.
Hypothesis conn0 : forall c, client s0 c <> Fresh -> In c (clients s0).

(** what is asked of a client *)
Definition due (acts : list vact) (c : nat) : Prop := reached c acts /\ (typed acts <> [] \/ client s0 c = Fresh).
Definition told_all (acts : list vact) (s : vstate) (es : list seen) (c : nat) : Prop :=
  client s c = Done -> due acts c -> last_sent c es = Some (volume s).

Record inv (acts : list vact) (s : vstate) (es : list seen) : Prop := {
  i_vol : volume s = last_typed (volume s0) acts;
  i_conn : forall c, client s c <> Fresh -> In c (clients s);
  i_state :
    (no_command s /\ replies es = typed acts /\ (forall c, told_all acts s es c)
      /\ forall c, match client s c with Read w => w = volume s | _ => True end)
    \/ exists i, (forall j, j <> i -> session s j = Idle) /\ no_subscription s /\ typed acts = replies es ++ [volume s]
      /\ match session s i with
         | Idle => False
         | Stored => True
         | Built w => w = volume s
         | Sending w l _ => w = volume s /\ forall c, ~ In c l -> told_all acts s es c
         | Sent _ => forall c, told_all acts s es c
         end }.

Lemma last_typed_app v acts a : last_typed v (acts ++ [a]) = match typed [a] with [] => last_typed v acts | w :: _ => w end.
Proof.
  unfold last_typed. rewrite typed_app. destruct a; try (cbn; now rewrite app_nil_r). destruct r; cbn; apply last_last.
Qed.

Lemma due_snoc acts a c : due (acts ++ [a]) c -> typed [a] = [] -> due acts c.
Proof.
  intros [R D] T. split.
  - intro i. specialize (R i). rewrite !in_app_iff in R. tauto.
  - rewrite typed_app, T, app_nil_r in D. exact D.
Qed.

(** a step that changes neither volume nor clients and sends nothing *)
Lemma told_keep acts a s s' es e c : typed [a] = [] -> volume s' = volume s -> client s' c = client s c -> last_sent c e = None ->
  told_all acts s es c -> told_all (acts ++ [a]) s' (es ++ e) c.
Proof.
  intros T V C L H Dn Du. rewrite last_sent_app, L, V. apply H; [congruence|]. exact (due_snoc _ _ _ Du T).
Qed.

Lemma inv_step acts s es a s' e : inv acts s es -> vstep s a = Some (s', e) ->
  match a with
  | Type_ _ r => r <> None /\ no_command s /\ no_subscription s
  | Subscribe _ => no_command s
  | _ => True
  end -> inv (acts ++ [a]) s' (es ++ e).
Proof.
  intros [V K St] H U. destruct a as [i r|i|i|i c ok|i|i|c|c|c ok]; cbn [vstep] in H.
  - destruct U as (Nr & Nc & Ns). destruct r as [v|]; [|congruence]. rewrite Nc in H. injection H as <- <-. rewrite app_nil_r.
    constructor; cbn [volume client clients session]; [now rewrite last_typed_app|exact K|].
    right. exists i. split; [intros j Nj; rewrite set_other by exact Nj; apply Nc|]. split; [exact Ns|]. split.
    + rewrite typed_app. cbn. f_equal. destruct St as [(_ & R & _)|(k & _ & _ & _ & X)]; [now rewrite R|]. now rewrite Nc in X.
    + now rewrite set_same.
  - destruct (session s i) eqn:E; try discriminate. injection H as <- <-. rewrite app_nil_r.
    destruct St as [(Nc & _)|(k & O & Ns & R & X)]; [now rewrite Nc in E|].
    assert (k = i) as -> by (destruct (Nat.eq_dec k i); [assumption|rewrite O in E by congruence; discriminate]).
    constructor; cbn; [now rewrite last_typed_app|exact K|]. right. exists i. split; [intros j Nj; rewrite set_other by exact Nj; now apply O|].
    split; [exact Ns|]. rewrite set_same, typed_app. cbn. rewrite app_nil_r. auto.
  - destruct (session s i) eqn:E; try discriminate. injection H as <- <-. rewrite app_nil_r.
    destruct St as [(Nc & _)|(k & O & Ns & R & X)]; [now rewrite Nc in E|].
    assert (k = i) as -> by (destruct (Nat.eq_dec k i); [assumption|rewrite O in E by congruence; discriminate]).
    rewrite E in X. constructor; cbn; [now rewrite last_typed_app|exact K|]. right. exists i. split; [intros j Nj; rewrite set_other by exact Nj; now apply O|].
    split; [exact Ns|]. rewrite set_same, typed_app. cbn. rewrite app_nil_r. split; [exact R|]. split; [exact X|].
    intros c Nl Dn. cbn in Dn. destruct Nl. apply filter_In. split; [apply K; congruence|now rewrite Dn].
  - destruct (session s i) as [| |w0|w l b|b0] eqn:E; try discriminate. destruct (existsb (Nat.eqb c) l) eqn:X0; [|discriminate]. injection H as <- <-.
    destruct St as [(Nc & _)|(k & O & Ns & R & X)]; [now rewrite Nc in E|].
    assert (k = i) as -> by (destruct (Nat.eq_dec k i); [assumption|rewrite O in E by congruence; discriminate]).
    rewrite E in X. destruct X as [-> X].
    constructor; cbn; [now rewrite last_typed_app|exact K|]. right. exists i. split; [intros j Nj; rewrite set_other by exact Nj; now apply O|].
    split; [exact Ns|]. rewrite set_same, typed_app. cbn. rewrite app_nil_r. split.
    { rewrite replies_app. destruct ok; cbn; now rewrite app_nil_r. }
    split; [reflexivity|]. intros d Nd. rewrite without_in in Nd. destruct (Nat.eq_dec d c) as [->|Ne].
    + intros Dn [Re _]. rewrite last_sent_app. destruct ok; cbn; [now rewrite Nat.eqb_refl|].
      exfalso. apply (proj1 (Re i)). apply in_or_app. right. now left.
    + apply (told_keep acts _ s); try reflexivity; [|apply X; tauto]. destruct ok; cbn; [|reflexivity]. destruct (Nat.eqb_spec c d); congruence.
  - destruct (session s i) as [| |w0|w [|] b|b0] eqn:E; try discriminate. injection H as <- <-.
    destruct St as [(Nc & _)|(k & O & Ns & R & X)]; [now rewrite Nc in E|].
    assert (k = i) as -> by (destruct (Nat.eq_dec k i); [assumption|rewrite O in E by congruence; discriminate]).
    rewrite E in X. destruct X as [-> X]. 
    constructor; cbn; [now rewrite last_typed_app|exact K|]. right. exists i. split; [intros j Nj; rewrite set_other by exact Nj; now apply O|].
    split; [exact Ns|]. rewrite set_same, typed_app, app_nil_r. cbn. rewrite app_nil_r. split; [exact R|].
    intro c. rewrite <- (app_nil_r es). apply (told_keep acts _ s); try reflexivity. apply X. intros [].
  - destruct (session s i) as [| |w0|w l b|b0] eqn:E; try discriminate. injection H as <- <-.
    destruct St as [(Nc & _)|(k & O & Ns & R & X)]; [now rewrite Nc in E|].
    assert (k = i) as -> by (destruct (Nat.eq_dec k i); [assumption|rewrite O in E by congruence; discriminate]).
    rewrite E in X. constructor; cbn; [now rewrite last_typed_app|exact K|]. left. split; [|split; [|split]].
    + intro j. unfold no_command. cbn. unfold set. destruct (Nat.eqb_spec j i); [reflexivity|now apply O].
    + rewrite replies_app, typed_app. cbn. now rewrite app_nil_r.
    + intro c. apply (told_keep acts _ s); auto.
    + intro c. destruct (Ns c) as [->| ->]; exact I.
  - destruct (client s c) eqn:E; try discriminate. destruct (readers s =? 0); [|discriminate]. cbn [andb] in H.
    destruct (existsb (Nat.eqb c) (clients s)) eqn:X0; [|discriminate]. injection H as <- <-. rewrite app_nil_r.
    destruct St as [(Nc & R & T & Rd)|(k & O & Ns & R & X)]; [|now rewrite U in X].
    constructor; cbn; [now rewrite last_typed_app| |].
    + intro d. unfold set. destruct (Nat.eqb_spec d c) as [->|]; [intros _; now apply existsb_in|apply K].
    + left. split; [exact Nc|]. split; [rewrite typed_app; cbn; now rewrite app_nil_r|]. split.
      * intros d Dn Du. cbn in *. unfold set in Dn. destruct (d =? c); [discriminate|]. apply (T d Dn). exact (due_snoc _ _ _ Du eq_refl).
      * intro d. unfold set. destruct (d =? c); [exact I|apply Rd].
  - destruct (client s c) eqn:E; try discriminate. injection H as <- <-. rewrite app_nil_r.
    destruct St as [(Nc & R & T & Rd)|(k & O & Ns & R & X)]; [|destruct (Ns c); congruence].
    constructor; cbn; [now rewrite last_typed_app| |].
    + intro d. unfold set. destruct (Nat.eqb_spec d c) as [->|]; [intros _; apply K; congruence|apply K].
    + left. split; [exact Nc|]. split; [rewrite typed_app; cbn; now rewrite app_nil_r|]. split.
      * intros d Dn Du. cbn in *. unfold set in Dn. destruct (d =? c); [discriminate|]. apply (T d Dn). exact (due_snoc _ _ _ Du eq_refl).
      * intro d. unfold set. destruct (d =? c); [reflexivity|apply Rd].
  - destruct (client s c) as [| |w|] eqn:E0; try discriminate. injection H as <- <-.
    destruct St as [(Nc & R & T & Rd)|(k & O & Ns & R & X)]; [|destruct (Ns c); congruence].
    assert (w = volume s) as -> by (specialize (Rd c); now rewrite E0 in Rd).
    constructor; cbn; [now rewrite last_typed_app| |].
    + intro d. unfold set. destruct (Nat.eqb_spec d c) as [->|]; [intros _; apply K; congruence|apply K].
    + left. split; [exact Nc|]. split; [rewrite replies_app, typed_app; destruct ok; cbn; now rewrite !app_nil_r, R|]. split.
      * intros d Dn Du. cbn in Dn. cbn [volume at_client]. unfold set in Dn. rewrite last_sent_app. destruct (Nat.eqb_spec d c) as [Eq|Ne]; [subst d|].
        -- destruct ok; cbn; [now rewrite Nat.eqb_refl|]. exfalso. destruct Du as [Re _]. apply (proj2 (Re 0)). apply in_or_app. right. now left.
        -- replace (last_sent d (if ok then [Received c (volume s)] else [])) with (@None N)
             by (destruct ok; cbn; [destruct (Nat.eqb_spec c d); congruence|reflexivity]).
           apply (T d Dn). exact (due_snoc _ _ _ Du eq_refl).
      * intro d. unfold set. destruct (d =? c); [exact I|apply Rd].
Qed.

Lemma inv_run acts s es : no_command s0 -> no_subscription s0 ->
  vrun s0 acts = Some (s, es) -> undisturbed s0 acts -> accepted acts -> inv acts s es.
Proof.
  intros Nc Ns. revert s es. induction acts as [|a acts IH] using rev_ind; intros s es H U A.
  - injection H as <- <-. constructor; [reflexivity|exact conn0|]. left. repeat split; auto.
    + intros c Dn [_ [D|D]]; [destruct (D eq_refl)|congruence].
    + intro c. destruct (Ns c) as [->| ->]; exact I.
  - apply vrun_snoc in H as (s1 & e1 & e2 & R & St & ->).
    apply (inv_step acts s1 e1 a).
    + apply IH; [exact R| |].
      * intros before x after s2 es2 -> R2. apply (U before x (after ++ [a]) s2 es2); [now rewrite <- app_assoc|exact R2].
      * intros i I. apply (A i). apply in_or_app. now left.
    + exact St.
    + specialize (U acts a [] s1 e1 eq_refl R). destruct a; auto. destruct U. repeat split; auto. intros ->. apply (A i). apply in_or_app. right. now left.
Qed.
End Undisturbed.

(** ** Schedules *)
(** the goroutines of a broadcast write to everybody left *)
Lemma flush i v b : forall n l s, length l <= n -> session s i = Sending v l b ->
  exists acts s' es, vrun s acts = Some (s', es) /\ typed acts = [] /\ volume s' = volume s /\ readers s' = readers s /\ clients s' = clients s
    /\ client s' = client s /\ session s' i = Sending v [] b /\ (forall j, j <> i -> session s' j = session s j)
    /\ (forall c, last_sent c es = if existsb (Nat.eqb c) l then Some v else None) /\ (forall j, told j es = []).
Proof.
  induction n as [|n IH]; intros l s Hl E.
  - destruct l; [|cbn in Hl; lia]. exists [], s, []. repeat split; auto.
  - destruct l as [|c l]; [exists [], s, []; repeat split; auto|].
    assert (L : length (without c (c :: l)) <= n).
    { unfold without. cbn [filter]. rewrite Nat.eqb_refl. cbn [negb]. cbn in Hl.
      assert (G : forall m : list nat, length (filter (fun x => negb (x =? c)) m) <= length m)
        by (induction m as [|x m IHm]; cbn; [lia|destruct (negb (x =? c)); cbn; lia]).
      specialize (G l). lia. }
    set (s1 := at_command s i (Sending v (without c (c :: l)) (b && true))).
    assert (E1 : session s1 i = Sending v (without c (c :: l)) b) by (cbn [s1 at_command session]; rewrite set_same; now rewrite Bool.andb_true_r).
    destruct (IH _ s1 L E1) as (acts & s' & es & R & Ty & V & Rd & Cs & C & Se & So & Ls & T).
    exists (Write i c true :: acts), s', (Received c v :: es). repeat split; auto.
    + cbn [vrun vstep]. rewrite E. cbn [existsb]. rewrite Nat.eqb_refl. cbn [orb]. fold s1. now rewrite R.
    + intros j Nj. rewrite So by exact Nj. cbn. now rewrite set_other.
    + intro d. cbn [last_sent]. rewrite Ls. cbn [existsb].
      destruct (Nat.eqb_spec d c) as [->|Ne].
      * rewrite Nat.eqb_refl. destruct (existsb (Nat.eqb c) (without c (c :: l))); reflexivity.
      * cbn [orb]. replace (existsb (Nat.eqb d) (without c (c :: l))) with (existsb (Nat.eqb d) l).
        { destruct (Nat.eqb_spec c d); [congruence|]. destruct (existsb (Nat.eqb d) l); reflexivity. }
        apply Bool.eq_true_iff_eq. rewrite !existsb_in, without_in. cbn. intuition congruence.
Qed.

(** ... and the broadcast ends and the reply is given *)
Lemma complete i v l s : session s i = Sending v l true ->
  exists acts s' es, vrun s acts = Some (s', es) /\ typed acts = [] /\ volume s' = volume s /\ clients s' = clients s
    /\ client s' = client s /\ session s' i = Idle /\ (forall j, j <> i -> session s' j = session s j)
    /\ (forall c, last_sent c es = if existsb (Nat.eqb c) l then Some v else None)
    /\ (forall j, told j es = if (i =? j) then [(true, volume s)] else []).
Proof.
  intro E. destruct (flush i v true (length l) l s (le_n _) E) as (acts & s1 & es & R & Ty & V & Rd & Cs & C & Se & So & Ls & T).
  exists (acts ++ [End_ i; Reply i]).
  eexists _, _. split; [eapply vrun_trans; [exact R|]|].
  - cbn [vrun vstep]. rewrite Se. cbn [locked at_command session]. rewrite set_same. reflexivity.
  - split; [rewrite typed_app, Ty; reflexivity|]. cbn [locked at_command session volume clients client].
    repeat split; auto.
    + apply set_same.
    + intros j Nj. rewrite !set_other by exact Nj. apply So, Nj.
    + intro c. rewrite last_sent_app. cbn. apply Ls.
    + intro j. rewrite told_app, T, V. cbn. destruct (i =? j); reflexivity.
Qed.

Lemma vrun_cons s a r s1 e1 s' es : vstep s a = Some (s1, e1) -> vrun s1 r = Some (s', es) -> vrun s (a :: r) = Some (s', e1 ++ es).
Proof. intros A B. cbn [vrun]. now rewrite A, B. Qed.

(** ** The lock *)
Definition counts (s : vstate) : Prop := exists l, NoDup l /\ length l = readers s /\ forall i, In i l <-> sending s i.

Lemma sending_set s s' i p : session s' = set (session s) i p -> forall k, k <> i -> (sending s' k <-> sending s k).
Proof. intros E k N. unfold sending. rewrite E, set_other by exact N. reflexivity. Qed.
Lemma counts_same s s' : counts s -> readers s' = readers s -> (forall i, sending s' i <-> sending s i) -> counts s'.
Proof. intros (l & N & L & I) R E. exists l. split; [exact N|]. split; [congruence|]. intro i. rewrite E. apply I. Qed.
Lemma counts_set s s' i p : counts s -> readers s' = readers s -> session s' = set (session s) i p ->
  ((exists v l ok, p = Sending v l ok) <-> sending s i) -> counts s'.
Proof.
  intros C R E D. apply (counts_same s); [exact C|exact R|]. intro k. destruct (Nat.eq_dec k i) as [->|N].
  - unfold sending at 1. rewrite E, set_same. exact D.
  - now apply (sending_set s s' i p).
Qed.
Lemma counts_step s a s' es : counts s -> vstep s a = Some (s', es) -> counts s'.
Proof.
  intros C H. destruct a as [i r|i|i|i c ok|i|i|c|c|c ok]; cbn [vstep] in H.
  - destruct (session s i) eqn:E; try discriminate. destruct r as [v|]; injection H as <- <-.
    + eapply counts_set; [exact C|reflexivity|reflexivity|]. unfold sending. rewrite E. split; intros (? & ? & ? & X); discriminate X.
    + eapply counts_same; [exact C|reflexivity|]. intro k. reflexivity.
  - destruct (session s i) eqn:E; try discriminate. injection H as <- <-.
    eapply counts_set; [exact C|reflexivity|reflexivity|]. unfold sending. rewrite E. split; intros (? & ? & ? & X); discriminate X.
  - destruct (session s i) eqn:E; try discriminate. injection H as <- <-. destruct C as (l & N & L & I).
    exists (i :: l). split; [|split].
    + constructor; [|exact N]. rewrite I. intros (? & ? & ? & X). congruence.
    + cbn. now rewrite L.
    + intro k. unfold sending. cbn [session locked at_command In]. destruct (Nat.eq_dec k i) as [->|Nk].
      * rewrite set_same. split; [intros _; repeat eexists|now left].
      * rewrite set_other by exact Nk. rewrite I. unfold sending. split; [intros [X|X]; [congruence|exact X]|now right].
  - destruct (session s i) eqn:E; try discriminate. destruct (existsb _ _); [|discriminate]. injection H as <- <-.
    eapply counts_set; [exact C|reflexivity|reflexivity|]. unfold sending. rewrite E. split; intros _; repeat eexists.
  - destruct (session s i) as [| | |v [] b|] eqn:E; try discriminate. injection H as <- <-. destruct C as (l & N & L & I).
    assert (Ii : In i l) by (apply I; repeat eexists; exact E).
    apply in_split in Ii as (l1 & l2 & ->). exists (l1 ++ l2). split; [now apply NoDup_remove_1 in N|]. split.
    + cbn. rewrite <- L, !app_length. cbn. lia.
    + intro k. unfold sending. cbn [session locked at_command]. destruct (Nat.eq_dec k i) as [->|Nk].
      * rewrite set_same. split; [intro X; now apply NoDup_remove_2 in N|intros (? & ? & ? & X); discriminate X].
      * rewrite set_other by exact Nk. fold (sending s k). rewrite <- I. rewrite !in_app_iff. cbn. intuition congruence.
  - destruct (session s i) eqn:E; try discriminate. injection H as <- <-.
    eapply counts_set; [exact C|reflexivity|reflexivity|]. unfold sending. rewrite E. split; intros (? & ? & ? & X); discriminate X.
  - destruct (client s c); try discriminate. destruct (_ && _)%bool; [|discriminate]. injection H as <- <-. eapply counts_same; [exact C|reflexivity|]. intro k; reflexivity.
  - destruct (client s c); try discriminate. injection H as <- <-. eapply counts_same; [exact C|reflexivity|]. intro k; reflexivity.
  - destruct (client s c); try discriminate. injection H as <- <-. eapply counts_same; [exact C|reflexivity|]. intro k; reflexivity.
Qed.
Lemma counts_run v cs acts s es : vrun (started v cs) acts = Some (s, es) -> counts s.
Proof.
  assert (G : forall acts s0, counts s0 -> forall s es, vrun s0 acts = Some (s, es) -> counts s).
  { clear. induction acts as [|a acts IH]; intros s0 C s es; cbn [vrun]; [intros [= <- <-]; exact C|].
    destruct (vstep s0 a) as [[s1 e1]|] eqn:St; [|discriminate]. destruct (vrun s1 acts) as [[s2 e2]|] eqn:R; [|discriminate].
    intros [= <- <-]. exact (IH _ (counts_step _ _ _ _ C St) _ _ R). }
  apply G. exists []. split; [constructor|]. split; [reflexivity|]. intro i. split; [intros []|intros (? & ? & ? & X); discriminate X].
Qed.

Lemma same_clients v cs acts s es : vrun (started v cs) acts = Some (s, es) -> clients s = cs.
Proof.
  revert s es. induction acts as [|a acts IH] using rev_ind; intros s es H.
  - injection H as <- <-. reflexivity.
  - apply vrun_snoc in H as (s1 & e1 & e2 & R & St & ->). rewrite <- (IH _ _ R). clear R IH.
    destruct a; cbn [vstep] in St; repeat (match type of St with context [match ?x with _ => _ end] => destruct x end; try discriminate St);
      injection St as <- _; reflexivity.
Qed.
