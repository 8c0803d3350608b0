(** Proofs about the shared playlist. *)
From Coq Require Import Permutation.
From Verif Require Import GoBase GoBaseFacts PlaylistModel PlaylistSpec PlaylistProofs SessionsModel SessionsSpec.
Local Open Scope Z_scope.

Lemma put_nth l g p : (g < length l)%nat -> forall k, nth_error (put l g p) k = if (k =? g)%nat then Some p else nth_error l k.
Proof.
  unfold put. intros L k. destruct (Nat.eqb_spec k g) as [->|NE].
  - rewrite nth_error_app2 by (rewrite firstn_length; lia). rewrite firstn_length, Nat.min_l by lia. now rewrite Nat.sub_diag.
  - destruct (Nat.lt_ge_cases k g) as [Lt|Ge].
    + rewrite nth_error_app1 by (rewrite firstn_length; lia). revert g L NE Lt. clear. induction l as [|x l IH] in k |- *; intros g L NE Lt; [now rewrite firstn_nil|].
      destruct g; [lia|]. destruct k; [reflexivity|]. cbn. apply IH; cbn in L; lia.
    + rewrite nth_error_app2 by (rewrite firstn_length; lia). rewrite firstn_length, Nat.min_l by lia.
      destruct (k - g)%nat as [|m] eqn:E; [lia|]. cbn [nth_error]. replace k with (S g + m)%nat by lia. generalize (S g). clear. intros n. induction n in l |- *; [reflexivity|].
      destruct l; [now destruct m|]. cbn. apply IHn.
Qed.
Lemma some_lt {A} (l : list A) g p : nth_error l g = Some p -> (g < length l)%nat.
Proof. intros H. apply nth_error_Some. congruence. Qed.

(** *** one call inside the lock *)
Fixpoint w_iter (n : nat) (x : wpc * list song) : outcome (wpc * list song) :=
  match n with O => Ok x | S n => match w_step (fst x) (snd x) with Ok y => w_iter n y | Panic => Panic end end.
Definition w_runs (e : edit) (l0 : list song) (p : wpc) (l : list song) : Prop := exists n, w_iter n (w_start e, l0) = Ok (p, l).
Lemma w_iter_S n : forall x, w_iter (S n) x = match w_iter n x with Ok y => w_step (fst y) (snd y) | Panic => Panic end.
Proof.
  induction n as [|n IH]; intros x; [cbn; destruct (w_step _ _); reflexivity|].
  change (w_iter (S (S n)) x) with (match w_step (fst x) (snd x) with Ok y => w_iter (S n) y | Panic => Panic end).
  destruct (w_step (fst x) (snd x)) as [y|] eqn:E; [rewrite IH|]; cbn [w_iter]; rewrite E; reflexivity.
Qed.
Lemma w_iter_out n r l : w_iter n (WOut r, l) = Ok (WOut r, l).
Proof. induction n; [reflexivity|]. cbn. exact IHn. Qed.
Lemma w_iter_add n : forall m x, w_iter (n + m) x = match w_iter n x with Ok y => w_iter m y | Panic => Panic end.
Proof. induction n as [|n IH]; intros m x; [reflexivity|]. cbn. destruct (w_step _ _); [apply IH|reflexivity]. Qed.
Definition as_result (r : option song) : sresult := match r with None => SNone | Some x => SSong x end.
Lemma w_all e l : w_iter 8 (w_start e, l) = match apply_edit l e with Ok (l', r) => Ok (WOut (as_result r), l') | Panic => Panic end.
Proof.
  destruct e as [s|s i|i]; cbn [w_start apply_edit].
  - reflexivity.
  - unfold insert_song. cbn [w_iter fst snd w_step]. set (j := if i <? 0 then 0 else i).
    destruct (zlen l <? j); [reflexivity|]. cbn [w_iter fst snd w_step obind].
    destruct (copy_within _ _ _) as [l1|]; [|reflexivity]. cbn [obind w_iter fst snd w_step]. destruct (slice_set _ _ _); reflexivity.
  - unfold remove_song. cbn [w_iter fst snd w_step]. destruct (zlen l =? 0); [reflexivity|]. set (j := if i <? 0 then 0 else i).
    destruct (zlen l <? j); cbn [w_iter fst snd w_step obind].
    + destruct (slice_get l _) as [x|]; [|reflexivity]. cbn [obind w_iter fst snd w_step]. destruct (slice_to l _); reflexivity.
    + destruct (slice_get l _) as [x|]; [|reflexivity]. cbn [obind w_iter fst snd w_step].
      destruct (copy_within _ _ _) as [l1|]; [|reflexivity]. cbn [obind w_iter fst snd w_step].
      destruct (slice_set l1 _ _) as [l2|]; [|reflexivity]. cbn [obind w_iter fst snd w_step]. destruct (slice_to l2 _); reflexivity.
Qed.
Lemma w_out e l0 r l : w_runs e l0 (WOut r) l -> exists r', apply_edit l0 e = Ok (l, r') /\ r = as_result r'.
Proof.
  intros (n & H). assert (E : w_iter (n + 8) (w_start e, l0) = Ok (WOut r, l)) by (rewrite w_iter_add, H; apply w_iter_out).
  rewrite Nat.add_comm, w_iter_add, w_all in E. destruct (apply_edit l0 e) as [[l' r']|]; [|discriminate].
  rewrite w_iter_out in E. injection E as <- <-. eauto.
Qed.
Lemma w_panics e l0 p l : w_runs e l0 p l -> w_step p l = Panic -> apply_edit l0 e = Panic.
Proof.
  intros (n & H) P. assert (E : w_iter (S n) (w_start e, l0) = Panic) by (rewrite w_iter_S, H; exact P).
  assert (F : w_iter (S n + 8) (w_start e, l0) = Panic) by (now rewrite w_iter_add, E).
  rewrite Nat.add_comm, w_iter_add, w_all in F. destruct (apply_edit l0 e) as [[l' r']|]; [|reflexivity]. now rewrite w_iter_out in F.
Qed.
Lemma w_runs_step e l0 p l p' l' : w_runs e l0 p l -> w_step p l = Ok (p', l') -> w_runs e l0 p' l'.
Proof. intros (n & H) S. exists (Datatypes.S n). now rewrite w_iter_S, H. Qed.
Lemma w_runs_start e l0 : w_runs e l0 (w_start e) l0. Proof. now exists 0%nat. Qed.
Lemma edit_ok l e l' r : apply_edit l e = Ok (l', r) -> list_edit l e l' r.
Proof.
  intros A. destruct (apply_edit_spec l e) as (l1 & r1 & B & C).
  - destruct e as [s|s i|i]; cbn; auto. split; [|exact I]. destruct (Z.eq_dec (zlen l) 0) as [Z0|NZ]; [now left|]. right. intros ->.
    cbn in A. rewrite remove_song_at_len in A; [discriminate|]. intros ->. now destruct NZ.
  - rewrite A in B. injection B as <- <-. exact C.
Qed.
Lemma edit_panics l e : apply_edit l e = Panic -> l <> [] /\ e = ERemove (zlen l).
Proof.
  intros A. destruct e as [s|s i|i].
  - discriminate.
  - destruct (insert_song_spec l s i) as (l' & E & _). cbn in A. now rewrite E in A.
  - cbn in A. destruct l as [|x l1] eqn:L; [now rewrite remove_song_empty in A|]. rewrite <- L in *. split; [congruence|].
    destruct (Z.eq_dec i (zlen l)) as [->|NE]; [reflexivity|]. destruct (remove_song_spec l i) as (l' & y & E & _); [congruence|exact NE|]. now rewrite E in A.
Qed.

(** *** one call that reads *)
Definition r_ok (o : sop) (p : rdpc) (l : list song) : Prop :=
  match o, p with
  | OSongs, RLen => True
  | OSongs, RCopy n acc => n = length l /\ acc = firstn (length acc) l /\ (length acc <= n)%nat
  | OSongs, ROut r => r = SList l
  | ONext, NLen => True
  | ONext, NPos n => n = zlen l /\ l <> []
  | ONext, NWrite q | ONext, NGet q => l <> [] /\ exists x, q = go_mod x (zlen l)
  | ONext, ROut r => exists x, r = SSong x /\ (l = [] /\ x = [] \/ In x l)
  | _, _ => False
  end.
Lemma firstn_snoc {A} (l : list A) d : forall n, (n < length l)%nat -> firstn n l ++ [nth n l d] = firstn (S n) l.
Proof. induction l as [|x l IH]; intros n L; [cbn in L; lia|]. destruct n; [reflexivity|]. cbn in L |- *. now rewrite IH by lia. Qed.
Lemma zlen_zero {A} (l : list A) : zlen l = 0 -> l = [].
Proof. destruct l; [reflexivity|]. rewrite zlen_cons. pose proof (zlen_nonneg l). lia. Qed.
Lemma r_ok_step o p l pos p' pos' : r_ok o p l -> r_step p l pos = Ok (p', pos') -> (forall r, p <> ROut r) -> r_ok o p' l.
Proof.
  intros K S NO. destruct o as [e| | |q]; destruct p as [|n acc| |n|x|x|r]; cbn in K; try contradiction; try (now destruct (NO r)); cbn in S.
  - injection S as <- <-. cbn. split; [reflexivity|]. split; [reflexivity|lia].
  - destruct K as (-> & A & L). destruct (Nat.eqb_spec (length acc) (length l)) as [E|NE]; injection S as <- <-; cbn.
    + rewrite E, firstn_all in A. now rewrite A.
    + rewrite app_length; cbn. split; [reflexivity|]. split; [|lia]. rewrite Nat.add_1_r, <- firstn_snoc with (d := []) by lia. now rewrite <- A.
  - destruct (zlen l =? 0) eqn:Z0; injection S as <- <-; cbn.
    + exists []. split; [reflexivity|]. left. split; [|reflexivity]. apply zlen_zero. now apply Z.eqb_eq.
    + split; [reflexivity|]. intros ->. discriminate.
  - injection S as <- <-. destruct K as [-> NE]. cbn. eauto.
  - injection S as <- <-. exact K.
  - destruct (slice_get l x) as [y|] eqn:G; [|discriminate]. injection S as <- <-. cbn. exists y. split; [reflexivity|]. right.
    unfold slice_get in G. destruct (x <? 0); [discriminate|]. destruct (nth_error l (Z.to_nat x)) eqn:E; [|discriminate]. injection G as <-. eapply nth_error_In; eauto.
Qed.
Lemma r_panics o p l pos : r_ok o p l -> r_step p l pos = Panic -> exists q, p = NGet q /\ q < 0.
Proof.
  intros K S. destruct p as [|n acc| |n|x|x|r]; cbn in S; try discriminate.
  - destruct (length acc =? n)%nat; discriminate.
  - destruct (zlen l =? 0); discriminate.
  - exists x. split; [reflexivity|]. destruct (slice_get l x) eqn:G; [discriminate|]. destruct o; cbn in K; try contradiction.
    destruct K as (NE & y & ->). unfold slice_get in G. destruct (Z.ltb_spec (go_mod y (zlen l)) 0) as [|Ge]; [assumption|].
    assert (0 < zlen l). { pose proof (zlen_nonneg l). destruct (Z.eq_dec (zlen l) 0) as [Z0|]; [|lia]. now apply zlen_zero in Z0. }
    assert (go_mod y (zlen l) < zlen l). { unfold go_mod in *. pose proof (Z.rem_bound_abs y (zlen l)). lia. }
    destruct (nth_error l (Z.to_nat (go_mod y (zlen l)))) eqn:E; [discriminate|]. apply nth_error_None in E. unfold zlen in *. lia.
Qed.

(** *** the invariant *)
Definition g_turn (p : gpc) : bool := match p with GTurn _ | GWrites _ _ => true | _ => false end.
Definition g_op (p : gpc) : list sop := match p with GIdle => [] | GCalled o => [o] | GTurn e => [OEdit e] | GWrites e _ => [OEdit e] | GReads o _ => [o] end.
Definition jumps_ok (pos0 : Z) (acts : list s_act) : Prop := 0 <= pos0 /\ forall g p, In (Calls g (OJump p)) acts -> 0 <= p.
Definition g_pos (p : gpc) : Prop := match p with GReads _ (NWrite q) | GReads _ (NGet q) => 0 <= q | GCalled (OJump q) => 0 <= q | _ => True end.
Record sinv (l0 : list song) (pos0 : Z) (acts : list s_act) (s : sstate) (ds : list s_done) : Prop := {
  v_turn : forall g p, nth_error (ss_gs s) g = Some p -> g_turn p = true -> ss_turn s = Some g;
  v_who : forall g, ss_turn s = Some g -> exists p, nth_error (ss_gs s) g = Some p /\ g_turn p = true;
  v_excl : forall g e p, nth_error (ss_gs s) g = Some (GWrites e p) -> forall h o q, nth_error (ss_gs s) h <> Some (GReads o q);
  v_hist : exists l, one_by_one l0 ds l /\
             (forall g e p, nth_error (ss_gs s) g = Some (GWrites e p) -> w_runs e l p (ss_songs s)) /\
             ((forall g e p, nth_error (ss_gs s) g <> Some (GWrites e p)) -> ss_songs s = l);
  v_read : forall g o p, nth_error (ss_gs s) g = Some (GReads o p) -> r_ok o p (ss_songs s);
  v_calls : forall g, calls_of g acts = returned_to g ds ++ match nth_error (ss_gs s) g with Some p => g_op p | None => [] end;
  v_pos : jumps_ok pos0 acts -> 0 <= ss_pos s /\ forall g p, nth_error (ss_gs s) g = Some p -> g_pos p;
  v_alive : ss_crashed s = false
}.
Definition crash_reason (l0 : list song) (pos0 : Z) (acts : list s_act) (ds : list s_done) : Prop :=
  (exists l g, one_by_one l0 ds l /\ l <> [] /\ In (Calls g (OEdit (ERemove (zlen l)))) acts) \/
  pos0 < 0 \/ exists g p, In (Calls g (OJump p)) acts /\ p < 0.

Lemma one_app l0 ds l : one_by_one l0 ds l -> forall es l', one_by_one l es l' -> one_by_one l0 (ds ++ es) l'.
Proof. induction 1; intros es l' O; cbn [app]; [exact O|econstructor; eauto..]. Qed.
Lemma calls_app g a : forall b, calls_of g (a ++ b) = calls_of g a ++ calls_of g b.
Proof. induction a as [|[h o|h] a IH]; intros b; cbn; [reflexivity| |apply IH]. destruct (g =? h)%nat; [cbn; f_equal|]; apply IH. Qed.
Lemma returned_app g a : forall b, returned_to g (a ++ b) = returned_to g a ++ returned_to g b.
Proof. induction a as [|d a IH]; intros b; cbn; [reflexivity|]. destruct (g =? d_g d)%nat; [cbn; f_equal|]; apply IH. Qed.
Lemma calls_in g o acts : In o (calls_of g acts) -> In (Calls g o) acts.
Proof.
  induction acts as [|[h o'|h] acts IH]; cbn; [easy| |auto]. destruct (Nat.eqb_spec g h) as [<-|]; [|auto]. intros [->|H]; auto.
Qed.
Lemma nth_repeat_idle n g p : nth_error (repeat GIdle n) g = Some p -> p = GIdle.
Proof. intros H. apply nth_error_In in H. now apply repeat_spec in H. Qed.
Lemma inv_init l0 pos0 n : sinv l0 pos0 [] (s_init l0 pos0 n) [].
Proof.
  constructor; cbn.
  - intros g p H T. apply nth_repeat_idle in H. now subst.
  - discriminate.
  - intros g e p H. now apply nth_repeat_idle in H.
  - exists l0. split; [constructor|]. split; [|reflexivity]. intros g e p H. now apply nth_repeat_idle in H.
  - intros g o p H. now apply nth_repeat_idle in H.
  - intros g. destruct (nth_error (repeat GIdle n) g) eqn:E; [|reflexivity]. apply nth_repeat_idle in E. now subst.
  - intros [J _]. split; [exact J|]. intros g p H. apply nth_repeat_idle in H. now subst.
  - reflexivity.
Qed.
(** replacing one goroutine *)
Lemma inv_put l0 pos0 acts s ds a e g p p' l' pos' turn' :
  sinv l0 pos0 acts s ds -> nth_error (ss_gs s) g = Some p ->
  (if g_turn p' then turn' = Some g /\ (g_turn p = true \/ ss_turn s = None) else if g_turn p then turn' = None else turn' = ss_turn s) ->
  (forall e q, p' = GWrites e q -> forall h o r, nth_error (ss_gs s) h <> Some (GReads o r)) ->
  (forall o q, p' = GReads o q -> ss_turn s = None \/ exists q', p = GReads o q') ->
  (exists l, one_by_one l0 (ds ++ e) l /\
    (forall e q, p' = GWrites e q -> w_runs e l q l') /\
    ((forall e q, p' <> GWrites e q) ->
       (forall h e q, h <> g -> nth_error (ss_gs s) h = Some (GWrites e q) -> w_runs e l q l') /\
       ((forall h e q, h <> g -> nth_error (ss_gs s) h <> Some (GWrites e q)) -> l' = l))) ->
  (l' = ss_songs s \/ exists e q, p = GWrites e q) ->
  (forall o q, p' = GReads o q -> r_ok o q l') ->
  (forall h, h <> g -> calls_of h [a] = [] /\ returned_to h e = []) ->
  (g_op p ++ calls_of g [a] = returned_to g e ++ g_op p') ->
  (jumps_ok pos0 (acts ++ [a]) -> 0 <= ss_pos s -> g_pos p -> 0 <= pos' /\ g_pos p') ->
  sinv l0 pos0 (acts ++ [a]) {| ss_songs := l'; ss_pos := pos'; ss_turn := turn'; ss_gs := put (ss_gs s) g p'; ss_crashed := false |} (ds ++ e).
Proof.
  intros I G T E1 E2 H L R C C2 P. pose proof (some_lt _ _ _ G) as Lg. destruct I as [Iturn Iwho Iexcl Ihist Iread Icalls Ipos Ial].
  assert (ONE : forall h q, nth_error (ss_gs s) h = Some q -> g_turn q = true -> ss_turn s = None -> False) by (intros h q N Q TN; specialize (Iturn h q N Q); congruence).
  constructor; cbn [ss_songs ss_pos ss_turn ss_gs ss_crashed].
  - intros h q N Q. rewrite put_nth in N by exact Lg. destruct (Nat.eqb_spec h g) as [->|NE].
    + injection N as ->. rewrite Q in T. apply T.
    + pose proof (Iturn h q N Q) as TH. destruct (g_turn p') eqn:Gp'.
      * destruct T as (-> & [Tp|TN]); [|congruence]. pose proof (Iturn g p G Tp). congruence.
      * destruct (g_turn p) eqn:Gp; [pose proof (Iturn g p G Gp); congruence|congruence].
  - intros h TH. destruct (g_turn p') eqn:Gp'.
    + destruct T as (TE & _). rewrite TE in TH. injection TH as <-. exists p'. rewrite put_nth by exact Lg. rewrite Nat.eqb_refl. auto.
    + destruct (g_turn p) eqn:Gp; [congruence|]. rewrite T in TH. destruct (Iwho h TH) as (q & N & Q). exists q. split; [|exact Q].
      rewrite put_nth by exact Lg. destruct (Nat.eqb_spec h g) as [->|NE]; [congruence|exact N].
  - intros h f q N k o r N2. rewrite put_nth in N, N2 by exact Lg. destruct (Nat.eqb_spec h g) as [->|NE].
    + injection N as ->. destruct (Nat.eqb_spec k g) as [->|NE2]; [discriminate|]. eapply E1; eauto.
    + destruct (Nat.eqb_spec k g) as [->|NE2].
      * injection N2 as ->. destruct (E2 _ _ eq_refl) as [TN|(q' & ->)]; [eapply ONE; eauto|]. eapply Iexcl; eauto.
      * eapply Iexcl; eauto.
  - destruct H as (l & O & H1 & H2). exists l. split; [exact O|]. split.
    + intros h f q N. rewrite put_nth in N by exact Lg. destruct (Nat.eqb_spec h g) as [->|NE]; [injection N as ->; now apply H1|].
      assert (NW : forall e q, p' <> GWrites e q).
      { intros f' q' ->. cbn in T. destruct T as (_ & [Tp|TN]); [|eapply ONE; eauto]. pose proof (Iturn _ _ G Tp). pose proof (Iturn _ _ N eq_refl). congruence. }
      exact (proj1 (H2 NW) h f q NE N).
    + intros NW. assert (NW' : forall e q, p' <> GWrites e q). { intros f q ->. apply (NW g f q). rewrite put_nth by exact Lg. now rewrite Nat.eqb_refl. }
      apply (proj2 (H2 NW')). intros h f q NE N. apply (NW h f q). rewrite put_nth by exact Lg. destruct (Nat.eqb_spec h g); congruence.
  - intros h o q N. rewrite put_nth in N by exact Lg. destruct (Nat.eqb_spec h g) as [->|NE]; [injection N as ->; now apply R|].
    destruct L as [->|(f & r & ->)]; [eapply Iread; eauto|]. exfalso. eapply Iexcl; eauto.
  - intros h. rewrite calls_app, returned_app, Icalls, <- !app_assoc. f_equal. rewrite put_nth by exact Lg. destruct (Nat.eqb_spec h g) as [->|NE].
    + rewrite G. exact C2.
    + destruct (C h NE) as (-> & ->). now rewrite app_nil_r.
  - intros J. assert (J' : jumps_ok pos0 acts) by (destruct J as (J1 & J2); split; [exact J1|intros h q Iq; apply (J2 h); apply in_app_iff; auto]). destruct (Ipos J') as (P1 & P2).
    destruct (P J P1 (P2 g p G)) as (Q1 & Q2). split; [exact Q1|]. intros h q N. rewrite put_nth in N by exact Lg. destruct (Nat.eqb_spec h g) as [->|NE]; [now injection N as ->|eauto].
  - reflexivity.
Qed.
Lemma not_reading gs : existsb g_reading gs = false -> forall h o r, nth_error gs h <> Some (GReads o r).
Proof.
  intros X h o r N. apply nth_error_In in N. assert (Y : existsb g_reading gs = true) by (apply existsb_exists; exists (GReads o r); auto). congruence.
Qed.
Lemma no_calls g : forall h, h <> g -> calls_of h [Steps g] = [] /\ returned_to h [] = []. Proof. now split. Qed.
Lemma only_g g o r : forall h, h <> g -> calls_of h [Steps g] = [] /\ returned_to h [{| d_g := g; d_op := o; d_res := r |}] = [].
Proof. intros h NE. split; [reflexivity|]. cbn. destruct (Nat.eqb_spec h g); [contradiction|reflexivity]. Qed.
(** the history is the same, and the songs too *)
Lemma hist_same l0 pos0 acts s ds g p p' : sinv l0 pos0 acts s ds -> nth_error (ss_gs s) g = Some p -> (forall e q, p <> GWrites e q) -> (forall e q, p' <> GWrites e q) ->
  exists l, one_by_one l0 (ds ++ []) l /\ (forall e q, p' = GWrites e q -> w_runs e l q (ss_songs s)) /\
    ((forall e q, p' <> GWrites e q) ->
       (forall h e q, h <> g -> nth_error (ss_gs s) h = Some (GWrites e q) -> w_runs e l q (ss_songs s)) /\
       ((forall h e q, h <> g -> nth_error (ss_gs s) h <> Some (GWrites e q)) -> ss_songs s = l)).
Proof.
  intros I G NP NP'. destruct (v_hist _ _ _ _ _ I) as (l & O & H1 & H2). exists l. rewrite app_nil_r. split; [exact O|]. split; [intros e q X; now apply NP' in X|].
  intros _. split; [intros; eauto|]. intros NW. apply H2. intros h e q N. destruct (Nat.eq_dec h g) as [->|NE]; [|now apply (NW h e q)].
  rewrite G in N. injection N as ->. now apply (NP e q).
Qed.
Lemma hist_add l0 pos0 acts s ds g p d : sinv l0 pos0 acts s ds -> nth_error (ss_gs s) g = Some p -> (forall e q, p <> GWrites e q) ->
  (forall l, ((forall h e q, nth_error (ss_gs s) h <> Some (GWrites e q)) -> l = ss_songs s) -> one_by_one l [d] l) ->
  exists l, one_by_one l0 (ds ++ [d]) l /\ (forall e q, GIdle = GWrites e q -> w_runs e l q (ss_songs s)) /\
    ((forall e q, GIdle <> GWrites e q) ->
       (forall h e q, h <> g -> nth_error (ss_gs s) h = Some (GWrites e q) -> w_runs e l q (ss_songs s)) /\
       ((forall h e q, h <> g -> nth_error (ss_gs s) h <> Some (GWrites e q)) -> ss_songs s = l)).
Proof.
  intros I G NP D. destruct (hist_same l0 pos0 acts s ds g p GIdle I G NP) as (l & O & H1 & H2); [discriminate|]. rewrite app_nil_r in O.
  exists l. split; [|auto]. apply one_app with (l := l); [exact O|]. apply D. intros NW. symmetry. apply H2; [discriminate|]. intros h e q _. apply NW.
Qed.
Ltac fin := try reflexivity; try discriminate; try (intros; discriminate).

Lemma step_inv l0 pos0 acts s ds a s' e : sinv l0 pos0 acts s ds -> s_step s a = Some (s', e) ->
  (ss_crashed s' = false /\ sinv l0 pos0 (acts ++ [a]) s' (ds ++ e)) \/
  (ss_crashed s' = true /\ e = [] /\ crash_reason l0 pos0 acts ds).
Proof.
  intros I S. unfold s_step in S. rewrite (v_alive _ _ _ _ _ I) in S. destruct a as [g o|g].
  - destruct (nth_error (ss_gs s) g) as [p|] eqn:G; [|discriminate]. destruct p; try discriminate. injection S as <- <-. left. split; [reflexivity|].
    eapply inv_put; eauto; fin; try apply no_calls; try apply only_g; try (cbn; now rewrite Nat.eqb_refl); try (intros _ P0 P1; now split); try (cbn; auto; fail).
    + apply (hist_same l0 pos0 acts s ds g GIdle (GCalled o) I G); discriminate.
    + intros h NE. cbn. destruct (Nat.eqb_spec h g); [contradiction|now split].
    + intros (J1 & J2) P _. split; [exact P|]. cbn. destruct o; auto. apply (J2 g). apply in_app_iff. right. now left.
  - destruct (nth_error (ss_gs s) g) as [p|] eqn:G; [|discriminate]. destruct p as [|o|f|f w|o r]; try discriminate.
    + destruct o as [f| | |q].
      * destruct (ss_turn s) eqn:T; [discriminate|]. injection S as <- <-. left. split; [reflexivity|]. eapply inv_put; eauto; fin; try apply no_calls; try apply only_g; try (cbn; now rewrite Nat.eqb_refl); try (intros _ P0 P1; now split); try (cbn; auto; fail).
        -- apply (hist_same l0 pos0 acts s ds g (GCalled (OEdit f)) (GTurn f) I G); discriminate.
      * destruct (ss_turn s) eqn:T; [discriminate|]. injection S as <- <-. left. split; [reflexivity|]. eapply inv_put; eauto; fin; try apply no_calls; try apply only_g; try (cbn; now rewrite Nat.eqb_refl); try (intros _ P0 P1; now split); try (cbn; auto; fail).
        -- apply (hist_same l0 pos0 acts s ds g (GCalled OSongs) (GReads OSongs (r_start OSongs)) I G); discriminate.
        -- intros o q X. injection X as <- <-. exact Logic.I.
      * destruct (ss_turn s) eqn:T; [discriminate|]. injection S as <- <-. left. split; [reflexivity|]. eapply inv_put; eauto; fin; try apply no_calls; try apply only_g; try (cbn; now rewrite Nat.eqb_refl); try (intros _ P0 P1; now split); try (cbn; auto; fail).
        -- apply (hist_same l0 pos0 acts s ds g (GCalled ONext) (GReads ONext (r_start ONext)) I G); discriminate.
        -- intros o q X. injection X as <- <-. exact Logic.I.
      * injection S as <- <-. left. split; [reflexivity|]. eapply inv_put; eauto; fin; try apply no_calls; try apply only_g; try (cbn; now rewrite Nat.eqb_refl); try (intros _ P0 P1; now split); try (cbn; auto; fail).
        -- apply (hist_add l0 pos0 acts s ds g (GCalled (OJump q)) _ I G); [discriminate|]. intros l _. repeat constructor.
    + destruct (existsb g_reading (ss_gs s)) eqn:RD; [discriminate|]. injection S as <- <-. left. split; [reflexivity|]. eapply inv_put; eauto; fin; try apply no_calls; try apply only_g; try (cbn; now rewrite Nat.eqb_refl); try (intros _ P0 P1; now split); try (cbn; auto; fail).
      * cbn. split; [|now left]. exact (v_turn _ _ _ _ _ I g _ G eq_refl).
      * intros f' q X h o r. now apply not_reading.
      * destruct (v_hist _ _ _ _ _ I) as (l & O & H1 & H2). exists l. rewrite app_nil_r. split; [exact O|].
        assert (SL : ss_songs s = l).
        { apply H2. intros h f' q N. pose proof (v_turn _ _ _ _ _ I h _ N eq_refl). pose proof (v_turn _ _ _ _ _ I g _ G eq_refl). assert (h = g) by congruence. subst h. congruence. }
        split; [intros f' q X; injection X as <- <-; rewrite SL; apply w_runs_start|]. intros NW. now destruct (NW f (w_start f)).
    + destruct (v_hist _ _ _ _ _ I) as (l & O & H1 & H2). pose proof (H1 g f w G) as W.
      assert (ST : w_step w (ss_songs s) = Panic -> crash_reason l0 pos0 acts ds).
      { intros WP. apply (w_panics _ _ _ _ W) in WP. apply edit_panics in WP as (NE & ->). left. exists l, g. split; [exact O|]. split; [exact NE|].
        apply calls_in. rewrite (v_calls _ _ _ _ _ I g), G. apply in_app_iff. right. now left. }
      assert (SS : forall w' l', w_step w (ss_songs s) = Ok (w', l') ->
        sinv l0 pos0 (acts ++ [Steps g]) {| ss_songs := l'; ss_pos := ss_pos s; ss_turn := ss_turn s; ss_gs := put (ss_gs s) g (GWrites f w'); ss_crashed := false |} (ds ++ [])).
      { intros w' l' WS. eapply inv_put; eauto; fin; try apply no_calls; try apply only_g; try (cbn; now rewrite Nat.eqb_refl); try (intros _ P0 P1; now split); try (cbn; auto; fail).
        - cbn. split; [exact (v_turn _ _ _ _ _ I g _ G eq_refl)|now left].
        - intros f' q X h o r. exact (v_excl _ _ _ _ _ I g _ _ G h o r).
        - exists l. rewrite app_nil_r. split; [exact O|]. split; [|intros NW; now destruct (NW f w')]. intros f' q X. injection X as <- <-. eapply w_runs_step; eauto. }
      assert (OUT : forall r, w = WOut r ->
        sinv l0 pos0 (acts ++ [Steps g]) {| ss_songs := ss_songs s; ss_pos := ss_pos s; ss_turn := None; ss_gs := put (ss_gs s) g GIdle; ss_crashed := false |} (ds ++ [{| d_g := g; d_op := OEdit f; d_res := r |}])).
      { intros r ->. destruct (w_out _ _ _ _ W) as (r' & A & ->). eapply inv_put; eauto; fin; try apply no_calls; try apply only_g; try (cbn; now rewrite Nat.eqb_refl); try (intros _ P0 P1; now split); try (cbn; auto; fail).
        - exists (ss_songs s). split; [apply one_app with (l := l); [exact O|]; exact (one_edit l g f r' (ss_songs s) [] (ss_songs s) (edit_ok _ _ _ _ A) (one_nil _))|]. split; [discriminate|]. intros _. split; [|reflexivity].
          intros h f' q NE N. pose proof (v_turn _ _ _ _ _ I h _ N eq_refl). pose proof (v_turn _ _ _ _ _ I g _ G eq_refl). congruence. }
      destruct w; try (destruct (w_step _ (ss_songs s)) as [[w' l']|] eqn:WS; injection S as <- <-; [left; split; [reflexivity|now apply SS]|right; auto]).
      injection S as <- <-. left. split; [reflexivity|]. now apply OUT.
    + pose proof (v_read _ _ _ _ _ I g o r G) as K.
      assert (NW : forall h e q, nth_error (ss_gs s) h <> Some (GWrites e q)) by (intros h f q N; exact (v_excl _ _ _ _ _ I h f q N g o r G)).
      assert (ST : r_step r (ss_songs s) (ss_pos s) = Panic -> crash_reason l0 pos0 acts ds).
      { intros RP. destruct (r_panics _ _ _ _ K RP) as (q & -> & Q). destruct (Z.ltb_spec pos0 0) as [P0|P0]; [right; now left|].
        right. right. destruct (existsb (fun a => match a with Calls _ (OJump p) => p <? 0 | _ => false end) acts) eqn:E.
        - apply existsb_exists in E as (a & In & A). destruct a as [h [| | |p]|h]; try discriminate. exists h, p. split; [exact In|]. now apply Z.ltb_lt.
        - exfalso. assert (J : jumps_ok pos0 acts).
          { split; [exact P0|]. intros h p In. destruct (Z.ltb_spec p 0) as [Lt|Ge]; [|exact Ge]. exfalso. apply not_true_iff_false in E. apply E. apply existsb_exists. exists (Calls h (OJump p)). split; [exact In|]. now apply Z.ltb_lt. }
          destruct (v_pos _ _ _ _ _ I J) as (_ & P). specialize (P g _ G). cbn in P. lia. }
      assert (SS : forall r' pos', (forall x, r <> ROut x) -> r_step r (ss_songs s) (ss_pos s) = Ok (r', pos') ->
        sinv l0 pos0 (acts ++ [Steps g]) {| ss_songs := ss_songs s; ss_pos := pos'; ss_turn := ss_turn s; ss_gs := put (ss_gs s) g (GReads o r'); ss_crashed := false |} (ds ++ [])).
      { intros r' pos' NO RS. eapply inv_put; eauto; fin; try apply no_calls; try apply only_g; try (cbn; now rewrite Nat.eqb_refl); try (intros _ P0 P1; now split); try (cbn; auto; fail).
        - intros o' q X. injection X as <- <-. right. eauto.
        - apply (hist_same l0 pos0 acts s ds g (GReads o r) (GReads o r') I G); discriminate.
        - intros o' q X. injection X as <- <-. eapply r_ok_step; eauto.
        - intros _ P Q. destruct r as [|n acc| |n|x|x|x]; cbn in RS.
          + injection RS as <- <-. now split.
          + destruct (length acc =? n)%nat; injection RS as <- <-; now split.
          + destruct (zlen _ =? 0); injection RS as <- <-; now split.
          + injection RS as <- <-. split; [exact P|]. cbn. destruct o; cbn in K; try contradiction. destruct K as (-> & NE). unfold go_mod. apply Z.rem_nonneg; [|exact P].
            intros Z0. apply zlen_zero in Z0. contradiction.
          + injection RS as <- <-. now split.
          + destruct (slice_get _ x); [|discriminate]. injection RS as <- <-. now split.
          + now destruct (NO x). }
      assert (OUT : forall x, r = ROut x ->
        sinv l0 pos0 (acts ++ [Steps g]) {| ss_songs := ss_songs s; ss_pos := ss_pos s; ss_turn := ss_turn s; ss_gs := put (ss_gs s) g GIdle; ss_crashed := false |} (ds ++ [{| d_g := g; d_op := o; d_res := x |}])).
      { intros x ->. eapply inv_put; eauto; fin; try apply no_calls; try apply only_g; try (cbn; now rewrite Nat.eqb_refl); try (intros _ P0 P1; now split); try (cbn; auto; fail).
        - apply (hist_add l0 pos0 acts s ds g _ _ I G); [discriminate|]. intros l SL. specialize (SL NW). subst l.
          destruct o; cbn in K; try contradiction; [subst x; repeat constructor|destruct K as (y & -> & Y)]. constructor; [exact Y|constructor]. }
      destruct r; try (destruct (r_step _ (ss_songs s) (ss_pos s)) as [[r' pos']|] eqn:RS; injection S as <- <-; [left; split; [reflexivity|now apply SS]|right; auto]).
      injection S as <- <-. left. split; [reflexivity|]. now apply OUT.
Qed.

Lemma run_inv acts : forall l0 pos0 acts0 s ds s' e, sinv l0 pos0 acts0 s ds -> s_run s acts = Some (s', e) ->
  (ss_crashed s' = false /\ sinv l0 pos0 (acts0 ++ acts) s' (ds ++ e)) \/ (ss_crashed s' = true /\ crash_reason l0 pos0 (acts0 ++ acts) (ds ++ e)).
Proof.
  induction acts as [|a acts IH]; intros l0 pos0 acts0 s ds s' e I R; cbn in R.
  - injection R as <- <-. left. rewrite !app_nil_r. split; [exact (v_alive _ _ _ _ _ I)|exact I].
  - destruct (s_step s a) as [[s1 e1]|] eqn:S; [|discriminate]. destruct (s_run s1 acts) as [[s2 e2]|] eqn:R2; [|discriminate]. injection R as <- <-.
    destruct (step_inv _ _ _ _ _ _ _ _ I S) as [(A & I1)|(A & -> & C)].
    + specialize (IH l0 pos0 (acts0 ++ [a]) s1 (ds ++ e1) s2 e2 I1 R2). rewrite <- !app_assoc in IH. exact IH.
    + right. destruct acts as [|b acts].
      * cbn in R2. injection R2 as <- <-. split; [exact A|]. cbn. rewrite app_nil_r.
        destruct C as [(l & g & O & NE & In)|[P|(g & p & In & P)]]; [left; exists l, g|right; now left|right; right; exists g, p]; repeat split; auto; apply in_app_iff; auto.
      * cbn in R2. unfold s_step in R2. rewrite A in R2. discriminate.
Qed.

(** *** consequences for the list *)
Lemma one_conserves l ds l' : one_by_one l ds l' -> ~ In [] (l ++ put_in ds) -> Permutation (l' ++ taken_out ds) (l ++ put_in ds).
Proof.
  induction 1 as [l|l g e r l1 ds l2 E O IH|l g ds l2 O IH|l g x ds l2 X O IH|l g p ds l2 O IH]; intros NE; cbn [put_in taken_out d_op d_res] in *; auto.
  - inversion E as [l3 s|l3 s i l4 (b & a & B & _ & A)|i|l3 i x l4 N (b & a & B & _ & A)]; subst.
    + cbn in *. rewrite <- app_assoc in IH. cbn in IH. apply IH. exact NE.
    + cbn in *. assert (PM : Permutation ((b ++ s :: a) ++ put_in ds) ((b ++ a) ++ s :: put_in ds)).
      { rewrite <- !app_assoc. apply Permutation_app_head. cbn. apply Permutation_middle. }
      etransitivity; [apply IH|exact PM]. intros In. apply NE. eapply Permutation_in; [exact PM|exact In].
    + cbn in *. auto.
    + cbn in *. assert (X : x <> []). { intros ->. apply NE. rewrite <- app_assoc. apply in_app_iff. right. now left. }
      destruct x as [|c x]; [contradiction|]. cbn [length Nat.ltb Nat.leb].
      rewrite <- Permutation_middle. rewrite <- app_assoc. cbn. rewrite <- Permutation_middle. constructor. rewrite app_assoc. apply IH.
      intros In. apply NE. rewrite <- app_assoc in *. apply in_app_iff in In. apply in_app_iff. cbn. tauto.
Qed.
Lemma sub_refl {A} (l : list A) : sub l l. Proof. induction l; [apply sub_nil|now apply sub_take]. Qed.
Lemma sub_app_r {A} (a l : list A) : sub a l -> forall m, sub a (l ++ m).
Proof. induction 1; intros m; cbn; [apply sub_nil|apply sub_skip; auto|apply sub_take; auto]. Qed.
Lemma sub_snoc {A} (a l : list A) x : sub a l -> sub (a ++ [x]) (l ++ [x]).
Proof.
  induction 1 as [b|a y b H IH|a y b H IH]; cbn; [|now apply sub_skip|now apply sub_take].
  induction b; cbn; [apply sub_refl|now apply sub_skip].
Qed.
Lemma sub_insert {A} (a l : list A) : sub a l -> forall b c x, l = b ++ c -> sub a (b ++ x :: c).
Proof.
  induction 1 as [m|a y m H IH|a y m H IH]; intros b c x E.
  - constructor.
  - destruct b as [|z b]; cbn in *; [subst c; do 2 apply sub_skip; exact H|]. injection E as -> ->. apply sub_skip. now apply IH.
  - destruct b as [|z b]; cbn in *; [subst c; apply sub_skip, sub_take; exact H|]. injection E as -> ->. apply sub_take. now apply IH.
Qed.
Lemma one_keeps_order g l ds l' : one_by_one l ds l' -> existsb removes ds = false -> forall a, sub a l -> sub (a ++ appended_by g ds) l'.
Proof.
  induction 1 as [l|l h e r l1 ds l2 E O IH|l h ds l2 O IH|l h x ds l2 X O IH|l h p ds l2 O IH]; intros NR b S; cbn in *; try (rewrite app_nil_r; exact S); auto.
  apply orb_false_iff in NR as (N1 & NR). inversion E as [l3 s|l3 s i l4 (u & v & B & _ & A)|i|l3 i x l4 N (u & v & B & _ & A)]; subst; try discriminate.
  - destruct (g =? h)%nat.
    + specialize (IH NR (b ++ [s]) (sub_snoc _ _ s S)). now rewrite <- app_assoc in IH.
    + apply IH; [exact NR|]. now apply sub_app_r.
  - apply IH; [exact NR|]. eapply sub_insert; eauto.
Qed.
Lemma one_appends l ds l' : one_by_one l ds l' -> existsb removes ds = false -> existsb inserts ds = false -> l' = l ++ put_in ds.
Proof.
  induction 1 as [l|l h e r l1 ds l2 E O IH|l h ds l2 O IH|l h x ds l2 X O IH|l h p ds l2 O IH]; intros NR NI; cbn in *; try (now rewrite app_nil_r); auto.
  apply orb_false_iff in NR as (N1 & NR). apply orb_false_iff in NI as (N2 & NI). inversion E; subst; try discriminate. rewrite IH by assumption. now rewrite <- app_assoc.
Qed.

(** *** nothing gets stuck *)
Lemma put_self l g p : (g < length l)%nat -> nth_error (put l g p) g = Some p.
Proof. intros L. rewrite put_nth by exact L. now rewrite Nat.eqb_refl. Qed.
Lemma moved s g p p' s' : nth_error (ss_gs s) g = Some p -> ss_gs s' = put (ss_gs s) g p' -> p' <> p -> s' <> s.
Proof. intros G E NE ->. apply NE. rewrite E in G. assert (L : (g < length (ss_gs s))%nat) by (rewrite E; eapply some_lt; eauto). rewrite put_self in G by exact L. now injection G. Qed.
Lemma progress l0 pos0 acts s ds : sinv l0 pos0 acts s ds -> ~ all_idle s -> exists g s' e, s_step s (Steps g) = Some (s', e).
Proof.
  intros I NI. pose proof (v_alive _ _ _ _ _ I) as AL.
  destruct (existsb g_reading (ss_gs s)) eqn:RD.
  - apply existsb_exists in RD as (p & In & P). destruct p as [| | | |o r]; try discriminate. apply In_nth_error in In as (g & G). exists g. unfold s_step. rewrite AL, G.
    destruct r; try (do 2 eexists; reflexivity); destruct (r_step _ _ _) as [[? ?]|]; do 2 eexists; reflexivity.
  - destruct (ss_turn s) as [g|] eqn:T.
    + destruct (v_who _ _ _ _ _ I g T) as (p & G & P). exists g. unfold s_step. rewrite AL, G. destruct p as [| |f|f w|]; try discriminate.
      * rewrite RD. eauto.
      * destruct w; try (do 2 eexists; reflexivity); destruct (w_step _ _) as [[? ?]|]; do 2 eexists; reflexivity.
    + assert (E : exists g p, nth_error (ss_gs s) g = Some p /\ p <> GIdle).
      { destruct (existsb (fun p => match p with GIdle => false | _ => true end) (ss_gs s)) eqn:E.
        - apply existsb_exists in E as (p & In & P). apply In_nth_error in In as (g & G). exists g, p. split; [exact G|]. now intros ->.
        - exfalso. apply NI. apply Forall_forall. intros p In. destruct p; [reflexivity|..]; exfalso; apply not_true_iff_false in E; apply E; apply existsb_exists; eauto. }
      destruct E as (g & p & G & NE). exists g. unfold s_step. rewrite AL, G, T. destruct p as [|o|f|f w|o r].
      * contradiction.
      * destruct o; eauto.
      * pose proof (v_turn _ _ _ _ _ I g _ G eq_refl). congruence.
      * pose proof (v_turn _ _ _ _ _ I g _ G eq_refl). congruence.
      * exfalso. now apply (not_reading _ RD g o r).
Qed.

(** *** and every call returns *)
Definition w_old (p : wpc) (l : list song) : Prop := match p with WAdd2 _ old | WApp _ old | WIns2 _ _ old | WCut2 _ old => old = l | _ => True end.
Lemma w_old_step p l p' l' : w_step p l = Ok (p', l') -> w_old p l -> w_old p' l'.
Proof.
  intros S _. destruct p; cbn in S; unfold obind in S;
    repeat match type of S with context [if ?b then _ else _] => destruct b | context [match ?x with Ok _ => _ | Panic => _ end] => destruct x eqn:? end;
    try discriminate; injection S as <- <-; cbn; auto.
Qed.
Lemma w_runs_old e l0 p l : w_runs e l0 p l -> w_old p l.
Proof.
  intros (n & H). revert p l H. induction n as [|n IH]; intros p l H; [injection H as <- <-; now destruct e|].
  rewrite w_iter_S in H. destruct (w_iter n _) as [[q m]|] eqn:E; [|discriminate]. eapply w_old_step; eauto.
Qed.
Lemma copy_len {A} (l : list A) d e l' : copy_within l d e = Ok l' -> length l' = length l.
Proof.
  unfold copy_within. destruct (_ || _)%bool eqn:B; [discriminate|]. intros H. injection H as <-. apply orb_false_iff in B as (B & B4). apply orb_false_iff in B as (B & B3). apply orb_false_iff in B as (B1 & B2).
  rewrite !app_length, !firstn_length, !skipn_length. unfold zlen in *. lia.
Qed.
Lemma set_len {A} (l : list A) i v l' : slice_set l i v = Ok l' -> length l' = length l.
Proof.
  unfold slice_set. destruct (_ || _)%bool eqn:B; [discriminate|]. intros H. apply orb_false_iff in B as (B & B4).
  apply (f_equal (fun x => match x with Ok y => length y | Panic => 0%nat end)) in H. cbv beta iota in H. rewrite <- H.
  rewrite app_length, firstn_length. change (length (v :: skipn (S (Z.to_nat i)) l)) with (S (length (skipn (S (Z.to_nat i)) l))). rewrite skipn_length. unfold zlen in *. lia.
Qed.
Lemma to_len {A} (l : list A) i l' : slice_to l i = Ok l' -> (length l' <= length l)%nat.
Proof. unfold slice_to. destruct (_ || _)%bool; [discriminate|]. intros H. injection H as <-. rewrite firstn_length. lia. Qed.

Definition w_rank (n : nat) (p : wpc) : nat :=
  match p with
  | WAdd _ => n + 10 | WAdd2 _ _ => n + 9 | WIns _ _ => n + 12 | WApp _ _ => n + 9 | WIns2 _ _ _ => n + 11 | WIns3 _ _ => 9 | WIns4 _ _ => 8
  | WRem _ => 10 | WLast => 9 | WAt _ => 9 | WAt2 _ _ => 8 | WAt3 _ => 7 | WCut _ => 6 | WCut2 _ _ => 5 | WOut _ => 1
  end%nat.
Definition r_rank (len : nat) (p : rdpc) : nat :=
  match p with RLen => len + 9 | RCopy n acc => n - length acc + 3 | NLen => 9 | NPos _ => 8 | NWrite _ => 7 | NGet _ => 6 | ROut _ => 1 end%nat.
Definition g_rank (n len : nat) (p : gpc) : nat :=
  match p with
  | GIdle => 0 | GCalled (OEdit _) => n + 20 | GCalled (OJump _) => 1 | GCalled _ => len + 10
  | GTurn _ => n + 19 | GWrites _ p => w_rank n p | GReads _ p => r_rank len p
  end%nat.
Definition g_total (n len : nat) (gs : list gpc) : nat := list_sum (map (g_rank n len) gs).
Definition s_rank (s : sstate) : nat := if ss_crashed s then 0%nat else S (g_total (length (ss_gs s)) (length (ss_songs s)) (ss_gs s)).
Lemma put_split l g p q : nth_error l g = Some q -> exists a b, l = a ++ q :: b /\ put l g p = a ++ p :: b.
Proof.
  intros H. exists (firstn g l), (skipn (S g) l). split; [|reflexivity]. revert l H. induction g as [|g IH]; intros [|x l] H; try discriminate.
  - injection H as ->. reflexivity.
  - cbn. f_equal. now apply IH.
Qed.
Lemma put_length l g p q : nth_error l g = Some q -> length (put l g p) = length l.
Proof. intros H. destruct (put_split l g p q H) as (a & b & -> & ->). rewrite !app_length. reflexivity. Qed.
Lemma total_app n len a b : g_total n len (a ++ b) = (g_total n len a + g_total n len b)%nat.
Proof. unfold g_total. rewrite map_app. apply list_sum_app. Qed.
Lemma g_rank_len n len len' p : (len' <= S len)%nat -> (g_rank n len' p <= S (g_rank n len p))%nat.
Proof. intros L. destruct p as [|[]| | |? []]; cbn; lia. Qed.
Lemma g_rank_mono n len len' p : (len' <= len)%nat -> (g_rank n len' p <= g_rank n len p)%nat.
Proof. intros L. destruct p as [|[]| | |? []]; cbn; lia. Qed.
Lemma total_len n len len' gs : (len' <= S len)%nat -> (g_total n len' gs <= g_total n len gs + length gs)%nat.
Proof. intros L. induction gs as [|p gs IH]; [cbn; lia|]. unfold g_total in *. cbn [map list_sum fold_right length]. fold (list_sum (map (g_rank n len') gs)). fold (list_sum (map (g_rank n len) gs)). pose proof (g_rank_len n len len' p L). lia. Qed.
Lemma total_mono n len len' gs : (len' <= len)%nat -> (g_total n len' gs <= g_total n len gs)%nat.
Proof. intros L. induction gs as [|p gs IH]; [cbn; lia|]. unfold g_total in *. cbn [map list_sum fold_right]. fold (list_sum (map (g_rank n len') gs)). fold (list_sum (map (g_rank n len) gs)). pose proof (g_rank_mono n len len' p L). lia. Qed.
Lemma rank_put s g p p' l' pos' t' : nth_error (ss_gs s) g = Some p -> ss_crashed s = false ->
  ((length l' <= length (ss_songs s))%nat /\ (g_rank (length (ss_gs s)) (length l') p' < g_rank (length (ss_gs s)) (length (ss_songs s)) p)%nat \/
   (length l' <= S (length (ss_songs s)))%nat /\ (length (ss_gs s) + g_rank (length (ss_gs s)) (length l') p' <= g_rank (length (ss_gs s)) (length (ss_songs s)) p)%nat) ->
  (s_rank {| ss_songs := l'; ss_pos := pos'; ss_turn := t'; ss_gs := put (ss_gs s) g p'; ss_crashed := false |} < s_rank s)%nat.
Proof.
  intros G AL H. unfold s_rank. cbn [ss_crashed ss_gs ss_songs]. rewrite AL. rewrite (put_length _ _ _ _ G). set (n := length (ss_gs s)) in *.
  destruct (put_split (ss_gs s) g p' p G) as (a & b & E1 & E2). rewrite E2. assert (N : n = (length a + S (length b))%nat) by (unfold n; rewrite E1, app_length; reflexivity). rewrite E1.
  rewrite !total_app. change (g_total n (length l') (p' :: b)) with (g_rank n (length l') p' + g_total n (length l') b)%nat.
  change (g_total n (length (ss_songs s)) (p :: b)) with (g_rank n (length (ss_songs s)) p + g_total n (length (ss_songs s)) b)%nat.
  destruct H as [(L & R)|(L & R)].
  - pose proof (total_mono n _ _ a L). pose proof (total_mono n _ _ b L). lia.
  - pose proof (total_len n _ _ a L). pose proof (total_len n _ _ b L). lia.
Qed.
Lemma step_rank l0 pos0 acts s ds g s' e : sinv l0 pos0 acts s ds -> s_step s (Steps g) = Some (s', e) -> (s_rank s' < s_rank s)%nat.
Proof.
  intros I S. pose proof (v_alive _ _ _ _ _ I) as AL. unfold s_step in S. rewrite AL in S.
  assert (CR : forall l p t gs, (s_rank {| ss_songs := l; ss_pos := p; ss_turn := t; ss_gs := gs; ss_crashed := true |} < s_rank s)%nat) by (intros; unfold s_rank; cbn; rewrite AL; lia).
  destruct (nth_error (ss_gs s) g) as [p|] eqn:G; [|discriminate]. destruct p as [|o|f|f w|o r]; try discriminate.
  - destruct o as [f| | |q]; try (destruct (ss_turn s); [discriminate|]); injection S as <- <-; eapply rank_put; eauto; left; split; cbn; lia.
  - destruct (existsb _ _); [discriminate|]. injection S as <- <-. eapply rank_put; eauto. left. split; [lia|]. destruct f; cbn; lia.
  - destruct (v_hist _ _ _ _ _ I) as (l & O & H1 & H2). pose proof (w_runs_old _ _ _ _ (H1 g f w G)) as OLD.
    destruct w; cbn [w_step] in S; unfold obind in S;
      repeat match type of S with context [if ?b then _ else _] => destruct b
        | context [match copy_within ?a ?b ?c with Ok _ => _ | Panic => _ end] => destruct (copy_within a b c) eqn:?
        | context [match slice_set ?a ?b ?c with Ok _ => _ | Panic => _ end] => destruct (slice_set a b c) eqn:?
        | context [match slice_to ?a ?b with Ok _ => _ | Panic => _ end] => destruct (slice_to a b) eqn:?
        | context [match slice_get ?a ?b with Ok _ => _ | Panic => _ end] => destruct (slice_get a b) eqn:? end;
      cbn beta iota in S; injection S as <- <-; auto; cbn in OLD; try subst old; eapply rank_put; eauto;
      repeat match goal with H : copy_within _ _ _ = Ok _ |- _ => apply copy_len in H | H : slice_set _ _ _ = Ok _ |- _ => apply set_len in H | H : slice_to _ _ = Ok _ |- _ => apply to_len in H end;
      rewrite ?app_length; cbn [g_rank w_rank length]; lia.
  - pose proof (v_read _ _ _ _ _ I g o r G) as K. destruct r as [|n acc| |n|x|x|x]; cbn [r_step] in S; unfold obind in S.
    + injection S as <- <-. eapply rank_put; eauto; cbn; lia.
    + destruct (Nat.eqb_spec (length acc) n) as [E|NE]; injection S as <- <-; eapply rank_put; eauto; cbn; rewrite ?app_length; cbn; [lia|].
      destruct o; cbn in K; try contradiction. lia.
    + destruct (zlen _ =? 0); injection S as <- <-; eapply rank_put; eauto; cbn; lia.
    + injection S as <- <-. eapply rank_put; eauto; cbn; lia.
    + injection S as <- <-. eapply rank_put; eauto; cbn; lia.
    + destruct (slice_get _ _); injection S as <- <-; [|auto]. eapply rank_put; eauto; cbn; lia.
    + injection S as <- <-. eapply rank_put; eauto; cbn; lia.
Qed.
Lemma run_rank acts : forall l0 pos0 acts0 s ds s' e, sinv l0 pos0 acts0 s ds -> s_run s acts = Some (s', e) ->
  Forall (fun a => exists g, a = Steps g) acts -> (length acts <= s_rank s)%nat.
Proof.
  induction acts as [|a acts IH]; intros l0 pos0 acts0 s ds s' e I R F; [cbn; lia|]. inversion F as [|x y (g & ->) F2]; subst. cbn in R.
  destruct (s_step s (Steps g)) as [[s1 e1]|] eqn:S; [|discriminate]. destruct (s_run s1 acts) as [[s2 e2]|] eqn:R2; [|discriminate].
  pose proof (step_rank _ _ _ _ _ _ _ _ I S) as RK. destruct (step_inv _ _ _ _ _ _ _ _ I S) as [(A & I1)|(A & _)].
  - pose proof (IH _ _ _ _ _ _ _ I1 R2 F2). cbn. lia.
  - destruct acts as [|b acts]; [cbn; lia|]. cbn in R2. unfold s_step in R2. rewrite A in R2. discriminate.
Qed.
