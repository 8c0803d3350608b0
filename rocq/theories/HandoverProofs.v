(** Proofs about the hand-over of chunks (C109). *)
From Verif Require Import GoBase GoBaseFacts PlaylistModel QueueModel PlayerModel PlayerSpec HandoverModel HandoverSpec.
From Coq Require Import Permutation.
Local Open Scope Z_scope.

Lemma update_nth l g p : (g < length l)%nat -> forall k, nth_error (update l g p) k = if (k =? g)%nat then Some p else nth_error l k.
Proof.
  intros L k. unfold update. destruct (Nat.eqb_spec k g) as [->|N].
  - rewrite nth_error_app2 by (rewrite firstn_length; lia). rewrite firstn_length. replace (g - Nat.min g (length l))%nat with 0%nat by lia. reflexivity.
  - destruct (Nat.ltb_spec k g) as [A|A].
    + rewrite nth_error_app1 by (rewrite firstn_length; lia). rewrite <- (firstn_skipn g l) at 2. rewrite nth_error_app1 by (rewrite firstn_length; lia). reflexivity.
    + rewrite nth_error_app2 by (rewrite firstn_length; lia). rewrite firstn_length. replace (k - Nat.min g (length l))%nat with (S (k - S g)) by lia.
      cbn [nth_error]. rewrite <- (firstn_skipn (S g) l) at 2. rewrite nth_error_app2 by (rewrite firstn_length; lia). rewrite firstn_length. f_equal. lia.
Qed.
Lemma some_lt {A} (l : list A) g p : nth_error l g = Some p -> (g < length l)%nat.
Proof. intros H. apply nth_error_Some. congruence. Qed.

Definition has_turn (p : qpc) : bool := match p with QTurn _ | QLocked _ | QRead _ _ | QWritten => true | _ => false end.
Definition inside (p : qpc) : bool := match p with QLocked _ | QRead _ _ | QWritten => true | _ => false end.
Definition reader_turn (p : rpc) : bool := match p with HTurn | HLocked | HRead _ | HUnlockW => true | _ => false end.
Definition reader_in (p : rpc) : bool := match p with HStart | HRange _ | HAdd _ _ _ | HUnlockR => true | _ => false end.
Definition stamp (sr : Z) (st : Z) (i : nat) (x : N * N) : tsample := (x, st + samples_duration sr (Z.of_nat i)).
Fixpoint stamps (sr st : Z) (i : nat) (l : list (N * N)) : list tsample :=
  match l with [] => [] | x :: r => stamp sr st i x :: stamps sr st (S i) r end.
Definition chunk_stamps (sr : Z) (c : chunk) : list tsample := stamps sr (c_start c) 0 (c_samples c).
Definition partial (sr : Z) (p : rpc) (l : list chunk) : list tsample :=
  match p, l with
  | HAdd _ i _, c :: _ => stamps sr (c_start c) 0 (firstn i (c_samples c))
  | (HUnlockR | HWant | HTurn | HLocked | HRead _), c :: _ => chunk_stamps sr c
  | _, _ => []
  end.

Record inv (sr : Z) (s : hstate) (es : list h_event) : Prop := {
  i_turn : forall g p, nth_error (h_queuers s) g = Some p -> has_turn p = true -> h_turn s = Queuer g;
  i_queuer : forall g, h_turn s = Queuer g -> exists p, nth_error (h_queuers s) g = Some p /\ has_turn p = true;
  i_reader : reader_turn (h_reader s) = true <-> h_turn s = Reader;
  i_rlock : h_rlocked s = reader_in (h_reader s);
  i_excl : forall g p, nth_error (h_queuers s) g = Some p -> inside p = true -> h_rlocked s = false;
  i_old : forall g c old, nth_error (h_queuers s) g = Some (QRead c old) -> old = h_chunks s;
  i_rold : forall old, h_reader s = HRead old -> old = h_chunks s;
  i_some : h_chunks s = [] -> h_reader s = HTop \/ h_reader s = HUnlockW;
  i_range : forall st c r, h_reader s = HRange st -> h_chunks s = c :: r -> st = c_start c;
  i_add : forall st i l c r, h_reader s = HAdd st i l -> h_chunks s = c :: r -> st = c_start c /\ l = skipn i (c_samples c) /\ (i <= length (c_samples c))%nat;
  i_ok : h_reader s <> HPanicked;
  i_hist : exists done, queued_in es = done ++ h_chunks s /\ added_in es = concat (map (chunk_stamps sr) done) ++ partial sr (h_reader s) (h_chunks s)
}.

Lemma queued_app a b : queued_in (a ++ b) = queued_in a ++ queued_in b.
Proof. induction a as [|[c|x] a IH]; cbn; [reflexivity| |exact IH]. now rewrite IH. Qed.
Lemma added_app a b : added_in (a ++ b) = added_in a ++ added_in b.
Proof. induction a as [|[c|x] a IH]; cbn; [reflexivity|exact IH|]. now rewrite IH. Qed.
Lemma stamps_app sr st a : forall i b, stamps sr st i (a ++ b) = stamps sr st i a ++ stamps sr st (i + length a) b.
Proof. induction a as [|x a IH]; intros i b; cbn [app stamps length]; [now rewrite Nat.add_0_r|]. rewrite IH. do 3 f_equal. lia. Qed.

Lemma nth_nil {A} g : nth_error (@nil A) g = None. Proof. now destruct g. Qed.
Lemma inv_init sr cap : inv sr (h_init cap) [].
Proof.
  split; cbn; try discriminate; auto; try (intros g p H; rewrite nth_nil in H; discriminate); try (intros g c old H; rewrite nth_nil in H; discriminate).
  - split; discriminate.
  - exists []. split; reflexivity.
Qed.

Ltac hs := cbn [h_chunks h_turn h_rlocked h_queuers h_reader h_room with_q with_r with_turn with_rlock with_chunks with_room has_turn inside reader_turn reader_in] in *.
(** the pc of the others *)
Lemma other sr s es g (p : qpc) p' : inv sr s es -> h_turn s = NoTurn \/ h_turn s = Reader -> nth_error (h_queuers s) g = Some p' -> has_turn p' = false.
Proof. intros I T G. destruct (has_turn p') eqn:E; [|reflexivity]. pose proof (i_turn _ _ _ I g p' G E). destruct T; congruence. Qed.

Lemma step_inv sr s es a s' e : inv sr s es -> h_step sr s a = Some (s', e) -> inv sr s' (es ++ e).
Proof.
  intros I H. destruct a as [c|g| |]; cbn [h_step] in H.
  - (* Arrives *) injection H as <- <-. rewrite app_nil_r. destruct I as [A B C D E F G J K L M N]. split; hs; auto.
    + intros g p X. destruct (Nat.ltb_spec g (length (h_queuers s))); [rewrite nth_error_app1 in X by lia; now apply A|].
      rewrite nth_error_app2 in X by lia. destruct (g - length (h_queuers s))%nat as [|[|?]]; cbn in X; try discriminate. injection X as <-. discriminate.
    + intros g X. destruct (B g X) as (p & P & Q). exists p. split; [|exact Q]. rewrite nth_error_app1; [exact P|]. now apply some_lt in P.
    + intros g p X. destruct (Nat.ltb_spec g (length (h_queuers s))); [rewrite nth_error_app1 in X by lia; now apply (E g)|].
      rewrite nth_error_app2 in X by lia. destruct (g - length (h_queuers s))%nat as [|[|?]]; cbn in X; try discriminate. injection X as <-. discriminate.
    + intros g c' old X. destruct (Nat.ltb_spec g (length (h_queuers s))); [rewrite nth_error_app1 in X by lia; now apply (F g c')|].
      rewrite nth_error_app2 in X by lia. destruct (g - length (h_queuers s))%nat as [|[|?]]; cbn in X; discriminate.
  - (* QStep *) destruct (nth_error (h_queuers s) g) as [[c|c|c|c old| |]|] eqn:Q; try discriminate; pose proof (some_lt _ _ _ Q) as Lg.
    + destruct (h_turn s) eqn:T; try discriminate. injection H as <- <-. rewrite app_nil_r.
      pose proof (fun k p => other sr s es k p p I (or_introl T)) as O. destruct I as [A B C D E F G J K L M N]. split; hs; auto.
      * intros k p X. rewrite update_nth in X by exact Lg. destruct (Nat.eqb_spec k g) as [->|]; [reflexivity|]. rewrite (O k p X). discriminate.
      * intros k X. injection X as <-. eexists. rewrite update_nth by exact Lg. rewrite Nat.eqb_refl. split; reflexivity.
      * rewrite T in C. split; [|discriminate]. intros X. apply C in X. discriminate.
      * intros k p X. rewrite update_nth in X by exact Lg. destruct (Nat.eqb_spec k g) as [->|]; [injection X as <-; discriminate|]. now apply (E k).
      * intros k c' old X. rewrite update_nth in X by exact Lg. destruct (Nat.eqb_spec k g) as [->|]; [discriminate|]. now apply (F k c').
    + destruct (h_rlocked s) eqn:R; [discriminate|]. injection H as <- <-. rewrite app_nil_r. destruct I as [A B C D E F G J K L M N].
      split; hs; auto.
      * intros k p X. rewrite update_nth in X by exact Lg. destruct (Nat.eqb_spec k g) as [->|]; [intros _; now apply (A g (QTurn c))|]. now apply A.
      * intros k X. destruct (B k X) as (p & P & Hp). rewrite update_nth by exact Lg. destruct (Nat.eqb_spec k g) as [->|]; [eexists; split; reflexivity|]. exists p. auto.
      * intros k c' old X. rewrite update_nth in X by exact Lg. destruct (Nat.eqb_spec k g) as [->|]; [discriminate|]. now apply (F k c').
    + injection H as <- <-. rewrite app_nil_r. destruct I as [A B C D E F G J K L M N]. split; hs; auto.
      * intros k p X. rewrite update_nth in X by exact Lg. destruct (Nat.eqb_spec k g) as [->|]; [intros _; now apply (A g (QLocked c))|]. now apply A.
      * intros k X. destruct (B k X) as (p & P & Hp). rewrite update_nth by exact Lg. destruct (Nat.eqb_spec k g) as [->|]; [eexists; split; reflexivity|]. exists p. auto.
      * intros k p X. rewrite update_nth in X by exact Lg. destruct (Nat.eqb_spec k g) as [->|]; [intros _; now apply (E g (QLocked c))|]. now apply (E k).
      * intros k c' old X. rewrite update_nth in X by exact Lg. destruct (Nat.eqb_spec k g) as [->|]; [now injection X as _ <-|]. now apply (F k c').
    + injection H as <- <-. destruct I as [A B C D E F G J K L M N].
      pose proof (A g _ Q eq_refl) as T. pose proof (E g _ Q eq_refl) as R. pose proof (F g c old Q) as ->.
      assert (RT : reader_turn (h_reader s) = false) by (destruct (reader_turn (h_reader s)); [|reflexivity]; rewrite (proj1 C eq_refl) in T; discriminate).
      assert (RI : reader_in (h_reader s) = false) by congruence.
      split; hs; auto.
      * intros k p X. rewrite update_nth in X by exact Lg. destruct (Nat.eqb_spec k g) as [->|]; [intros _; exact T|]. now apply A.
      * intros k X. destruct (B k X) as (p & P & Hp). rewrite update_nth by exact Lg. destruct (Nat.eqb_spec k g) as [->|]; [eexists; split; reflexivity|]. exists p. auto.
      * intros k c' old X. rewrite update_nth in X by exact Lg. destruct (Nat.eqb_spec k g) as [->|N']; [discriminate|].
        pose proof (A k _ X eq_refl) as T'. congruence.
      * intros old X. rewrite X in RT. discriminate.
      * intros X. now apply app_eq_nil in X as [_ X].
      * intros st c' r X. rewrite X in RI. discriminate.
      * intros st i l c' r X. rewrite X in RI. discriminate.
      * destruct N as (done & N1 & N2). exists done. rewrite queued_app, added_app, N1, N2. cbn. rewrite app_nil_r, <- app_assoc. split; [reflexivity|]. f_equal.
        destruct (h_reader s); try reflexivity; try discriminate. destruct (h_chunks s); [|reflexivity]. destruct (J eq_refl); discriminate.
    + injection H as <- <-. rewrite app_nil_r. destruct I as [A B C D E F G J K L M N]. pose proof (A g _ Q eq_refl) as T. split; hs; auto.
      * intros k p X. rewrite update_nth in X by exact Lg. destruct (Nat.eqb_spec k g) as [->|N']; [injection X as <-; discriminate|]. intros Y. pose proof (A k p X Y). congruence.
      * intros k X. discriminate.
      * split; [|discriminate]. intros X. apply C in X. congruence.
      * intros k p X. rewrite update_nth in X by exact Lg. destruct (Nat.eqb_spec k g) as [->|]; [injection X as <-; discriminate|]. now apply (E k).
      * intros k c' old X. rewrite update_nth in X by exact Lg. destruct (Nat.eqb_spec k g) as [->|]; [discriminate|]. now apply (F k c').
  - (* RStep *) destruct I as [A B C D E F G J K L M N]. destruct (h_reader s) as [ | | |st|st i l| | | | |old| |] eqn:R; hs.
    + destruct (h_chunks s) as [|c r] eqn:Q; injection H as <- <-; rewrite app_nil_r.
      * split; hs; rewrite ?R, ?Q in *; hs; auto; try discriminate.
      * split; hs; rewrite ?R, ?Q in *; hs; auto; try discriminate.
    + destruct (h_turn s) eqn:T; try discriminate. injection H as <- <-. rewrite app_nil_r. split; hs; rewrite ?T in *; auto; try discriminate.
      * intros g p X Y. pose proof (A g p X) as Z. destruct p; cbn in *; try discriminate; specialize (Z eq_refl); discriminate.
      * intros X. destruct (J X); discriminate.
    + destruct (h_chunks s) as [|c r] eqn:Q; [destruct (J eq_refl); discriminate|]. injection H as <- <-. rewrite app_nil_r.
      split; hs; rewrite ?Q in *; auto; try discriminate. intros st c' r' X Y. injection X as <-. now injection Y as <- _.
    + destruct (h_chunks s) as [|c r] eqn:Q; [destruct (J eq_refl); discriminate|]. injection H as <- <-. rewrite app_nil_r.
      split; hs; rewrite ?Q in *; auto; try discriminate. intros st' i l c' r' X Y. injection X as <- <- <-. injection Y as <- _. split; [now apply (K st c r)|]. split; [reflexivity|lia].
    + destruct (h_chunks s) as [|c r] eqn:Q; [destruct (J eq_refl); discriminate|]. destruct (L st i l c r eq_refl eq_refl) as (Hst & Hl & Hi).
      destruct l as [|x l].
      * injection H as <- <-. rewrite app_nil_r. split; hs; rewrite ?Q in *; auto; try discriminate.
        destruct N as (done & N1 & N2). exists done. split; [exact N1|]. rewrite N2. f_equal. cbn [partial]. unfold chunk_stamps. f_equal.
        apply firstn_all2. apply (f_equal (@length _)) in Hl. rewrite skipn_length in Hl. cbn in Hl. lia.
      * destruct (h_room s) as [|n]; [discriminate|]. injection H as <- <-.
        assert (X : c_samples c = firstn i (c_samples c) ++ x :: l) by (rewrite Hl; now rewrite firstn_skipn).
        assert (Li : length (firstn i (c_samples c)) = i) by (rewrite firstn_length; lia).
        assert (S1 : firstn (S i) (c_samples c) = firstn i (c_samples c) ++ [x]).
        { rewrite X at 1. rewrite firstn_app, firstn_firstn, Li. replace (S i - i)%nat with 1%nat by lia. replace (Nat.min (S i) i) with i by lia. reflexivity. }
        assert (S2 : l = skipn (S i) (c_samples c)).
        { rewrite X. rewrite skipn_app, skipn_all2 by lia. rewrite Li. replace (S i - i)%nat with 1%nat by lia. reflexivity. }
        assert (S3 : (S i <= length (c_samples c))%nat) by (rewrite X, app_length, Li; cbn; lia).
        split; hs; rewrite ?Q in *; auto; try discriminate.
        -- intros st' i' l' c' r' Y W. injection Y as <- <- <-. injection W as <- _. auto.
        -- destruct N as (done & N1 & N2). exists done. rewrite queued_app, added_app, N1, N2. cbn [queued_in added_in]. rewrite app_nil_r, <- app_assoc. split; [reflexivity|]. f_equal.
           cbn [partial]. rewrite S1, stamps_app, Li. cbn [stamps]. rewrite Nat.add_0_l, Hst. reflexivity.
    + injection H as <- <-. rewrite app_nil_r. split; hs; auto; try discriminate.
      * intros X. destruct (J X); discriminate.
    + destruct (h_turn s) eqn:T; try discriminate. injection H as <- <-. rewrite app_nil_r. split; hs; rewrite ?T in *; auto; try discriminate.
      * intros g p X Y. specialize (A g p X Y). discriminate.
      * split; reflexivity.
      * intros X. destruct (J X); discriminate.
    + destruct (h_rlocked s) eqn:RL; [discriminate|]. injection H as <- <-. rewrite app_nil_r. split; hs; auto; try discriminate.
      * intros X. destruct (J X); discriminate.
    + injection H as <- <-. rewrite app_nil_r. split; hs; auto; try discriminate.
      * intros old X. now injection X as <-.
      * intros X. destruct (J X); discriminate.
    + rewrite (G old eq_refl) in H. destruct (h_chunks s) as [|c r] eqn:Q; [destruct (J eq_refl); discriminate|]. injection H as <- <-. rewrite app_nil_r.
      pose proof (proj1 C eq_refl) as T. split; hs; auto; try discriminate.
      * intros g c' old' X. pose proof (A g _ X eq_refl). congruence.
      * destruct N as (done & N1 & N2). exists (done ++ [c]). rewrite N1, N2, map_app, concat_app, <- !app_assoc. cbn. rewrite !app_nil_r. split; reflexivity.
    + pose proof (proj1 C eq_refl) as T. injection H as <- <-. rewrite app_nil_r. split; hs; auto; try discriminate.
      * intros g p X Y. specialize (A g p X Y). congruence.
      * split; discriminate.
    + now destruct M.
  - (* Takes *) injection H as <- <-. rewrite app_nil_r. destruct I as [A B C D E F G J K L M N]. split; hs; auto.
Qed.
Lemma run_inv sr acts : forall s es s' e, inv sr s es -> h_run sr s acts = Some (s', e) -> inv sr s' (es ++ e).
Proof.
  induction acts as [|a acts IH]; intros s es s' e I H; cbn [h_run] in H; [injection H as <- <-; now rewrite app_nil_r|].
  destruct (h_step sr s a) as [[s1 e1]|] eqn:S; [|discriminate]. destruct (h_run sr s1 acts) as [[s2 e2]|] eqn:R; [|discriminate]. injection H as <- <-.
  rewrite app_assoc. apply (IH s1); [|exact R]. now apply (step_inv sr s es a).
Qed.

(** the chunks not yet queued *)
Definition held (p : qpc) : list chunk := match p with QStart c | QTurn c | QLocked c | QRead c _ => [c] | _ => [] end.
Definition pending (s : hstate) : list chunk := concat (map held (h_queuers s)).
Lemma update_split l g p q : nth_error l g = Some q -> exists a b, l = a ++ q :: b /\ update l g p = a ++ p :: b.
Proof.
  intros H. pose proof (some_lt _ _ _ H) as L. exists (firstn g l), (skipn (S g) l). split; [|reflexivity].
  apply nth_error_split in H as (a & b & -> & La). subst g. rewrite firstn_app, firstn_all, Nat.sub_diag, app_nil_r.
  replace (skipn (S (length a)) (a ++ q :: b)) with b; [reflexivity|]. rewrite skipn_app, skipn_all2 by lia. replace (S (length a) - length a)%nat with 1%nat by lia. reflexivity.
Qed.
Lemma pending_update s g q p : nth_error (h_queuers s) g = Some q -> Permutation (pending s ++ held p) (concat (map held (update (h_queuers s) g p)) ++ held q).
Proof.
  intros H. unfold pending. destruct (update_split _ g p q H) as (a & b & -> & ->). rewrite !map_app, !concat_app. cbn [map concat].
  rewrite <- !app_assoc. apply Permutation_app_head. rewrite !app_assoc, (Permutation_app_comm (held q)), (Permutation_app_comm (held p)), <- !app_assoc. apply Permutation_app_head.
  apply Permutation_app_comm.
Qed.
Lemma pending_same s g q p : nth_error (h_queuers s) g = Some q -> held p = held q -> Permutation (pending s) (concat (map held (update (h_queuers s) g p))).
Proof. intros H E. pose proof (pending_update s g q p H) as P. rewrite E in P. now apply Permutation_app_inv_r in P. Qed.

Lemma step_pending sr s a s' e : h_step sr s a = Some (s', e) -> Permutation (pending s ++ arrived [a]) (queued_in e ++ pending s').
Proof.
  intros H. destruct a as [c|g| |]; cbn [h_step arrived] in *.
  - injection H as <- <-. unfold pending. cbn [h_queuers queued_in app]. rewrite map_app, concat_app. reflexivity.
  - rewrite app_nil_r. destruct (nth_error (h_queuers s) g) as [[c|c|c|c old| |]|] eqn:Q; try discriminate.
    + destruct (h_turn s); try discriminate. injection H as <- <-. apply (pending_same s g _ (QTurn c) Q eq_refl).
    + destruct (h_rlocked s); [discriminate|]. injection H as <- <-. apply (pending_same s g _ (QLocked c) Q eq_refl).
    + injection H as <- <-. apply (pending_same s g _ (QRead c (h_chunks s)) Q eq_refl).
    + injection H as <- <-. pose proof (pending_update s g _ QWritten Q) as P. cbn [held] in P. rewrite app_nil_r in P. rewrite P. apply Permutation_app_comm.
    + injection H as <- <-. apply (pending_same s g _ QDone Q eq_refl).
  - rewrite app_nil_r. assert (X : queued_in e = [] /\ h_queuers s' = h_queuers s).
    { destruct (h_reader s) as [ | | |st|st i l| | | | |old| |]; try discriminate;
        repeat match type of H with context [match ?x with _ => _ end] => destruct x end; try discriminate; injection H as <- <-; split; reflexivity. }
    destruct X as [-> X]. unfold pending. rewrite X. reflexivity.
  - rewrite app_nil_r. injection H as <- <-. reflexivity.
Qed.
Lemma run_pending sr acts : forall s s' e, h_run sr s acts = Some (s', e) -> Permutation (pending s ++ arrived acts) (queued_in e ++ pending s').
Proof.
  induction acts as [|a acts IH]; intros s s' e H; cbn [h_run] in H; [injection H as <- <-; cbn; now rewrite app_nil_r|].
  destruct (h_step sr s a) as [[s1 e1]|] eqn:S; [|discriminate]. destruct (h_run sr s1 acts) as [[s2 e2]|] eqn:R; [|discriminate]. injection H as <- <-.
  apply step_pending in S. apply IH in R. rewrite queued_app, <- app_assoc, <- R, app_assoc, <- S, <- app_assoc. apply Permutation_app_head. destruct a; reflexivity.
Qed.

(** the places of the queue *)
Lemma step_room sr s a s' e : h_step sr s a = Some (s', e) -> (length (added_in e) + h_room s' = taken [a] + h_room s)%nat.
Proof.
  unfold h_step. intros H. destruct a as [c|g| |]; [injection H as <- <-; reflexivity| | |injection H as <- <-; reflexivity].
  - destruct (nth_error (h_queuers s) g) as [[c|c|c|c o| |]|]; try discriminate H.
    + destruct (h_turn s); try discriminate H. injection H as <- <-. reflexivity.
    + destruct (h_rlocked s); [discriminate H|]. injection H as <- <-. reflexivity.
    + injection H as <- <-. reflexivity.
    + injection H as <- <-. reflexivity.
    + injection H as <- <-. reflexivity.
  - destruct (h_reader s) as [| | |st|st i l| | | | |old| |]; try discriminate H.
    + destruct (h_chunks s); injection H as <- <-; reflexivity.
    + destruct (h_turn s); try discriminate H. injection H as <- <-. reflexivity.
    + destruct (h_chunks s); injection H as <- <-; reflexivity.
    + destruct (h_chunks s); injection H as <- <-; reflexivity.
    + destruct l as [|x l]; [injection H as <- <-; reflexivity|]. destruct (h_room s) as [|n]; [discriminate H|]. injection H as <- <-. reflexivity.
    + injection H as <- <-. reflexivity.
    + destruct (h_turn s); try discriminate H. injection H as <- <-. reflexivity.
    + destruct (h_rlocked s); [discriminate H|]. injection H as <- <-. reflexivity.
    + injection H as <- <-. reflexivity.
    + destruct old; injection H as <- <-; reflexivity.
    + injection H as <- <-. reflexivity.
Qed.
Lemma added_length e1 e2 : length (added_in (e1 ++ e2)) = (length (added_in e1) + length (added_in e2))%nat.
Proof. induction e1 as [|[c|x] e1 IH]; cbn; [reflexivity|exact IH|now rewrite IH]. Qed.
Lemma run_room sr acts : forall s s' e, h_run sr s acts = Some (s', e) -> (length (added_in e) + h_room s' = taken acts + h_room s)%nat.
Proof.
  induction acts as [|a acts IH]; intros s s' e H; cbn [h_run] in H; [injection H as <- <-; reflexivity|].
  destruct (h_step sr s a) as [[s1 e1]|] eqn:S; [|discriminate H]. destruct (h_run sr s1 acts) as [[s2 e2]|] eqn:R; [|discriminate H]. injection H as <- <-.
  apply step_room in S. apply IH in R. rewrite added_length. destruct a; cbn [taken] in *; lia.
Qed.

(** the stamps are those of the specification *)
Lemma stamps_nth sr st l : forall i k x, nth_error (stamps sr st i l) k = Some x -> nth_error l k = Some (fst x) /\ snd x = st + samples_duration sr (Z.of_nat (i + k)).
Proof.
  induction l as [|y l IH]; intros i k x H; [destruct k; discriminate|]. destruct k as [|k]; cbn in *.
  - injection H as <-. cbn. rewrite Nat.add_0_r. auto.
  - destruct (IH (S i) k x H) as [P Q]. split; [exact P|]. rewrite Q. do 3 f_equal. lia.
Qed.
Lemma stamps_length sr st l : forall i, length (stamps sr st i l) = length l.
Proof. induction l as [|y l IH]; intros i; cbn; [reflexivity|]. now rewrite IH. Qed.
Lemma stamps_all sr c : 0 < sr -> stamped_all sr c (chunk_stamps sr c).
Proof.
  intros S. split; [apply stamps_length|]. intros i x H. apply stamps_nth in H as [P Q]. split; [exact P|]. rewrite Q. cbn [Nat.add]. unfold samples_duration, go_div.
  rewrite Z.quot_div_nonneg by lia. reflexivity.
Qed.
Lemma stamps_chunks sr l : 0 < sr -> stamped_chunks sr l (concat (map (chunk_stamps sr) l)).
Proof. intros S. induction l as [|c l IH]; cbn; constructor; auto. now apply stamps_all. Qed.

Lemma partial_rest sr p l : exists rest, concat (map (chunk_stamps sr) l) = partial sr p l ++ rest.
Proof.
  destruct l as [|c l]; [exists []; now destruct p|]. cbn [map concat]. destruct p as [ | | |st|st i l'| | | | |old| |]; cbn [partial]; try (eexists; reflexivity).
  - exists (stamps sr (c_start c) (length (firstn i (c_samples c))) (skipn i (c_samples c)) ++ concat (map (chunk_stamps sr) l)). unfold chunk_stamps.
    rewrite app_assoc. f_equal. rewrite <- (firstn_skipn i (c_samples c)) at 1. now rewrite stamps_app.
Qed.

(** ** Work *)
Definition w (c : chunk) : nat := (20 + length (c_samples c))%nat.
Definition qw (p : qpc) : nat := match p with QStart c => w c + 6 | QTurn c => w c + 5 | QLocked c => w c + 4 | QRead c _ => w c + 3 | QWritten => 2 | QDone => 1 end%nat.
Definition total_q (l : list qpc) : nat := list_sum (map qw l).
Definition total_c (l : list chunk) : nat := list_sum (map w l).
Definition rw (p : rpc) (l : list chunk) : nat :=
  match p with
  | HTop => total_c l
  | HSeen => total_c l - 1
  | HStart => total_c l - 2
  | HRange _ => total_c l - 3
  | HAdd _ _ rest => total_c (tl l) + 10 + length rest
  | HUnlockR => total_c (tl l) + 9 | HWant => total_c (tl l) + 8 | HTurn => total_c (tl l) + 7 | HLocked => total_c (tl l) + 6 | HRead _ => total_c (tl l) + 5
  | HUnlockW => total_c l + 1
  | HPanicked => 0
  end%nat.
Definition work (s : hstate) : nat := (total_q (h_queuers s) + rw (h_reader s) (h_chunks s))%nat.
Lemma total_update l g q p : nth_error l g = Some q -> (total_q (update l g p) + qw q = total_q l + qw p)%nat.
Proof.
  intros H. destruct (update_split l g p q H) as (a & b & -> & ->). unfold total_q. rewrite !map_app, !list_sum_app. cbn [map list_sum fold_right]. lia.
Qed.
Lemma total_c_app a b : (total_c (a ++ b) = total_c a + total_c b)%nat.
Proof. unfold total_c. now rewrite map_app, list_sum_app. Qed.
Lemma total_c_cons c l : (total_c (c :: l) = 20 + length (c_samples c) + total_c l)%nat. Proof. reflexivity. Qed.
Lemma rw_app p l c : (l = [] -> p = HTop \/ p = HUnlockW) -> (rw p (l ++ [c]) <= rw p l + w c)%nat.
Proof.
  intros H. destruct l as [|x l]; [destruct (H eq_refl) as [-> | ->]; cbn [app rw]; unfold total_c; cbn; lia|].
  destruct p; cbn [app tl rw]; rewrite ?app_comm_cons, ?total_c_app; unfold total_c; cbn [map list_sum fold_right]; lia.
Qed.
Lemma step_work sr s es a s' e : inv sr s es -> a = RStep \/ (exists g, a = QStep g) -> h_step sr s a = Some (s', e) -> s' <> s -> (work s' < work s)%nat.
Proof.
  intros I [->|(g & ->)] H NE; cbn [h_step] in H.
  - destruct I as [A B C D E F G J K L M N]. unfold work. destruct (h_reader s) as [ | | |st|st i l| | | | |old| |] eqn:R; hs.
    + destruct (h_chunks s) as [|c r] eqn:Q; injection H as <- <-; [now destruct NE|]. hs. rewrite Q. cbn [rw]. rewrite total_c_cons. lia.
    + destruct (h_turn s); try discriminate. injection H as <- <-. hs. destruct (h_chunks s) as [|c r] eqn:Q; [destruct (J eq_refl); discriminate|].
      cbn [rw]. rewrite total_c_cons. lia.
    + destruct (h_chunks s) as [|c r] eqn:Q; [destruct (J eq_refl); discriminate|]. injection H as <- <-. hs. rewrite Q. cbn [rw]. rewrite total_c_cons. lia.
    + destruct (h_chunks s) as [|c r] eqn:Q; [destruct (J eq_refl); discriminate|]. injection H as <- <-. hs. rewrite Q. cbn [rw tl]. rewrite total_c_cons. lia.
    + destruct l as [|x l]; [injection H as <- <-; hs; cbn [rw length]; lia|]. destruct (h_room s); [discriminate|]. injection H as <- <-. hs. cbn [rw length]. lia.
    + injection H as <- <-. hs. cbn [rw]. lia.
    + destruct (h_turn s); try discriminate. injection H as <- <-. hs. cbn [rw]. lia.
    + destruct (h_rlocked s); [discriminate|]. injection H as <- <-. hs. cbn [rw]. lia.
    + injection H as <- <-. hs. cbn [rw]. lia.
    + rewrite (G old eq_refl) in H. destruct (h_chunks s) as [|c r] eqn:Q; [destruct (J eq_refl); discriminate|]. injection H as <- <-. hs. cbn [rw tl]. lia.
    + injection H as <- <-. hs. cbn [rw]. lia.
    + discriminate.
  - destruct (nth_error (h_queuers s) g) as [[c|c|c|c old| |]|] eqn:Q; try discriminate; unfold work.
    + destruct (h_turn s); try discriminate. injection H as <- <-. hs. pose proof (total_update _ g _ (QTurn c) Q) as U. cbn [qw] in U. lia.
    + destruct (h_rlocked s); [discriminate|]. injection H as <- <-. hs. pose proof (total_update _ g _ (QLocked c) Q) as U. cbn [qw] in U. lia.
    + injection H as <- <-. hs. pose proof (total_update _ g _ (QRead c (h_chunks s)) Q) as U. cbn [qw] in U. lia.
    + injection H as <- <-. hs. pose proof (total_update _ g _ QWritten Q) as U. cbn [qw] in U.
      rewrite (i_old _ _ _ I g c old Q). pose proof (rw_app (h_reader s) (h_chunks s) c (i_some _ _ _ I)). lia.
    + injection H as <- <-. hs. pose proof (total_update _ g _ QDone Q) as U. cbn [qw] in U. lia.
Qed.
Lemma works_bound sr s n s' : works sr s n s' -> forall es, inv sr s es -> (n <= work s)%nat.
Proof.
  induction 1 as [s|s a s1 e n s2 Ha S NE W IH|s s1 e n s2 S W IH]; intros es I; [lia| |].
  - pose proof (step_work sr s es a s1 e I Ha S NE). specialize (IH _ (step_inv sr s es a s1 e I S)). lia.
  - specialize (IH _ (step_inv sr s es Takes s1 e I S)). cbn in S. injection S as <- <-. exact IH.
Qed.

(** whoever has the turn, or nobody *)
Lemma qstep_moves sr s g p : nth_error (h_queuers s) g = Some p -> has_turn p = true -> h_rlocked s = false -> exists s' e, h_step sr s (QStep g) = Some (s', e) /\ s' <> s.
Proof.
  intros Q T R. pose proof (some_lt _ _ _ Q) as Lg. cbn [h_step]. rewrite Q.
  assert (D : forall s', nth_error (h_queuers s') g <> Some p -> s' <> s) by (intros s' X ->; now apply X).
  destruct p; try discriminate; rewrite ?R; (do 2 eexists; split; [reflexivity|]); apply D; hs; rewrite update_nth by exact Lg; rewrite Nat.eqb_refl; discriminate.
Qed.
Lemma progress sr s es : inv sr s es -> ~ finished s ->
  (exists a s' e, (a = RStep \/ exists g, a = QStep g) /\ h_step sr s a = Some (s', e) /\ s' <> s) \/
  (h_room s = 0%nat /\ exists st i x l, h_reader s = HAdd st i (x :: l)).
Proof.
  intros I NF.
  assert (RD : forall s', h_reader s' <> h_reader s -> s' <> s) by (intros s' X ->; now apply X).
  assert (RR : forall s' e, h_step sr s RStep = Some (s', e) -> h_reader s' <> h_reader s ->
    exists a s' e, (a = RStep \/ exists g, a = QStep g) /\ h_step sr s a = Some (s', e) /\ s' <> s).
  { intros s' e X Y. exists RStep, s', e. auto. }
  destruct (h_rlocked s) eqn:RL.
  - rewrite (i_rlock _ _ _ I) in RL. destruct (h_reader s) as [ | | |st|st i l| | | | |old| |] eqn:R; try discriminate; pose proof (i_some _ _ _ I) as J.
    + left. destruct (h_chunks s) as [|c r] eqn:Q; [destruct (J eq_refl); congruence|]. eapply RR; [cbn [h_step]; rewrite R, Q; reflexivity|hs; congruence].
    + left. destruct (h_chunks s) as [|c r] eqn:Q; [destruct (J eq_refl); congruence|]. eapply RR; [cbn [h_step]; rewrite R, Q; reflexivity|hs; congruence].
    + destruct l as [|x l]; [left; eapply RR; [cbn [h_step]; rewrite R; reflexivity|hs; congruence]|]. destruct (h_room s) as [|n] eqn:O.
      * right. split; [reflexivity|]. do 4 eexists. reflexivity.
      * left. eapply RR; [cbn [h_step]; rewrite R, O; reflexivity|hs]. intros X. injection X as X _. lia.
    + left. eapply RR; [cbn [h_step]; rewrite R; reflexivity|hs; congruence].
  - left. destruct (h_turn s) as [|g|] eqn:T.
    + (* nobody has the turn *)
      destruct (h_reader s) as [ | | |st|st i l| | | | |old| |] eqn:R; try (rewrite (i_rlock _ _ _ I), R in RL; discriminate); try (pose proof (proj1 (i_reader _ _ _ I)) as X; rewrite R, T in X; specialize (X eq_refl); discriminate).
      * destruct (h_chunks s) as [|c r] eqn:Q; [|eapply RR; [cbn [h_step]; rewrite R, Q; reflexivity|hs; congruence]].
        assert (E : exists g c, nth_error (h_queuers s) g = Some (QStart c)).
        { destruct (existsb (fun p => match p with QStart _ => true | _ => false end) (h_queuers s)) eqn:E.
          - apply existsb_exists in E as (p & In & Hp). destruct p; try discriminate. apply In_nth_error in In as (g & G). eauto.
          - exfalso. apply NF. split; [exact Q|]. split; [exact R|]. apply Forall_forall. intros p In. apply In_nth_error in In as (g & G).
            destruct (has_turn p) eqn:Hp; [pose proof (i_turn _ _ _ I g p G Hp); congruence|]. destruct p; try discriminate; [|reflexivity].
            apply nth_error_In in G. apply not_true_iff_false in E. destruct E. apply existsb_exists. eauto. }
        destruct E as (g & c & G). exists (QStep g). cbn [h_step]. rewrite G, T. do 2 eexists. split; [eauto|]. split; [reflexivity|].
        intros X. apply (f_equal h_turn) in X. hs. congruence.
      * eapply RR; [cbn [h_step]; rewrite R, T; reflexivity|hs; congruence].
      * eapply RR; [cbn [h_step]; rewrite R, T; reflexivity|hs; congruence].
      * now destruct (i_ok _ _ _ I).
    + destruct (i_queuer _ _ _ I g T) as (p & P & Hp). destruct (qstep_moves sr s g p P Hp RL) as (s' & e & S & NE). exists (QStep g), s', e. eauto.
    + pose proof (proj2 (i_reader _ _ _ I) T) as RT. destruct (h_reader s) as [ | | |st|st i l| | | | |old| |] eqn:R; try discriminate.
      * eapply RR; [cbn [h_step]; rewrite R, RL; reflexivity|hs; congruence].
      * eapply RR; [cbn [h_step]; rewrite R; reflexivity|hs; congruence].
      * destruct old as [|c r]; [exfalso; pose proof (i_rold _ _ _ I [] R) as X; destruct (i_some _ _ _ I (eq_sym X)); congruence|].
        eapply RR; [cbn [h_step]; rewrite R; reflexivity|hs; congruence].
      * eapply RR; [cbn [h_step]; rewrite R; reflexivity|hs; congruence].
Qed.
