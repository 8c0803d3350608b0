(** Proofs about the log of the control shell. *)
From Verif Require Import GoBase GoBaseFacts LoggingSpec CommandsModel AuthModel AuthSpec AuthProps AuditModel AuditSpec.

Section AuditProofs.
Variable key : Type.
Variable parse_public_key : text -> option key.
Variable marshal_key : key -> text.
Variable parse_error : text -> text.
Variable users : list (text * user_auth).
Notation serve := (serve key parse_public_key marshal_key parse_error users).
Notation serve_all := (serve_all key parse_public_key marshal_key parse_error users).
Notation key_try := (key_try key parse_public_key marshal_key parse_error users).
Notation password_try := (password_try users).
Notation authorised := (authorised key parse_public_key marshal_key users).

Lemma password_ok addr u p : fst (password_try addr u p) = true <-> authorised u (Password key p).
Proof.
  rewrite <- (accepts_iff key parse_public_key marshal_key users (fun _ => false) []). cbn. unfold password_handler, AuditModel.password_try.
  destruct (lookup users u) as [a|]; [|reflexivity]. destruct (_ && _)%bool; reflexivity.
Qed.
Lemma password_msgs addr u p b m : password_try addr u p = (b, m) -> m = if b then [] else [failed_msg addr u (T "password")].
Proof. unfold AuditModel.password_try. destruct (lookup users u); [destruct (_ && _)%bool|]; intros H; injection H as <- <-; reflexivity. Qed.
Lemma key_ok addr u k : fst (key_try addr u k) = true <-> authorised u (PublicKey key k).
Proof.
  rewrite <- (accepts_iff key parse_public_key marshal_key users (fun _ => false) []). cbn. unfold public_key_handler, AuditModel.key_try.
  destruct (lookup users u) as [a|]; [|reflexivity]. destruct (Nat.eqb _ 0); [reflexivity|]. destruct (parse_public_key (u_pubkey a)); [|reflexivity]. destruct (keys_equal _ _ _ _); reflexivity.
Qed.
(** the user's entry holds a key that cannot be read *)
Definition unreadable (u : text) (m : text) : Prop :=
  exists a, entry_of users u a /\ u_pubkey a <> [] /\ parse_public_key (u_pubkey a) = None /\ m = unreadable_msg u (parse_error (u_pubkey a)).
Lemma key_msgs addr u k b m : key_try addr u k = (b, m) ->
  if b then m = [] else m = [failed_msg addr u (T "public key")] \/ exists x, m = [x] /\ unreadable u x.
Proof.
  unfold AuditModel.key_try. destruct (lookup users u) as [a|] eqn:L; [|intros H; injection H as <- <-; auto]. destruct (Nat.eqb_spec (length (u_pubkey a)) 0) as [E|NE]; [intros H; injection H as <- <-; auto|].
  destruct (parse_public_key (u_pubkey a)) as [k'|] eqn:P; [destruct (keys_equal _ _ _ _); intros H; injection H as <- <-; auto|]. intros H. injection H as <- <-.
  right. eexists. split; [reflexivity|]. exists a. split; [exact (proj1 (lookup_entry key parse_public_key users u a) L)|]. split; [intros Z; now rewrite Z in NE|]. auto.
Qed.

Lemma times_app m a b : times m (a ++ b) = (times m a + times m b)%nat.
Proof. induction a as [|x a IH]; cbn; [reflexivity|]. rewrite IH. lia. Qed.
Lemma key_msg_other addr u : text_eqb (failed_msg addr u (T "public key")) (failed_msg addr u (T "password")) = false.
Proof. apply text_eqb_neq. unfold failed_msg. intros H. do 5 apply app_inv_head in H. discriminate. Qed.
Lemma unreadable_other addr u v e : text_eqb (unreadable_msg u e) (failed_msg addr v (T "password")) = false.
Proof. apply text_eqb_neq. discriminate. Qed.
(** the requests of a connection all name the same user *)
Definition of_user (u : text) (c : conn) : Prop := co_user c = None \/ co_user c = Some u.

Lemma key_times addr u k b m : key_try addr u k = (b, m) -> times (failed_msg addr u (T "password")) m = 0%nat.
Proof.
  intros H. apply key_msgs in H. destruct b; [now subst|]. destruct H as [->|(x & -> & a & _ & _ & _ & ->)]; cbn [times]; [now rewrite key_msg_other|now rewrite unreadable_other].
Qed.
Lemma serve_passwords addr u rs : forall c m c', Forall (fun r => fst r = u) rs -> of_user u c -> serve_all addr c rs = (m, Going c') ->
  times (failed_msg addr u (T "password")) m = passwords rs.
Proof.
  induction rs as [|(v & r) rs IH]; intros c m c' F O H; [cbn in H; now injection H as <- <-|]. inversion F as [|x y F1 F2]; subst. cbn [fst] in *. cbn [AuditModel.serve_all] in H.
  assert (U : match co_user c with Some u => u | None => v end = v) by (destruct O as [->| ->]; reflexivity).
  destruct r as [|p|data sg]; cbn [AuditModel.serve] in H; try rewrite U in H.
  - destruct (serve_all addr c rs) as (m2 & a) eqn:R. injection H as <- ->. cbn [app passwords]. exact (IH _ _ _ F2 O R).
  - destruct (password_try addr v p) as ([|] & m1) eqn:P; [discriminate|]. apply password_msgs in P. subst m1.
    destruct (serve_all addr _ rs) as (m2 & a) eqn:R. injection H as <- ->. cbn [app times]. rewrite text_eqb_refl. cbn [passwords plus]. f_equal. refine (IH _ _ _ F2 _ R). now right.
  - destruct (parse_public_key data) as [k|] eqn:PK; [|discriminate]. destruct (cached c v data) as [b|] eqn:CA.
    + destruct sg as [[|]|]; [destruct b; [discriminate|]|discriminate|]; (destruct (serve_all addr c rs) as (m2 & a) eqn:R; injection H as <- ->; cbn [app passwords]; exact (IH _ _ _ F2 O R)).
    + destruct (key_try addr v k) as (b & m1) eqn:K. pose proof (key_times _ _ _ _ _ K) as T0.
      destruct sg as [[|]|]; [destruct b; [discriminate|]|discriminate|];
        (destruct (serve_all addr _ rs) as (m2 & a) eqn:R; injection H as <- ->; rewrite times_app, T0; cbn [passwords plus]; refine (IH _ _ _ F2 _ R); now right).
Qed.

(** what the cache says has been logged *)
Definition key_logged (addr u : text) (msgs : list text) : Prop := In (failed_msg addr u (T "public key")) msgs \/ exists x, In x msgs /\ unreadable u x.
Definition key_outcome (addr u : text) (msgs : list text) (data : text) : Prop :=
  forall k, parse_public_key data = Some k -> authorised u (PublicKey key k) \/ key_logged addr u msgs.
Definition cache_ok (addr u : text) (msgs : list text) (c : conn) : Prop :=
  forall v data b, In (v, data, b) (co_cache c) -> v = u -> key_outcome addr u msgs data.
Lemma logged_mono addr u a b d : key_outcome addr u a d -> (forall x, In x a -> In x b) -> key_outcome addr u b d.
Proof. intros H I k P. destruct (H k P) as [A|[L|(x & L & X)]]; [now left|right; left; auto|right; right; eauto]. Qed.
Lemma cached_in c v data b : cached c v data = Some b -> exists w d, In (w, d, b) (co_cache c) /\ w = v /\ d = data.
Proof.
  unfold cached. destruct (find _ _) as [((w & d) & b')|] eqn:F; [|discriminate]. intros H. injection H as <-. apply find_some in F as (I & E). cbn in E.
  apply andb_prop in E as (E1 & E2). apply text_eqb_eq in E1, E2. eauto.
Qed.
Lemma serve_keys addr u rs : forall c pre m a, Forall (fun r => fst r = u) rs -> of_user u c -> cache_ok addr u pre c -> serve_all addr c rs = (m, a) ->
  (exists c', a = Going c') -> forall data sg, In (u, RKey data sg) rs -> key_outcome addr u (pre ++ m) data.
Proof.
  induction rs as [|(v & r) rs IH]; intros c pre m a F O C H A data sg I; [easy|]. pose proof (Forall_inv F) as F1. pose proof (Forall_inv_tail F) as F2. cbn [fst] in F1. subst v. clear F. cbn [AuditModel.serve_all] in H.
  assert (U : match co_user c with Some u => u | None => u end = u) by (destruct O as [->| ->]; reflexivity).
  (* the head, then the rest *)
  assert (REST : forall c1 m1 m2, serve_all addr c1 rs = (m2, a) -> m = m1 ++ m2 -> of_user u c1 -> cache_ok addr u (pre ++ m1) c1 ->
    (forall d s, r = RKey d s -> key_outcome addr u (pre ++ m1) d) -> key_outcome addr u (pre ++ m) data).
  { intros c1 m1 m2 R -> O1 C1 HD. rewrite app_assoc. destruct I as [E|I].
    - injection E as ->. eapply logged_mono; [eapply HD; reflexivity|]. intros x X. apply in_app_iff. auto.
    - eapply (IH c1 (pre ++ m1) m2 a); eauto. }
  destruct r as [|p|d s]; cbn [AuditModel.serve] in H; try rewrite U in H.
  - destruct (serve_all addr c rs) as (m2 & a2) eqn:R. injection H as <- <-. eapply (REST c [] m2); eauto; [rewrite app_nil_r; exact C|discriminate].
  - destruct (password_try addr u p) as ([|] & m1) eqn:P; [injection H as <- <-; destruct A; discriminate|].
    destruct (serve_all addr _ rs) as (m2 & a2) eqn:R. injection H as <- <-. eapply (REST _ m1 m2); eauto; [now right| |discriminate].
    intros w d b In E. eapply logged_mono; [eapply C; eauto|]. intros x X. apply in_app_iff. auto.
  - destruct (parse_public_key d) as [k|] eqn:PK; [|injection H as <- <-; destruct A; discriminate].
    destruct (cached c u d) as [b|] eqn:CA.
    + apply cached_in in CA as (w & d' & In & -> & ->).
      assert (G : forall m2, serve_all addr c rs = (m2, a) -> m = [] ++ m2 -> key_outcome addr u (pre ++ m) data).
      { intros m2 R E. eapply (REST c [] m2); eauto; rewrite app_nil_r; [exact C|]. intros d2 s2 E2. injection E2 as <- <-. eapply C; eauto. }
      destruct s as [[|]|]; [destruct b; [injection H as <- <-; destruct A; discriminate|]|injection H as <- <-; destruct A; discriminate|];
        (destruct (serve_all addr c rs) as (m2 & a2) eqn:R; injection H as <- <-; eapply G; eauto).
    + destruct (key_try addr u k) as (b & m1) eqn:K.
      assert (KO : key_outcome addr u (pre ++ m1) d).
      { intros k' P'. rewrite PK in P'. injection P' as <-. pose proof (key_ok addr u k) as KK. rewrite K in KK. cbn in KK. apply key_msgs in K. destruct b; [left; now apply KK|].
        right. destruct K as [->|(x & -> & X)]; [left|right; exists x; split; [|exact X]]; apply in_app_iff; right; now left. }
      set (c1 := {| co_user := Some u; co_cache := if (length (co_cache c) <? 16)%nat then co_cache c ++ [(u, d, b)] else co_cache c |}) in *.
      assert (C1 : cache_ok addr u (pre ++ m1) c1).
      { assert (OLD : forall w e b', In (w, e, b') (co_cache c) -> w = u -> key_outcome addr u (pre ++ m1) e).
        { intros w e b' In E. eapply logged_mono; [eapply C; eauto|]. intros x X. apply in_app_iff. auto. }
        intros w e b' In E. unfold c1 in In. cbn [co_cache] in In. destruct (length (co_cache c) <? 16)%nat; [|eauto]. apply in_app_iff in In as [In|[E2|[]]]; [eauto|]. injection E2 as <- <- <-. exact KO. }
      assert (G : forall m2, serve_all addr c1 rs = (m2, a) -> m = m1 ++ m2 -> key_outcome addr u (pre ++ m) data).
      { intros m2 R E. eapply (REST c1 m1 m2); eauto; [now right|]. intros d2 s2 E2. injection E2 as <- <-. exact KO. }
      destruct s as [[|]|]; [destruct b; [injection H as <- <-; destruct A; discriminate|]|injection H as <- <-; destruct A; discriminate|];
        (destruct (serve_all addr c1 rs) as (m2 & a2) eqn:R; injection H as <- <-; eapply G; eauto).
Qed.

(** requests of somebody who is authorised *)
Definition request_ok (u : text) (r : request) : Prop :=
  match r with RNoAuth => True | RPassword p => authorised u (Password key p) | RKey d _ => forall k, parse_public_key d = Some k -> authorised u (PublicKey key k) end.
Lemma serve_quiet addr u rs : forall c m a, Forall (fun r => fst r = u /\ request_ok u (snd r)) rs -> of_user u c -> serve_all addr c rs = (m, a) -> m = [].
Proof.
  induction rs as [|(v & r) rs IH]; intros c m a F O H; [cbn in H; now injection H|]. pose proof (Forall_inv F) as (F1 & F3). pose proof (Forall_inv_tail F) as F2. cbn [fst snd] in F1, F3. subst v. clear F. cbn [AuditModel.serve_all] in H.
  assert (U : match co_user c with Some u => u | None => u end = u) by (destruct O as [->| ->]; reflexivity).
  destruct r as [|p|d s]; cbn [AuditModel.serve] in H; try rewrite U in H.
  - destruct (serve_all addr c rs) as (m2 & a2) eqn:R. injection H as <- <-. cbn. eauto.
  - cbn in F3. apply (password_ok addr) in F3. destruct (password_try addr u p) as (b & m1) eqn:P. cbn in F3. subst b. apply password_msgs in P. subst m1. now injection H as <- <-.
  - cbn in F3. destruct (parse_public_key d) as [k|] eqn:PK; [|now injection H as <- <-]. specialize (F3 k eq_refl).
    destruct (cached c u d) as [b|].
    + destruct s as [[|]|]; [destruct b; [now injection H as <- <-|]|now injection H as <- <-|]; (destruct (serve_all addr c rs) as (m2 & a2) eqn:R; injection H as <- <-; cbn; eauto).
    + apply (key_ok addr) in F3. destruct (key_try addr u k) as (b & m1) eqn:K. cbn in F3. subst b. apply key_msgs in K. subst m1.
      destruct s as [[|]|]; [now injection H as <- <-|now injection H as <- <-|]. destruct (serve_all addr _ rs) as (m2 & a2) eqn:R. injection H as <- <-. cbn. refine (IH _ _ _ F2 _ R). now right.
Qed.
End AuditProofs.

(** *** lines *)
Lemma app_eq_len {A} (a b c d : list A) : length a = length b -> a ++ c = b ++ d -> a = b /\ c = d.
Proof. revert b. induction a as [|x a IH]; intros [|y b] L E; cbn in *; try lia; [auto|]. injection E as -> E. destruct (IH b) as (-> & ->); auto. Qed.
Lemma until {A} (x : A) a : forall b c d, ~ In x a -> ~ In x b -> a ++ x :: c = b ++ x :: d -> a = b /\ c = d.
Proof.
  induction a as [|y a IH]; intros [|z b] c d NA NB E; cbn in *.
  - split; [reflexivity|congruence].
  - exfalso. apply NB. left. congruence.
  - exfalso. apply NA. left. congruence.
  - assert (y = z) by congruence. subst z. assert (E2 : a ++ x :: c = b ++ x :: d) by congruence. destruct (IH b c d) as (-> & ->); auto.
Qed.
Lemma short_len s : length (short s) = 3%nat. Proof. now destruct s. Qed.
Lemma short_inj s t : short s = short t -> s = t. Proof. now destruct s, t. Qed.
Lemma four_len n : length (four n) = 4%nat.
Proof. unfold four. rewrite firstn_length, app_length. change (length (T "    ")) with 4%nat. lia. Qed.
Lemma line_inj s n d m s' n' d' m' r r' : length d = 23%nat -> length d' = 23%nat -> ~ In 10%N m -> ~ In 10%N m' ->
  log_line s n d m ++ r = log_line s' n' d' m' ++ r' -> (s, four n, d, m) = (s', four n', d', m') /\ r = r'.
Proof.
  intros L L' M M' E. unfold log_line in E. rewrite <- !app_assoc in E.
  apply app_eq_len in E as (_ & E); [|reflexivity]. apply app_eq_len in E as (S & E); [|now rewrite !short_len]. apply app_eq_len in E as (_ & E); [|reflexivity].
  apply app_eq_len in E as (F & E); [|now rewrite !four_len]. apply app_eq_len in E as (_ & E); [|reflexivity]. apply app_eq_len in E as (D & E); [|congruence].
  apply app_eq_len in E as (_ & E); [|reflexivity]. apply until in E as (-> & ->); auto. apply short_inj in S. subst. now rewrite F.
Qed.
Lemma line_not_nil s n d m : log_line s n d m <> []. Proof. discriminate. Qed.
Lemma text_inj es : forall fs, Forall one_line es -> Forall one_line fs -> log_text es = log_text fs -> map readable es = map readable fs.
Proof.
  induction es as [|e es IH]; intros [|f fs] F G E; cbn in E.
  - reflexivity.
  - discriminate.
  - discriminate.
  - inversion F as [|x y (F1 & F2) F3]; inversion G as [|x2 y2 (G1 & G2) G3]; subst. fold (log_text es) in E. fold (log_text fs) in E.
    apply line_inj in E as (R & E); auto. cbn. unfold readable at 1 3. rewrite R. f_equal. auto.
Qed.

(** *** sessions *)
Lemma loop_session reg addr user err ins : forall st ended st' out, read_loop reg ins st = Ok (ended, st', out) ->
  exists m, loop_log reg addr user err ins st = Ok m /\ (ended = true -> m = [closed_msg addr user] \/ m = [error_msg addr user err]) /\ (ended = false -> m = []).
Proof.
  induction ins as [|i ins IH]; intros st ended st' out R; [cbn in *; injection R as <- <- <-; eexists; repeat split; discriminate|].
  destruct i as [l|l| |]; cbn in *.
  - destruct (handle_line reg l st) as [((go & st1) & o)|]; cbn in *; [|discriminate]. destruct go; [|injection R as <- <- <-; eexists; repeat split; auto; discriminate].
    destruct (read_loop reg ins st1) as [((e2 & st2) & o2)|] eqn:E; cbn in R; [|discriminate]. injection R as <- <- <-. eauto.
  - destruct (handle_line reg l st) as [((go & st1) & o)|]; cbn in *; [|discriminate]. destruct go; [|injection R as <- <- <-; eexists; repeat split; auto; discriminate].
    destruct (read_loop reg ins st1) as [((e2 & st2) & o2)|] eqn:E; cbn in R; [|discriminate]. injection R as <- <- <-. eauto.
  - injection R as <- <- <-. eexists; repeat split; auto; discriminate.
  - injection R as <- <- <-. eexists; repeat split; auto; discriminate.
Qed.
