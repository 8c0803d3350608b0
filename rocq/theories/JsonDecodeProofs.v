(** Proofs about the decoding of JSON values into lyrics and users. *)
From Verif Require Import GoBase GoBaseFacts GoFmt GoUtf8 NumberSpec NumberProofs AuthModel JsonSpec JsonModel JsonProofs.
Local Open Scope N_scope.
Local Open Scope bool_scope.

(** * Names *)
Definition letter (c : N) : Prop := 65 <= c <= 90 \/ 97 <= c <= 122.
Definition below128 : list N := map N.of_nat (seq 0 128).
Lemma below128_in x : x < 128 -> In x below128.
Proof. intro H. unfold below128. apply in_map_iff. exists (N.to_nat x). split; [lia|]. apply in_seq. lia. Qed.
Definition letterb (c : N) : bool := between 65 90 c || between 97 122 c.
Lemma letterb_spec c : letterb c = true <-> letter c.
Proof. unfold letterb, letter, between. rewrite orb_true_iff, !andb_true_iff, !N.leb_le. tauto. Qed.
Definition same_letter (c x : N) : bool :=
  (c =? x) || between 97 122 c && (x =? c - 32) || between 65 90 c && (x =? c + 32).
Lemma fold_table : forallb (fun c => forallb (fun x => negb (letterb c) || Bool.eqb (N.land c 0xDF =? N.land x 0xDF) (same_letter c x)) below128) below128 = true.
Proof. vm_compute. reflexivity. Qed.
Lemma fold_letter c x : letter c -> x < 128 -> (N.land c 0xDF =? N.land x 0xDF) = same_letter c x.
Proof.
  intros Hc Hx. pose proof fold_table as F. rewrite forallb_forall in F.
  assert (C : c < 128) by (unfold letter in Hc; lia). specialize (F c (below128_in c C)). cbv beta in F.
  rewrite forallb_forall in F. specialize (F x (below128_in x Hx)). cbv beta in F.
  rewrite (proj2 (letterb_spec c) Hc) in F. cbn [negb orb] in F. now apply eqb_prop.
Qed.
Lemma same_letter_spec c x : same_letter c x = true <-> x = c \/ (97 <= c <= 122 /\ x = c - 32 \/ 65 <= c <= 90 /\ x = c + 32).
Proof. unfold same_letter, between. rewrite !orb_true_iff, !andb_true_iff, !N.leb_le, !N.eqb_eq. intuition. Qed.
Lemma upper_table : forallb (fun c => negb (letterb c) || (Bool.eqb (N.land c 0xDF =? 83) ((c =? 115) || (c =? 83)) && Bool.eqb (N.land c 0xDF =? 75) ((c =? 107) || (c =? 75)))) below128 = true.
Proof. vm_compute. reflexivity. Qed.
Lemma upper_letter c : letter c -> ((N.land c 0xDF =? 83) = true <-> c = 115 \/ c = 83) /\ ((N.land c 0xDF =? 75) = true <-> c = 107 \/ c = 75).
Proof.
  intro Hc. pose proof upper_table as F. rewrite forallb_forall in F.
  assert (C : c < 128) by (unfold letter in Hc; lia). specialize (F c (below128_in c C)). cbv beta in F.
  rewrite (proj2 (letterb_spec c) Hc) in F. cbn [negb orb] in F. apply andb_prop in F as [A B].
  apply eqb_prop in A, B. rewrite A, B, !orb_true_iff, !N.eqb_eq. tauto.
Qed.

Lemma fold_eq_named n : Forall letter n -> forall k, fold_eq n k = true <-> named n k.
Proof.
  induction 1 as [|c n Hc Hn IH]; intro k.
  - cbn. destruct k; split; intro H; try discriminate; try constructor; inversion H.
  - destruct (upper_letter c Hc) as [U1 U2]. split.
    + destruct k as [|x k]; cbn [fold_eq]; [discriminate|]. destruct (N.ltb_spec x 128) as [L|L].
      * rewrite (fold_letter c x Hc L). intro H. apply andb_prop in H as [A B]. apply IH in B.
        apply same_letter_spec in A as [-> | A]; [now apply named_same|now apply named_case].
      * destruct (N.land c 0xDF =? 83) eqn:S.
        { destruct k as [|y k]; [discriminate|]. intro H. rewrite !andb_true_iff, !N.eqb_eq in H. destruct H as [[-> ->] B].
          apply IH in B. apply named_s; [now apply U1|exact B]. }
        destruct (N.land c 0xDF =? 75) eqn:K; [|discriminate].
        destruct k as [|y [|z k]]; try discriminate. intro H. rewrite !andb_true_iff, !N.eqb_eq in H. destruct H as [[[-> ->] ->] B].
        apply IH in B. apply named_k; [now apply U2|exact B].
    + intro H. inversion H as [|c' n' k' L B|c' x n' k' X B|c' n' k' X B|c' n' k' X B]; subst; apply IH in B.
      * cbn [fold_eq]. destruct (N.ltb_spec c 128); [|lia]. rewrite N.eqb_refl. exact B.
      * assert (L : x < 128) by lia. cbn [fold_eq]. destruct (N.ltb_spec x 128); [|lia].
        rewrite (fold_letter c x Hc L). rewrite (proj2 (same_letter_spec c x)) by (right; exact X). exact B.
      * cbn [fold_eq]. change (0xC5 <? 128) with false. cbn iota. rewrite (proj2 U1 X). exact B.
      * cbn [fold_eq]. change (0xE2 <? 128) with false. cbn iota.
        replace (N.land c 0xDF =? 83) with false by (destruct X as [-> | ->]; reflexivity). rewrite (proj2 U2 X). exact B.
Qed.
(** a key names at most one field *)
Lemma fold_eq_unique : forall n n' k, fold_eq n k = true -> fold_eq n' k = true ->
  map (fun c => N.land c 0xDF) n = map (fun c => N.land c 0xDF) n'.
Proof.
  induction n as [|c n IH]; intros [|c' n'] [|x k]; cbn [fold_eq]; try discriminate; [reflexivity|].
  destruct (x <? 128).
  - intros H H'. apply andb_prop in H as [A B], H' as [A' B']. apply N.eqb_eq in A, A'. cbn [map]. rewrite A, A', (IH n' k B B'). reflexivity.
  - destruct (N.land c 0xDF =? 83) eqn:S, (N.land c' 0xDF =? 83) eqn:S'.
    + destruct k as [|y k]; [discriminate|]. intros H H'. apply andb_prop in H as [_ B], H' as [_ B'].
      apply N.eqb_eq in S, S'. cbn [map]. rewrite S, S', (IH n' k B B'). reflexivity.
    + destruct (N.land c' 0xDF =? 75); [|discriminate]. destruct k as [|y [|z k]]; try discriminate.
      intros H H'. rewrite !andb_true_iff, !N.eqb_eq in *. exfalso. intuition (subst; discriminate).
    + destruct (N.land c 0xDF =? 75); [|discriminate]. destruct k as [|y [|z k]]; try discriminate.
      intros H H'. rewrite !andb_true_iff, !N.eqb_eq in *. exfalso. intuition (subst; discriminate).
    + destruct (N.land c 0xDF =? 75) eqn:K; [|discriminate]. destruct (N.land c' 0xDF =? 75) eqn:K'; [|discriminate].
      destruct k as [|y [|z k]]; try discriminate. intros H H'. apply andb_prop in H as [_ B], H' as [_ B'].
      apply N.eqb_eq in K, K'. cbn [map]. rewrite K, K', (IH n' k B B'). reflexivity.
Qed.
Lemma names_letters : Forall letter (T "timestamp") /\ Forall letter (T "caption") /\ Forall letter (T "password") /\ Forall letter (T "pubKey").
Proof.
  assert (G : forall n, forallb letterb n = true -> Forall letter n).
  { intros n H. rewrite forallb_forall in H. apply Forall_forall. intros x I. apply letterb_spec, H, I. }
  repeat split; apply G; vm_compute; reflexivity.
Qed.
Definition named_ts := fold_eq_named _ (proj1 names_letters).
Definition named_cap := fold_eq_named _ (proj1 (proj2 names_letters)).
Definition named_pw := fold_eq_named _ (proj1 (proj2 (proj2 names_letters))).
Definition named_key := fold_eq_named _ (proj2 (proj2 (proj2 names_letters))).
Lemma not_both_atom k : fold_eq (T "timestamp") k = true -> fold_eq (T "caption") k = false.
Proof. intro H. destruct (fold_eq (T "caption") k) eqn:E; [|reflexivity]. pose proof (fold_eq_unique _ _ _ H E) as X. vm_compute in X. discriminate. Qed.
Lemma not_both_user k : fold_eq (T "password") k = true -> fold_eq (T "pubKey") k = false.
Proof. intro H. destruct (fold_eq (T "pubKey") k) eqn:E; [|reflexivity]. pose proof (fold_eq_unique _ _ _ H E) as X. vm_compute in X. discriminate. Qed.

(** * Members *)
Definition nullb (v : jvalue) : bool := match v with JNull => true | _ => false end.
Lemma nullb_spec v : nullb v = true <-> v = JNull.
Proof. destruct v; split; intro H; try discriminate; reflexivity. Qed.
(** the last member of the name ([keep]: that is not null) *)
Definition lastv (keep : jvalue -> bool) (name : bytes) (l : list (bytes * jvalue)) : option jvalue :=
  match find (fun m => fold_eq name (fst m) && keep (snd m)) (rev l) with Some m => Some (snd m) | None => None end.
Lemma lastv_snoc keep name l k v :
  lastv keep name (l ++ [(k, v)]) = if fold_eq name k && keep v then Some v else lastv keep name l.
Proof. unfold lastv. rewrite rev_unit. cbn [find fst snd]. destruct (fold_eq name k && keep v); reflexivity. Qed.

Section Named.
Variable name : bytes.
Hypothesis named_name : forall k, fold_eq name k = true <-> named name k.
Lemma lastv_some keep l v : lastv keep name l = Some v <->
  exists before k after, l = before ++ (k, v) :: after /\ named name k /\ keep v = true /\
    forall k' v', In (k', v') after -> named name k' -> keep v' = false.
Proof.
  induction l as [|[k0 v0] l IH] using rev_ind.
  - split; [discriminate|]. intros ([|? ?] & ? & ? & E & _); discriminate.
  - rewrite lastv_snoc. destruct (fold_eq name k0 && keep v0) eqn:F.
    + apply andb_prop in F as [F1 F2]. split.
      * intros [= <-]. exists l, k0, []. split; [reflexivity|]. split; [now apply named_name|]. split; [exact F2|]. intros ? ? [].
      * intros (b & k & a & E & Hk & Kv & Ha). destruct a as [|m a] using rev_ind.
        { apply app_inj_tail in E as [_ [= <- <-]]. reflexivity. }
        rewrite app_comm_cons, app_assoc in E. apply app_inj_tail in E as [_ <-].
        exfalso. rewrite (Ha k0 v0) in F2; [discriminate|apply in_or_app; right; now left|now apply named_name].
    + rewrite IH. split.
      * intros (b & k & a & -> & Hk & Kv & Ha). exists b, k, (a ++ [(k0, v0)]). split; [now rewrite <- app_assoc|].
        split; [exact Hk|]. split; [exact Kv|]. intros k' v' I N. apply in_app_or in I as [I|[[= <- <-]|[]]]; [now apply (Ha k')|].
        apply named_name in N. rewrite N in F. exact F.
      * intros (b & k & a & E & Hk & Kv & Ha). destruct a as [|m a] using rev_ind.
        { apply app_inj_tail in E as [_ [= -> ->]]. apply named_name in Hk. rewrite Hk, Kv in F. discriminate. }
        rewrite app_comm_cons, app_assoc in E. apply app_inj_tail in E as [-> _].
        exists b, k, a. split; [reflexivity|]. split; [exact Hk|]. split; [exact Kv|]. intros k' v' I N.
        apply (Ha k' v'); [apply in_or_app; now left|exact N].
Qed.
Lemma lastv_none keep l : lastv keep name l = None <-> forall k v, In (k, v) l -> named name k -> keep v = false.
Proof.
  induction l as [|[k0 v0] l IH] using rev_ind; [split; [intros _ ? ? []|reflexivity]|].
  rewrite lastv_snoc. destruct (fold_eq name k0 && keep v0) eqn:F.
  - split; [discriminate|]. intro H. apply andb_prop in F as [F1 F2].
    rewrite (H k0 v0) in F2; [discriminate|apply in_or_app; right; now left|now apply named_name].
  - rewrite IH. split; intros H k v I N.
    + apply in_app_or in I as [I|[[= <- <-]|[]]]; [now apply (H k)|]. apply named_name in N. rewrite N in F. exact F.
    + apply (H k v); [apply in_or_app; now left|exact N].
Qed.
Lemma last_is_lastv l v : last_is name l v <-> lastv (fun v => negb (nullb v)) name l = Some v.
Proof.
  rewrite lastv_some. unfold last_is.
  assert (A : forall v, v <> JNull <-> negb (nullb v) = true) by (intro u; destruct u; cbn; split; intro H; congruence).
  assert (B : forall v, v = JNull <-> negb (nullb v) = false) by (intro u; destruct u; cbn; split; intro H; congruence).
  split; intros (b & k & a & E & Hk & Kv & Ha); exists b, k, a; (split; [exact E|]; split; [exact Hk|]; split; [now apply A|]);
    intros k' v' I N; apply B; eauto.
Qed.
Lemma none_is_lastv l : none_is name l <-> lastv (fun v => negb (nullb v)) name l = None.
Proof.
  rewrite lastv_none. unfold none_is.
  assert (B : forall v, v = JNull <-> negb (nullb v) = false) by (intro u; destruct u; cbn; split; intro H; congruence).
  split; intros H k v I N; apply B; eauto.
Qed.
Lemma final_is_lastv l v : final_is name l v <-> lastv (fun _ => true) name l = Some v.
Proof.
  rewrite lastv_some. unfold final_is. split.
  - intros (b & k & a & E & Hk & Ha); exists b, k, a. repeat split; auto. intros k' v' I N. exfalso. now apply (Ha k' v').
  - intros (b & k & a & E & Hk & _ & Ha); exists b, k, a. repeat split; auto. intros k' v' I N. specialize (Ha k' v' I N). discriminate.
Qed.
Lemma absent_lastv l : absent name l <-> lastv (fun _ => true) name l = None.
Proof.
  rewrite lastv_none. unfold absent. split; intros H k v I N; [exfalso; now apply (H k v)|specialize (H k v I N); discriminate].
Qed.
Lemma all_are_forallb (ok : jvalue -> bool) (P : jvalue -> Prop) l : (forall v, ok v = true <-> v = JNull \/ P v) ->
  (all_are P name l <-> forallb (fun m => negb (fold_eq name (fst m)) || ok (snd m)) l = true).
Proof.
  intro H. unfold all_are. rewrite forallb_forall. split.
  - intros A [k v] I. cbn. destruct (fold_eq name k) eqn:F; [|reflexivity]. cbn. apply H, (A k v I). now apply named_name.
  - intros A k v I N. specialize (A (k, v) I). cbn in A. rewrite (proj2 (named_name k) N) in A. now apply H.
Qed.
End Named.

Lemma store_members_snoc {A} (store : bytes -> jvalue -> A -> option A) l k v : forall a,
  store_members store (l ++ [(k, v)]) a = match store_members store l a with Some a' => store k v a' | None => None end.
Proof.
  induction l as [|[k0 v0] l IH]; intro a; cbn; [destruct (store k v a); reflexivity|].
  destruct (store k0 v0 a); [apply IH|reflexivity].
Qed.
Lemma map_opt_forall2 {A B} (f : A -> option B) (R : A -> B -> Prop) : (forall x y, f x = Some y <-> R x y) ->
  forall l s, map_opt f l = Some s <-> Forall2 R l s.
Proof.
  intro H. induction l as [|x l IH]; intro s; cbn.
  - split; [intros [= <-]; constructor|]. inversion 1. reflexivity.
  - split.
    + destruct (f x) as [y|] eqn:F; [|discriminate]. destruct (map_opt f l) as [s'|] eqn:M; [|discriminate].
      intros [= <-]. constructor; [now apply H|now apply IH].
    + inversion 1 as [|? y ? s' Hx Hl]; subst. apply H in Hx. apply IH in Hl. now rewrite Hx, Hl.
Qed.

(** * Lyrics *)
Definition ok_ts (v : jvalue) : bool :=
  match v with JNull => true | JNumber t => match atoi t with Some _ => true | None => false end | _ => false end.
Definition ok_text (v : jvalue) : bool := match v with JNull | JString _ => true | _ => false end.
Definition ts_of (o : option jvalue) : Z :=
  match o with Some (JNumber t) => match atoi t with Some z => z | None => 0%Z end | _ => 0%Z end.
Definition text_of (o : option jvalue) : bytes := match o with Some (JString s) => s | _ => [] end.
Notation not_null := (fun v => negb (nullb v)).
Lemma store_atom_members l :
  store_members store_atom l (0%Z, []) =
  if forallb (fun m => negb (fold_eq (T "timestamp") (fst m)) || ok_ts (snd m)) l &&
     forallb (fun m => negb (fold_eq (T "caption") (fst m)) || ok_text (snd m)) l
  then Some (ts_of (lastv not_null (T "timestamp") l), text_of (lastv not_null (T "caption") l)) else None.
Proof.
  induction l as [|[k v] l IH] using rev_ind; [reflexivity|]. rewrite store_members_snoc, IH, !forallb_app, !lastv_snoc.
  set (A := forallb (fun m => negb (fold_eq (T "timestamp") (fst m)) || ok_ts (snd m)) l) in *.
  set (B := forallb (fun m => negb (fold_eq (T "caption") (fst m)) || ok_text (snd m)) l) in *. clearbody A B. cbn [forallb fst snd]. rewrite !andb_true_r.
  destruct A; cbn [andb]; [|reflexivity]. destruct B; cbn [andb]; [|now rewrite andb_false_r]. unfold store_atom.
  destruct (fold_eq (T "timestamp") k) eqn:F.
  - rewrite (not_both_atom k F). cbn [negb orb andb fst snd]. rewrite andb_true_r.
    destruct v as [|b|t|s|a|o]; cbn; try reflexivity. destruct (atoi t); reflexivity.
  - destruct (fold_eq (T "caption") k) eqn:G; cbn [negb orb andb fst snd]; [|reflexivity].
    destruct v as [|b|t|s|a|o]; cbn; reflexivity.
Qed.
Lemma ok_ts_spec v : ok_ts v = true <-> v = JNull \/ exists z, integer v z.
Proof.
  unfold integer. destruct v as [|b|t|s|a|o]; cbn; split; intro H; try discriminate; auto;
    try (destruct H as [H|(z & t' & H & _)]; discriminate).
  - destruct (atoi t) as [z|] eqn:E; [|discriminate]. right. exists z, t. split; [reflexivity|]. now apply atoi_reads.
  - destruct H as [H|(z & t' & [= <-] & R)]; [discriminate|]. apply atoi_reads in R. now rewrite R.
Qed.
Lemma ok_text_spec v : ok_text v = true <-> v = JNull \/ exists s, v = JString s.
Proof. destruct v; cbn; split; intro H; try discriminate; eauto; destruct H as [H|[? H]]; discriminate. Qed.
(** the fields of an object, as the specification has them *)
Lemma text_field name l s : (forall k, fold_eq name k = true <-> named name k) ->
  forallb (fun m => negb (fold_eq name (fst m)) || ok_text (snd m)) l = true ->
  (text_of (lastv not_null name l) = s <-> last_is name l (JString s) \/ none_is name l /\ s = []).
Proof.
  intros N A. rewrite (last_is_lastv name N), (none_is_lastv name N). destruct (lastv not_null name l) as [v|] eqn:L.
  - apply (lastv_some name N) in L as (b & k & a & -> & Hk & Kv & _).
    rewrite forallb_app in A. apply andb_prop in A as [_ A]. cbn in A. apply andb_prop in A as [A _].
    rewrite (proj2 (N k) Hk) in A. cbn in A. destruct v as [|?|?|s'|?|?]; try discriminate. cbn. split.
    + intros ->. auto.
    + intros [[= ->]|[H _]]; [reflexivity|discriminate].
  - cbn. split; [intros <-; auto|]. intros [H|[_ ->]]; [discriminate|reflexivity].
Qed.
Lemma ts_field name l z : (forall k, fold_eq name k = true <-> named name k) ->
  forallb (fun m => negb (fold_eq name (fst m)) || ok_ts (snd m)) l = true ->
  (ts_of (lastv not_null name l) = z <-> (exists x, last_is name l x /\ integer x z) \/ none_is name l /\ z = 0%Z).
Proof.
  intros N A. rewrite (none_is_lastv name N).
  assert (E : (exists x, last_is name l x /\ integer x z) <-> exists x, lastv not_null name l = Some x /\ integer x z).
  { split; intros (x & H & I); exists x; (split; [|exact I]); now apply (last_is_lastv name N). }
  rewrite E. clear E. destruct (lastv not_null name l) as [v|] eqn:L.
  - apply (lastv_some name N) in L as (b & k & a & -> & Hk & Kv & _).
    rewrite forallb_app in A. apply andb_prop in A as [_ A]. cbn in A. apply andb_prop in A as [A _].
    rewrite (proj2 (N k) Hk) in A. cbn in A. destruct v as [|?|t|?|?|?]; try discriminate. cbn in *.
    destruct (atoi t) as [z'|] eqn:T; [|discriminate]. split.
    + intros <-. left. exists (JNumber t). split; [reflexivity|]. exists t. split; [reflexivity|]. now apply atoi_reads.
    + intros [(x & [= <-] & t' & [= <-] & R)|[H _]]; [|discriminate]. apply atoi_reads in R. congruence.
  - cbn. split; [intros <-; auto|]. intros [(x & H & _)|[_ ->]]; [discriminate|reflexivity].
Qed.

Lemma decode_atom_spec v a : decode_atom v = Some a <-> atom_denotes v (fst a) (snd a).
Proof.
  destruct a as [ts cap]. cbn [fst snd]. unfold atom_denotes. split.
  - destruct v as [|b|t|s|l|l]; try discriminate; cbn [decode_atom].
    + intros [= <- <-]. auto.
    + rewrite store_atom_members. destruct (forallb _ l && forallb _ l) eqn:F; [|discriminate]. apply andb_prop in F as [F1 F2].
      intro H. injection H as H1 H2. right. exists l. split; [reflexivity|].
      split; [now apply (all_are_forallb _ named_ts _ _ l ok_ts_spec)|].
      split; [now apply (all_are_forallb _ named_cap _ _ l ok_text_spec)|].
      split; [now apply (ts_field _ _ _ named_ts)|now apply (text_field _ _ _ named_cap)].
  - intros [(-> & -> & ->)|(l & -> & A & B & C & D)]; [reflexivity|]. cbn [decode_atom]. rewrite store_atom_members.
    apply (all_are_forallb _ named_ts _ _ l ok_ts_spec) in A. apply (all_are_forallb _ named_cap _ _ l ok_text_spec) in B.
    rewrite A, B. cbn [andb]. apply (ts_field _ _ _ named_ts A) in C. apply (text_field _ _ _ named_cap B) in D. now rewrite C, D.
Qed.
Lemma decode_line_spec v line : decode_line v = Some line <-> line_denotes v line.
Proof.
  unfold line_denotes. destruct v as [|b|t|s|l|l]; cbn [decode_line]; try (split; [discriminate|]; intros [[H _]|(l' & H & _)]; discriminate).
  - split; [intros [= <-]; auto|]. intros [[_ ->]|(l' & H & _)]; [reflexivity|discriminate].
  - rewrite (map_opt_forall2 decode_atom _ decode_atom_spec). split; [eauto|]. intros [[H _]|(l' & [= <-] & F)]; [discriminate|exact F].
Qed.
Lemma decode_lyrics_spec v ly : decode_lyrics v = Some ly <-> lyrics_denote v ly.
Proof.
  unfold lyrics_denote. destruct v as [|b|t|s|l|l]; cbn [decode_lyrics]; try (split; [discriminate|]; intros [[H _]|(l' & H & _)]; discriminate).
  - split; [intros [= <-]; auto|]. intros [[_ ->]|(l' & H & _)]; [reflexivity|discriminate].
  - rewrite (map_opt_forall2 decode_line _ decode_line_spec). split; [eauto|]. intros [[H _]|(l' & [= <-] & F)]; [discriminate|exact F].
Qed.

(** * Users *)
Lemma b64val_spec c d : b64val c = Some d <-> b64_char c d.
Proof.
  unfold b64val, b64_char, between.
  destruct ((65 <=? c) && (c <=? 90)) eqn:A; [|destruct ((97 <=? c) && (c <=? 122)) eqn:B; [|destruct ((48 <=? c) && (c <=? 57)) eqn:C;
    [|destruct (N.eqb_spec c 43); [|destruct (N.eqb_spec c 47)]]]];
    split; intro H; try (injection H as <-); try discriminate; try (f_equal); lia.
Qed.
Lemma b64_char_range c d : b64_char c d -> d < 64 /\ c <> 61.
Proof. unfold b64_char. lia. Qed.
(** the arithmetic of a group, with q, m the quotient and remainder *)
Lemma split_by d k : k <> 0 -> exists q m, d / k = q /\ d mod k = m /\ d = k * q + m /\ m < k.
Proof. intro H. exists (d / k), (d mod k). repeat split; [now apply N.div_mod|now apply N.mod_upper_bound]. Qed.
Lemma group1 d1 d2 b1 x : d1 < 64 -> d2 < 64 -> x < 16 -> b1 < 256 ->
  (b1 * 16 + x = d1 * 64 + d2 <-> b1 = d1 * 4 + d2 / 16 /\ x = d2 mod 16).
Proof. intros. destruct (split_by d2 16 ltac:(lia)) as (q & m & -> & -> & E & M). lia. Qed.
Lemma group2 d1 d2 d3 b1 b2 x : d1 < 64 -> d2 < 64 -> d3 < 64 -> x < 4 -> b1 < 256 -> b2 < 256 ->
  (b1 * 1024 + b2 * 4 + x = d1 * 4096 + d2 * 64 + d3 <-> b1 = d1 * 4 + d2 / 16 /\ b2 = (d2 mod 16) * 16 + d3 / 4 /\ x = d3 mod 4).
Proof.
  intros. destruct (split_by d2 16 ltac:(lia)) as (q & m & -> & -> & E & M).
  destruct (split_by d3 4 ltac:(lia)) as (q' & m' & -> & -> & E' & M'). lia.
Qed.
Lemma group3 d1 d2 d3 d4 b1 b2 b3 : d1 < 64 -> d2 < 64 -> d3 < 64 -> d4 < 64 -> b1 < 256 -> b2 < 256 -> b3 < 256 ->
  (b1 * 65536 + b2 * 256 + b3 = d1 * 262144 + d2 * 4096 + d3 * 64 + d4 <->
   b1 = d1 * 4 + d2 / 16 /\ b2 = (d2 mod 16) * 16 + d3 / 4 /\ b3 = (d3 mod 4) * 64 + d4).
Proof.
  intros. destruct (split_by d2 16 ltac:(lia)) as (q & m & -> & -> & E & M).
  destruct (split_by d3 4 ltac:(lia)) as (q' & m' & -> & -> & E' & M'). lia.
Qed.
Lemma group_bounds d1 d2 d3 d4 : d1 < 64 -> d2 < 64 -> d3 < 64 -> d4 < 64 ->
  d1 * 4 + d2 / 16 < 256 /\ (d2 mod 16) * 16 + d3 / 4 < 256 /\ (d3 mod 4) * 64 + d4 < 256 /\ d2 mod 16 < 16 /\ d3 mod 4 < 4.
Proof.
  intros. destruct (split_by d2 16 ltac:(lia)) as (q & m & -> & -> & E & M).
  destruct (split_by d3 4 ltac:(lia)) as (q' & m' & -> & -> & E' & M'). lia.
Qed.
Lemma b64_sound : forall n t s, (length t <= n)%nat -> b64_quanta t = Some s -> b64 t s.
Proof.
  induction n as [|n IH]; intros t s L H; (destruct t as [|c1 [|c2 [|c3 [|c4 t]]]]; try discriminate; [injection H as <-; constructor|]);
    cbn [length] in L; [lia|].
  cbn [b64_quanta] in H. destruct (b64val c1) as [d1|] eqn:E1; [|discriminate]. destruct (b64val c2) as [d2|] eqn:E2; [|discriminate].
  apply b64val_spec in E1, E2. destruct (b64_char_range _ _ E1) as [R1 _], (b64_char_range _ _ E2) as [R2 _].
  destruct (N.eqb_spec c3 61) as [->|_].
  { destruct (N.eqb_spec c4 61) as [->|_]; [|discriminate]. destruct t; [|discriminate]. injection H as <-.
    destruct (group_bounds d1 d2 0 0 R1 R2 eq_refl eq_refl) as (B1 & _ & _ & M & _).
    apply (b64_two c1 c2 d1 d2 _ (d2 mod 16)); auto. apply group1; auto. }
  destruct (b64val c3) as [d3|] eqn:E3; [|discriminate]. apply b64val_spec in E3. destruct (b64_char_range _ _ E3) as [R3 _].
  destruct (N.eqb_spec c4 61) as [->|_].
  { destruct t; [|discriminate]. injection H as <-.
    destruct (group_bounds d1 d2 d3 0 R1 R2 R3 eq_refl) as (B1 & B2 & _ & _ & M).
    apply (b64_three c1 c2 c3 d1 d2 d3 _ _ (d3 mod 4)); auto. apply group2; auto. }
  destruct (b64val c4) as [d4|] eqn:E4; [|discriminate]. apply b64val_spec in E4. destruct (b64_char_range _ _ E4) as [R4 _].
  destruct (b64_quanta t) as [s'|] eqn:Q; [|discriminate]. injection H as <-.
  destruct (group_bounds d1 d2 d3 d4 R1 R2 R3 R4) as (B1 & B2 & B3 & _).
  apply (b64_quad c1 c2 c3 c4 d1 d2 d3 d4); auto; [apply group3; auto|]. apply IH; [|exact Q]. clear - L. lia.
Qed.
Lemma b64_complete t s : b64 t s -> b64_quanta t = Some s.
Proof.
  induction 1 as [|c1 c2 c3 c4 d1 d2 d3 d4 b1 b2 b3 t s E1 E2 E3 E4 B1 B2 B3 V H IH|c1 c2 c3 d1 d2 d3 b1 b2 x E1 E2 E3 B1 B2 X V|c1 c2 d1 d2 b1 x E1 E2 B1 X V]; [reflexivity|..].
  - destruct (b64_char_range _ _ E1) as [R1 _], (b64_char_range _ _ E2) as [R2 _], (b64_char_range _ _ E3) as [R3 N3], (b64_char_range _ _ E4) as [R4 N4].
    apply b64val_spec in E1, E2, E3, E4. cbn [b64_quanta]. rewrite E1, E2, E3, E4, IH.
    apply N.eqb_neq in N3, N4. rewrite N3, N4. apply group3 in V as (-> & -> & ->); auto.
  - destruct (b64_char_range _ _ E1) as [R1 _], (b64_char_range _ _ E2) as [R2 _], (b64_char_range _ _ E3) as [R3 N3].
    apply b64val_spec in E1, E2, E3. cbn [b64_quanta]. rewrite E1, E2, E3. apply N.eqb_neq in N3. rewrite N3, N.eqb_refl.
    apply group2 in V as (-> & -> & _); auto.
  - destruct (b64_char_range _ _ E1) as [R1 _], (b64_char_range _ _ E2) as [R2 _]. apply b64val_spec in E1, E2.
    cbn [b64_quanta]. rewrite E1, E2, N.eqb_refl. cbn [andb]. apply group1 in V as (-> & _); auto.
Qed.
Lemma base64_spec t s : base64 t = Some s <-> base64_text t s.
Proof. unfold base64, base64_text. split; [intro H; eapply b64_sound; [reflexivity|exact H]|apply b64_complete]. Qed.
Lemma value_of_nonneg t : Forall decimal_digit t -> (0 <= value_of t)%Z.
Proof.
  unfold value_of. assert (G : forall v, (0 <= v)%Z -> Forall decimal_digit t -> (0 <= fold_left (fun v c => 10 * v + (Z.of_N c - 48)) t v)%Z).
  { induction t as [|c t IH]; intros v Hv F; cbn [fold_left]; [exact Hv|]. inversion F as [|? ? Hc F']; subst. unfold decimal_digit in Hc. apply IH; [lia|exact F']. }
  apply G. lia.
Qed.
Lemma forallb_dec t : forallb is_dec t = true <-> Forall decimal_digit t.
Proof. rewrite forallb_forall, Forall_forall. split; intros H x I; apply is_dec_spec; auto. Qed.
Lemma decode_byte_spec v b : decode_byte v = Some b <-> byte_denotes v b.
Proof.
  unfold byte_denotes. destruct v as [|b0|t|s|l|l]; cbn [decode_byte]; try (split; [discriminate|]; intros [[H _]|(l' & H & _)]; discriminate).
  - split; [intros [= <-]; auto|]. intros [[_ ->]|(l' & H & _)]; [reflexivity|discriminate].
  - destruct (forallb is_dec t) eqn:D.
    + apply forallb_dec in D. pose proof (value_of_nonneg t D) as V. split.
      * destruct (atoi t) as [z|] eqn:A; [|discriminate]. destruct (z <? 256)%Z eqn:L; [|discriminate]. intros [= <-].
        apply atoi_reads in A as (ds & Nn & F & R & [[-> ->]|[[-> ->]|[-> ->]]]).
        -- right. exists ds. split; [reflexivity|]. split; [split; [exact Nn|exact F]|]. split; lia.
        -- inversion D as [|? ? H _]; subst. unfold decimal_digit in H. lia.
        -- inversion D as [|? ? H _]; subst. unfold decimal_digit in H. lia.
      * intros [[H _]|(t' & [= <-] & [Nn F] & E & L)]; [discriminate|].
        assert (A : atoi t = Some (Z.of_N b)). { apply atoi_reads. exists t. split; [exact Nn|]. split; [exact F|]. split; [lia|]. left. auto. }
        rewrite A. destruct (Z.of_N b <? 256)%Z eqn:X; [|lia]. now rewrite N2Z.id.
    + split; [discriminate|]. intros [[H _]|(t' & [= <-] & [Nn F] & E & L)]; [discriminate|]. apply forallb_dec in F. congruence.
Qed.
Definition key_of (v : jvalue) : option bytes :=
  match v with JString s => base64 s | JArray l => map_opt decode_byte l | _ => None end.
Lemma key_of_spec v k : key_of v = Some k <-> is_key v k.
Proof.
  unfold is_key. destruct v as [|b0|t|s|l|l]; cbn [key_of];
    try (split; [discriminate|]; intros [(? & H & _)|(? & H & _)]; discriminate).
  - rewrite base64_spec. split; [left; eauto|]. intros [(? & [= <-] & H)|(? & H & _)]; [exact H|discriminate].
  - rewrite (map_opt_forall2 _ _ decode_byte_spec). split; [right; eauto|]. intros [(? & H & _)|(? & [= <-] & H)]; [discriminate|exact H].
Qed.
Definition ok_key (v : jvalue) : bool := nullb v || match key_of v with Some _ => true | None => false end.
Lemma ok_key_spec v : ok_key v = true <-> v = JNull \/ exists k, is_key v k.
Proof.
  unfold ok_key. rewrite orb_true_iff, nullb_spec. split; (intros [H|H]; [now left|right]).
  - destruct (key_of v) as [k|] eqn:K; [|discriminate]. exists k. now apply key_of_spec.
  - destruct H as [k K]. apply key_of_spec in K. now rewrite K.
Qed.
Definition key_field (o : option jvalue) : bytes := match o with Some v => match key_of v with Some k => k | None => [] end | None => [] end.
Lemma store_user_members l :
  store_members store_user l no_auth =
  if forallb (fun m => negb (fold_eq (T "password") (fst m)) || ok_text (snd m)) l &&
     forallb (fun m => negb (fold_eq (T "pubKey") (fst m)) || ok_key (snd m)) l
  then Some {| u_password := text_of (lastv not_null (T "password") l); u_pubkey := key_field (lastv (fun _ => true) (T "pubKey") l) |} else None.
Proof.
  induction l as [|[k v] l IH] using rev_ind; [reflexivity|]. rewrite store_members_snoc, IH, !forallb_app, !lastv_snoc.
  set (A := forallb (fun m => negb (fold_eq (T "password") (fst m)) || ok_text (snd m)) l) in *.
  set (B := forallb (fun m => negb (fold_eq (T "pubKey") (fst m)) || ok_key (snd m)) l) in *. clearbody A B. cbn [forallb fst snd]. rewrite !andb_true_r.
  destruct A; cbn [andb]; [|reflexivity]. destruct B; cbn [andb]; [|now rewrite andb_false_r]. unfold store_user.
  destruct (fold_eq (T "password") k) eqn:F.
  - rewrite (not_both_user k F). cbn [negb orb andb u_pubkey]. rewrite andb_true_r.
    destruct v as [|b|t|s|a|o]; cbn; reflexivity.
  - destruct (fold_eq (T "pubKey") k) eqn:G; cbn [negb orb andb u_password]; [|reflexivity].
    unfold ok_key, key_field. destruct v as [|b|t|s|a|o]; cbn; try reflexivity; [destruct (base64 s); reflexivity|].
    destruct (map_opt decode_byte a); reflexivity.
Qed.
Lemma key_field_spec l k : forallb (fun m => negb (fold_eq (T "pubKey") (fst m)) || ok_key (snd m)) l = true ->
  (key_field (lastv (fun _ => true) (T "pubKey") l) = k <->
   (exists x, final_is (T "pubKey") l x /\ (is_key x k \/ x = JNull /\ k = [])) \/ absent (T "pubKey") l /\ k = []).
Proof.
  intros A. rewrite (absent_lastv _ named_key).
  assert (E : (exists x, final_is (T "pubKey") l x /\ (is_key x k \/ x = JNull /\ k = [])) <->
              exists x, lastv (fun _ => true) (T "pubKey") l = Some x /\ (is_key x k \/ x = JNull /\ k = [])).
  { split; intros (x & H & I); exists x; (split; [|exact I]); now apply (final_is_lastv _ named_key). }
  rewrite E. clear E. destruct (lastv (fun _ => true) (T "pubKey") l) as [v|] eqn:L.
  - apply (lastv_some _ named_key) in L as (b & kk & a & -> & Hk & _).
    rewrite forallb_app in A. apply andb_prop in A as [_ A]. cbn [forallb fst snd] in A. apply andb_prop in A as [A _].
    rewrite (proj2 (named_key kk) Hk) in A. cbn [negb orb] in A. unfold ok_key in A. cbn [key_field].
    destruct (nullb v) eqn:Nv.
    + apply nullb_spec in Nv as ->. cbn. split.
      * intros <-. left. exists JNull. auto.
      * intros [(x & [= <-] & [H|[_ ->]])|[H _]]; [apply key_of_spec in H; discriminate|reflexivity|discriminate].
    + cbn in A. destruct (key_of v) as [k'|] eqn:K; [|discriminate]. split.
      * intros <-. left. exists v. split; [reflexivity|]. left. now apply key_of_spec.
      * intros [(x & [= <-] & [H|[-> ->]])|[H _]]; [apply key_of_spec in H; congruence|discriminate|discriminate].
  - cbn. split; [intros <-; auto|]. intros [(x & H & _)|[_ ->]]; [discriminate|reflexivity].
Qed.
Lemma decode_user_spec v a : decode_user v = Some a <-> user_denotes v a.
Proof.
  destruct a as [pw key]. unfold user_denotes. cbn [u_password u_pubkey]. split.
  - destruct v as [|b|t|s|l|l]; try discriminate; cbn [decode_user].
    + intros [= <- <-]. auto.
    + rewrite store_user_members. destruct (forallb _ l && forallb _ l) eqn:F; [|discriminate]. apply andb_prop in F as [F1 F2].
      intro H. injection H as H1 H2. right. exists l. split; [reflexivity|].
      split; [now apply (all_are_forallb _ named_pw _ _ l ok_text_spec)|].
      split; [now apply (all_are_forallb _ named_key _ _ l ok_key_spec)|].
      split; [now apply (text_field _ _ _ named_pw)|now apply key_field_spec].
  - intros [(-> & -> & ->)|(l & -> & A & B & C & D)]; [reflexivity|]. cbn [decode_user]. rewrite store_user_members.
    apply (all_are_forallb _ named_pw _ _ l ok_text_spec) in A. apply (all_are_forallb _ named_key _ _ l ok_key_spec) in B.
    rewrite A, B. cbn [andb]. apply (text_field _ _ _ named_pw A) in C. apply (key_field_spec _ _ B) in D. now rewrite C, D.
Qed.
Lemma decode_users_spec v us : decode_users v = Some us <-> users_denote v us.
Proof.
  unfold users_denote. destruct v as [|b|t|s|l|l]; cbn [decode_users]; try (split; [discriminate|]; intros [[H _]|(l' & H & _)]; discriminate).
  - split; [intros [= <-]; auto|]. intros [[_ ->]|(l' & H & _)]; [reflexivity|discriminate].
  - rewrite (map_opt_forall2 _ (fun m u => fst m = fst u /\ user_denotes (snd m) (snd u))).
    + split; [eauto|]. intros [[H _]|(l' & [= <-] & F)]; [discriminate|exact F].
    + intros [k v] [k' a]. cbn [fst snd]. rewrite <- decode_user_spec. destruct (decode_user v) as [a'|].
      * split; [intros [= <- <-]; auto|intros [-> [= ->]]; reflexivity].
      * split; [discriminate|intros [_ H]; discriminate].
Qed.
