(** From records to frames. *)
From Verif Require Import GoBase GoBaseFacts GoUtf8 GoUtf8Facts WireModel WireSpec WireProofs WireMoreSpec WireMoreProofs ProtoSpec ProtoProofs.
From Coq Require Import ZifyBool ZifyNat ZifyN.
Local Open Scope N_scope.

Lemma field_bytes_ok num v b : field_bytes num v b -> Forall byte b ->
  match v with PBytes x | PFix64 x => Forall byte x | _ => True end.
Proof. intros H Hb; inversion H; subst; auto; rewrite !Forall_app in Hb; tauto. Qed.
Lemma blocks_bytes num fs b : record_bytes fs b -> Forall byte b -> Forall (Forall byte) (blocks num fs).
Proof.
  induction 1 as [|n v b fs r Hf Hr IH]; intros Hb; [constructor|]. apply Forall_app in Hb as [H1 H2].
  unfold blocks. cbn [flat_map fst snd]. apply Forall_app. split; [|exact (IH H2)].
  pose proof (field_bytes_ok _ _ _ Hf H1). destruct (n =? num); [|constructor]. destruct v; constructor; auto.
Qed.

Lemma Forall2_iff {A B} (R R' : A -> B -> Prop) (P : A -> Prop) l : Forall P l ->
  (forall a b, P a -> (R a b <-> R' a b)) -> forall l', Forall2 R l l' <-> Forall2 R' l l'.
Proof.
  intros H HR. induction H as [|a l Ha H IH]; intros l'; (split; intros X; inversion X; subst; constructor).
  all: try (apply HR; assumption). all: apply IH; assumption.
Qed.

Lemma atom_iff b a : Forall byte b -> (decode fld_atom (0%Z, []) b = Some a <-> exists g, record_bytes g b /\ atom_means g a).
Proof.
  intros Hb. rewrite (decode_iff _ _ _ _ _ impl_atom reads_atom Hb). split; intros (g & Hg & H); exists g; (split; [exact Hg|]).
  - apply run_atom in H as [H ->]. split; [exact H|]. rewrite signed64_eq by (eapply the_int_lt; exact Hg). reflexivity.
  - apply run_atom. destruct H as [H ->]. split; [exact H|]. rewrite signed64_eq by (eapply the_int_lt; exact Hg). reflexivity.
Qed.
Lemma line_iff b l : Forall byte b -> (decode fld_line [] b = Some l <-> exists g, record_bytes g b /\ line_means g l).
Proof.
  intros Hb. rewrite (decode_iff _ _ _ _ _ impl_line reads_line Hb).
  split; intros (g & Hg & H); exists g; (split; [exact Hg|]); pose proof (blocks_bytes 1 g b Hg Hb) as HB.
  - apply run_line in H. unfold line_means. eapply Forall2_iff; [exact HB| |exact H].
    intros x y Hx. symmetry. apply atom_iff; exact Hx.
  - apply run_line. unfold line_means in H. eapply Forall2_iff; [exact HB| |exact H].
    intros x y Hx. apply atom_iff; exact Hx.
Qed.

Definition ours (m : message) : Prop := forall n, m <> OtherMessage n.

Lemma message_iff m0 b m : Forall byte b -> In m0 empty_messages ->
  (decode fld_message m0 b = Some m <-> m0 = empty_of m /\ ours m /\ exists fs, record_bytes fs b /\ means fs m).
Proof.
  intros Hb Hin. rewrite (decode_iff _ _ _ _ _ impl_message reads_message Hb).
  transitivity (exists fs, record_bytes fs b /\ (m0 = empty_of m /\ ours m /\ means fs m)).
  2:{ split; [intros (fs & H & H1 & H2 & H3); eauto 6|intros (H1 & H2 & fs & H & H3); eauto 6]. }
  split; intros (fs & Hfs & H); exists fs; (split; [exact Hfs|]).
  - assert (L : forall k, i64 (the_int k fs) = signed64 (the_int k fs)) by (intros k; apply signed64_eq; eapply the_int_lt; exact Hfs).
    cbn [empty_messages In] in Hin. unfold ours.
    repeat destruct Hin as [<-|Hin]; [..|contradiction].
    + rewrite run_tsreq, L in H. injection H as <-. cbn. repeat split; discriminate.
    + rewrite run_tsresp, !L in H. injection H as <-. cbn. repeat split; discriminate.
    + apply run_chunk in H as (lo & hi & -> & H1 & H2). rewrite !L. cbn. repeat split; auto; discriminate.
    + rewrite run_ping in H. injection H as <-. cbn. repeat split; discriminate.
    + rewrite run_pong in H. injection H as <-. cbn. repeat split; discriminate.
    + rewrite run_volume in H. injection H as <-. cbn. repeat split; discriminate.
    + rewrite run_subscribe, signed32_eq in H. injection H as <-. cbn. repeat split; discriminate.
    + apply run_song in H as (ly & md & -> & H1 & H2 & H3). rewrite L. cbn [means empty_of].
      apply merge_iff in H3; [|eapply blocks_bytes; eassumption]. destruct H3 as (gs & H3 & H4).
      repeat split; auto; try discriminate.
      * eapply Forall2_iff; [exact (blocks_bytes 4 _ _ Hfs Hb)| |exact H2]. intros x y Hx. symmetry. apply line_iff; exact Hx.
      * exists gs. split; [exact H3|]. destruct gs; [exact H4|]. destruct H4 as (x & H4 & ->). exists x. split; [|reflexivity].
        apply run_metadata. exact H4.
    + rewrite run_chunkinfo, L in H. injection H as <-. cbn. repeat split; discriminate.
    + rewrite run_pause in H. injection H as <-. cbn. repeat split; try discriminate; destruct (N.eqb_spec (the_int 1 fs) 0); cbn; congruence.
  - destruct H as (-> & Ho & H).
    assert (L : forall k, i64 (the_int k fs) = signed64 (the_int k fs)) by (intros k; apply signed64_eq; eapply the_int_lt; exact Hfs).
    destruct m; cbn [empty_of means] in *.
    + rewrite run_tsreq, L. congruence.
    + rewrite run_tsresp, !L. destruct H as (-> & -> & ->). reflexivity.
    + apply run_chunk. rewrite !L. destruct H as (-> & -> & H1 & H2 & ->). eauto 8.
    + apply run_ping.
    + apply run_pong.
    + rewrite run_volume. congruence.
    + rewrite run_subscribe, signed32_eq. congruence.
    + destruct H as (-> & H1 & -> & -> & H2 & gs & H3 & H4). apply run_song. rewrite L. exists lyrics, metadata. split; [reflexivity|].
      split; [exact H1|]. split.
      * eapply Forall2_iff; [exact (blocks_bytes 4 _ _ Hfs Hb)| |exact H2]. intros x y Hx. apply line_iff; exact Hx.
      * apply merge_iff; [eapply blocks_bytes; eassumption|]. exists gs. split; [exact H3|]. destruct gs; [exact H4|].
        destruct H4 as (x & H4 & ->). exists x. split; [|reflexivity]. apply run_metadata. exact H4.
    + rewrite run_chunkinfo, L. destruct H as (-> & -> & ->). reflexivity.
    + rewrite run_pause. destruct H as (H & ->). f_equal. f_equal. destruct (N.eqb_spec (the_int 1 fs) 0) as [E|E]; cbn.
      * destruct playing; [|reflexivity]. exfalso. apply H; [reflexivity|exact E].
      * destruct playing; [reflexivity|]. symmetry. apply H. exact E.
    + exfalso. eapply Ho; reflexivity.
Qed.

(** ** Type names *)
Lemma after_slash_spec t : names t (after_slash t).
Proof.
  unfold names. induction t as [|x t IH]; cbn [after_slash]; [split; [tauto|left; reflexivity]|].
  destruct (existsb (N.eqb 47) t) eqn:E.
  - destruct IH as [H1 H2]. split; [exact H1|]. right. destruct H2 as [H2|(p & H2)].
    + exfalso. apply existsb_exists in E as (y & Hy & Ey). apply N.eqb_eq in Ey. subst y. rewrite H2 in Hy. contradiction.
    + exists (x :: p). rewrite H2 at 1. reflexivity.
  - assert (N : ~ In 47 t).
    { intros H. assert (existsb (N.eqb 47) t = true) by (apply existsb_exists; exists 47; split; [exact H|reflexivity]). congruence. }
    destruct (N.eqb_spec x 47) as [->|].
    + split; [exact N|]. right. exists []. reflexivity.
    + split; [|left; reflexivity]. intros [H|H]; [congruence|contradiction].
Qed.
Lemma names_fun t n n' : names t n -> names t n' -> n = n'.
Proof.
  intros [H1 H2] [H3 H4]. destruct H2 as [->|(p & ->)], H4 as [E|(q & E)].
  - exact E.
  - exfalso. apply H1. rewrite E. apply in_or_app. right; left; reflexivity.
  - exfalso. apply H3. rewrite <- E. apply in_or_app. right; left; reflexivity.
  - revert q E. induction p as [|x p IH]; intros [|y q] E; cbn [app] in E.
    + congruence.
    + exfalso. injection E as _ E. apply H1. rewrite E. apply in_or_app. right; left; reflexivity.
    + exfalso. injection E as _ E. apply H3. rewrite <- E. apply in_or_app. right; left; reflexivity.
    + injection E as _ E. exact (IH q E).
Qed.
Lemma after_slash_iff t n : after_slash t = n <-> names t n.
Proof. split; [intros <-; apply after_slash_spec|]. intros H. exact (names_fun _ _ _ (after_slash_spec t) H). Qed.

Lemma find_type n m0 : find (fun m => text_eqb (message_name m) n) empty_messages = Some m0 ->
  In m0 empty_messages /\ message_name m0 = n.
Proof. intros H. apply find_some in H as [H1 H2]. split; [exact H1|]. apply text_eqb_eq in H2. exact H2. Qed.
Lemma name_empty m : message_name (empty_of m) = type_name m.
Proof. destruct m; reflexivity. Qed.
Lemma in_empty m : ours m -> In (empty_of m) empty_messages.
Proof. intros H. destruct m; cbn; try tauto. destruct (H name eq_refl). Qed.
Lemma type_find w t m : ours m -> names t (type_name m) -> message_type w t = Some (empty_of m).
Proof.
  intros Ho H. unfold message_type. apply after_slash_iff in H. rewrite H. destruct m; try reflexivity. destruct (Ho name eq_refl).
Qed.

(** ** Frames *)
Definition inflates_bytes (w : wire_env) : Prop := forall d x, Forall byte d -> zinflate w d = Some x -> Forall byte x.

Lemma the_block_bytes num fs b : record_bytes fs b -> Forall byte b -> Forall byte (the_block num fs).
Proof.
  intros H Hb. pose proof (blocks_bytes num fs b H Hb) as B. unfold the_block.
  destruct (blocks num fs) as [|x l] eqn:E; [constructor|]. rewrite <- E in *. rewrite Forall_forall in B. apply B. rewrite E. clear.
  revert x. induction l as [|y l IH]; intros x; [left; reflexivity|right; apply IH].
Qed.

Lemma size_iff size (env : bytes) : Forall byte size -> length size = 8%nat -> (zlen env <= 2 ^ 48)%Z ->
  (i64 (get_le size) = zlen env <-> le_value size = N.of_nat (length env)).
Proof.
  intros Hb Hl He. rewrite get_le_value. pose proof (get_le_range size Hb) as R. rewrite get_le_value, Hl in R.
  change (256 ^ N.of_nat 8) with (2 ^ 64) in R. rewrite signed64_eq by exact R. unfold signed64, zlen in *.
  destruct (le_value size <? 2 ^ 63) eqn:E; lia.
Qed.

Lemma good_iff w m s rest : inflates_bytes w -> Forall byte s -> ours m ->
  (good_frame w m s rest <-> exists f, s = f ++ rest /\ frame w m f).
Proof.
  intros Hz Hs Ho. split.
  - intros (size & env & type & payload & data & m0 & -> & Hl & Hsz & Hmax & Henv & Hty & Hinf & Hun).
    exists (size ++ env). split; [rewrite <- app_assoc; reflexivity|]. rewrite !Forall_app in Hs. destruct Hs as (Hs1 & Hs2 & _).
    pose proof Henv as Henv'. apply (decode_iff _ _ _ _ _ impl_envelope reads_envelope Hs2) in Henv' as (efs & He1 & He2).
    apply run_envelope in He2 as [He2 He3]. injection He3 as -> ->.
    assert (Hd : Forall byte data) by (eapply Hz; [|exact Hinf]; eapply the_block_bytes; eassumption).
    unfold message_type in Hty. destruct (find _ empty_messages) as [m1|] eqn:Ef.
    + injection Hty as ->. apply find_type in Ef as [Ef1 Ef2].
      assert (Hun' : decode fld_message m0 data = Some m) by (clear - Hun Ef1; cbn in Ef1; repeat destruct Ef1 as [<-|Ef1]; try exact Hun; contradiction).
      apply (message_iff m0 data m Hd Ef1) in Hun' as (-> & _ & fs & Hf1 & Hf2).
      exists data, fs. rewrite name_empty in Ef2. split; [|split; assumption].
      exists size, env, efs, (the_block 1 efs), (the_block 2 efs).
      repeat split; try assumption; try reflexivity; try (rewrite Ef2; apply after_slash_spec).
      apply size_iff; assumption.
    + destruct (foreign w _) eqn:Efo; [|discriminate]. injection Hty as <-. cbn [unmarshal] in Hun.
      rewrite Efo in Hun. destruct (b data); [|discriminate]. injection Hun as <-. exfalso. eapply Ho; reflexivity.
  - intros (f & -> & data & fs & (size & env & efs & type & payload & -> & Hl & Hsz & Hmax & He1 & He2 & -> & -> & Hn & Hinf) & Hf1 & Hf2).
    rewrite !Forall_app in Hs. destruct Hs as ((Hs1 & Hs2) & _).
    assert (Hd : Forall byte data) by (eapply Hz; [|exact Hinf]; eapply the_block_bytes; eassumption).
    exists size, env, (the_block 1 efs), (the_block 2 efs), data, (empty_of m).
    split; [rewrite <- app_assoc; reflexivity|]. split; [exact Hl|]. split; [apply size_iff; assumption|]. split; [exact Hmax|].
    split; [|split; [apply type_find; assumption|split; [exact Hinf|]]].
    + apply (decode_iff _ _ _ _ _ impl_envelope reads_envelope Hs2). exists efs. split; [exact He1|]. apply run_envelope. auto.
    + assert (D : decode fld_message (empty_of m) data = Some m).
      { apply message_iff; [exact Hd|apply in_empty; exact Ho|]. eauto 6. }
      destruct m; try exact D. destruct (Ho name eq_refl).
Qed.

Lemma frame_byte w m f : (forall d, Forall byte d -> Forall byte (zdeflate w d)) -> sendable w m -> frame_of w m f -> Forall byte f.
Proof.
  intros Hz (Hv & Ht & Hf1 & Hf2) Hf. pose proof (Hf2 _ Hf) as Hlen. unfold frame_of in Hf. rewrite to_wire_some in Hf by exact Ht.
  apply Some_inj in Hf. subst f. rewrite zlen_app in Hlen. apply Forall_app. split; [apply put_le_byte|].
  set (env := enc_envelope _ _) in *. assert (He : (zlen env <= max_alloc)%Z) by (pose proof (zlen_nonneg (put_le 8 (N.of_nat (length env)))); lia).
  unfold env, enc_envelope in *. rewrite zlen_app in He. pose proof (zlen_f_bytes 1 (message_name m)).
  pose proof (zlen_f_bytes 2 (zdeflate w (enc_message m))). pose proof (zlen_nonneg (f_bytes 1 (message_name m))).
  pose proof (zlen_nonneg (f_bytes 2 (zdeflate w (enc_message m)))).
  apply Forall_app. split; apply f_bytes_byte; try lia.
  - apply text_byte, utf8_valid_spec. apply message_name_ok; exact Hv.
  - apply Hz. apply enc_byte; assumption.
Qed.
