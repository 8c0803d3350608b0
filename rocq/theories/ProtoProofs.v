(** Proofs for ProtoSpec. *)
From Verif Require Import GoBase GoBaseFacts GoUtf8 GoUtf8Facts WireModel WireSpec WireProofs WireMoreSpec WireMoreProofs ProtoSpec.
From Coq Require Import ZifyBool ZifyNat ZifyN.
Local Open Scope N_scope.
Ltac Zify.zify_post_hook ::= Z.to_euclidean_division_equations.

(** ** Primitives *)

Lemma base128_get k : forall n b r, base128 n b -> n < 2 * 128 ^ N.of_nat k -> (length b <= S k)%nat ->
  get_varint k (b ++ r) = Some (n, r).
Proof.
  induction k as [|k IH]; intros n b r H Hn Hl.
  - inversion H; subst; cbn [app get_varint length] in *.
    + cbn in Hn. replace (n <? 2) with true by lia. reflexivity.
    + destruct b0; [inversion H1|cbn in Hl; lia].
  - rewrite pow128_succ in Hn. inversion H; subst; cbn [app get_varint length] in *.
    + replace (n <? 128) with true by lia. reflexivity.
    + replace (128 + low <? 128) with false by lia. rewrite (IH n0 b0 r) by (assumption || lia).
      f_equal. f_equal. lia.
Qed.
Lemma varint_get n b r : varint n b -> get_varint 9 (b ++ r) = Some (n, r).
Proof. intros (H1 & H2 & H3). apply base128_get; [exact H1|exact H2|exact H3]. Qed.

Lemma get_base128 k : forall b n r, Forall byte b -> get_varint k b = Some (n, r) ->
  exists p, b = p ++ r /\ base128 n p /\ n < 2 * 128 ^ N.of_nat k /\ (length p <= S k)%nat.
Proof.
  induction k as [|k IH]; intros b n r Hb H; destruct b as [|x b]; cbn [get_varint] in H; try discriminate;
    inversion Hb as [|? ? Hx Hb']; subst.
  - destruct (x <? 2) eqn:E; [|discriminate]. injection H as <- <-. exists [x]. cbn. repeat split; try lia. constructor. lia.
  - rewrite pow128_succ. assert (0 < 128 ^ N.of_nat k) by (apply N.neq_0_lt_0, N.pow_nonzero; lia).
    destruct (x <? 128) eqn:E.
    + injection H as <- <-. exists [x]. cbn [app length]. repeat split; try lia. constructor. lia.
    + destruct (get_varint k b) as [[v r']|] eqn:E2; [|discriminate].
      assert (n = x - 128 + 128 * v) as -> by congruence. assert (r = r') as -> by congruence. clear H.
      destruct (IH _ _ _ Hb' E2) as (p & -> & H1 & H2 & H3). exists (x :: p). unfold byte in Hx.
      cbn [app length]. repeat split; try lia.
      replace x with (128 + (x - 128)) at 2 by lia. constructor; [lia|exact H1].
Qed.
Lemma get_varint_inv b n r : Forall byte b -> get_varint 9 b = Some (n, r) -> exists p, b = p ++ r /\ varint n p.
Proof. intros Hb H. destruct (get_base128 9 b n r Hb H) as (p & -> & H1 & H2 & H3). exists p. repeat split; assumption. Qed.

Lemma header_get num wt h r : header num wt h -> wt < 8 -> get_tag (h ++ r) = Some (num, wt, r).
Proof.
  intros [Hn Hv] Hw. unfold get_tag. rewrite (varint_get _ _ _ Hv).
  change (2 ^ 29) with 536870912 in Hn.
  replace ((8 * num + wt) / 8) with num by lia. replace ((8 * num + wt) mod 8) with wt by lia.
  replace ((num <? 1) || (536870911 <? num))%bool with false by lia. reflexivity.
Qed.
Lemma get_tag_inv b num wt r : Forall byte b -> get_tag b = Some (num, wt, r) ->
  exists h, b = h ++ r /\ header num wt h /\ wt < 8.
Proof.
  intros Hb H. unfold get_tag in H. destruct (get_varint 9 b) as [[t r']|] eqn:E; [|discriminate].
  destruct ((t / 8 <? 1) || (536870911 <? t / 8))%bool eqn:E2; [discriminate|]. injection H as <- <- <-.
  destruct (get_varint_inv _ _ _ Hb E) as (h & -> & Hv). exists h. split; [reflexivity|]. split; [|lia].
  split; [change (2 ^ 29) with 536870912; lia|]. replace (8 * (t / 8) + t mod 8) with t by lia. exact Hv.
Qed.

Lemma take_inv k b x r : take_exact k b = Some (x, r) -> b = x ++ r /\ N.of_nat (length x) = k.
Proof.
  unfold take_exact. destruct (N.of_nat (length b) <? k) eqn:E; [discriminate|]. intros H; injection H as <- <-.
  rewrite firstn_skipn. split; [reflexivity|]. rewrite firstn_length. lia.
Qed.
Lemma bytes_get l b r : varint (N.of_nat (length b)) l -> get_bytes (l ++ b ++ r) = Some (b, r).
Proof. intros H. unfold get_bytes. rewrite (varint_get _ _ _ H). apply take_exact_app. reflexivity. Qed.
Lemma get_bytes_inv b x r : Forall byte b -> get_bytes b = Some (x, r) ->
  exists l, b = l ++ x ++ r /\ varint (N.of_nat (length x)) l.
Proof.
  intros Hb H. unfold get_bytes in H. destruct (get_varint 9 b) as [[n r']|] eqn:E; [|discriminate].
  destruct (get_varint_inv _ _ _ Hb E) as (l & -> & Hv). apply take_inv in H as [-> <-]. exists l. auto.
Qed.

Lemma header_ne num wt h : header num wt h -> h <> [].
Proof. intros (_ & H & _) ->. inversion H. Qed.
Lemma field_ne num v b : field_bytes num v b -> b <> [].
Proof.
  intros H E. assert (exists wt h r, header num wt h /\ b = h ++ r) as (wt & h & r & Hh & ->) by (inversion H; subst; eauto 6).
  apply app_eq_nil in E as [E _]. exact (header_ne _ _ _ Hh E).
Qed.

(** The wire type and the bytes after the header. *)
Inductive value_bytes (num : N) : N -> pvalue -> bytes -> Prop :=
| V_int n b : varint n b -> value_bytes num 0 (PInt n) b
| V_fix64 b : length b = 8%nat -> value_bytes num 1 (PFix64 b) b
| V_bytes l b : varint (N.of_nat (length b)) l -> value_bytes num 2 (PBytes b) (l ++ b)
| V_group fs b e : record_bytes fs b -> header num 4 e -> value_bytes num 3 (PGroup fs) (b ++ e)
| V_fix32 b : length b = 4%nat -> value_bytes num 5 (PFix32 b) b.
Lemma field_split num v b : field_bytes num v b <-> exists wt h p, b = h ++ p /\ header num wt h /\ value_bytes num wt v p.
Proof.
  split.
  - intros H; inversion H; subst; do 3 eexists; split; try reflexivity; split; try eassumption; constructor; assumption.
  - intros (wt & h & p & -> & Hh & Hv). inversion Hv; subst; econstructor; eassumption.
Qed.
Lemma value_wt num wt v p : value_bytes num wt v p -> wt < 8 /\ wt <> 4.
Proof. intros H; inversion H; subst; lia. Qed.

(** ** Skipping *)
Scheme field_mut := Induction for field_bytes Sort Prop
  with record_mut := Induction for record_bytes Sort Prop.

Definition members (fuel : nat) (num : N) :=
  fix members (g : nat) (b : bytes) : option bytes :=
    match g with
    | O => None
    | S g' =>
        match get_tag b with
        | None => None
        | Some (num', wt', r) =>
            if wt' =? wt_end_group then (if num' =? num then Some r else None)
            else match skip_value fuel num' wt' r with
                 | Some r' => members g' r'
                 | None => None
                 end
        end
    end.
Lemma skip_unfold fuel num wt b :
  skip_value (S fuel) num wt b =
  (if wt =? 0 then match get_varint 9 b with Some (_, r) => Some r | None => None end
   else if wt =? 1 then match take_exact 8 b with Some (_, r) => Some r | None => None end
   else if wt =? 2 then match get_bytes b with Some (_, r) => Some r | None => None end
   else if wt =? 5 then match take_exact 4 b with Some (_, r) => Some r | None => None end
   else if wt =? 3 then members fuel num (S fuel) b else None).
Proof. reflexivity. Qed.
Lemma members_unfold fuel num g b :
  members fuel num (S g) b =
  match get_tag b with
  | None => None
  | Some (num', wt', r) =>
      if wt' =? 4 then (if num' =? num then Some r else None)
      else match skip_value fuel num' wt' r with Some r' => members fuel num g r' | None => None end
  end.
Proof. reflexivity. Qed.

(** Skipping a field that is there. *)
Definition skips (num : N) (v : pvalue) (b : bytes) : Prop :=
  exists wt h p, b = h ++ p /\ header num wt h /\ wt < 8 /\ wt <> 4 /\
    forall fuel r, (length b <= fuel)%nat -> skip_value fuel num wt (p ++ r) = Some r.
Definition skips_all (fs : record) (b : bytes) : Prop :=
  forall num e, header num 4 e -> forall fuel g r, (length b <= fuel)%nat -> (length b < g)%nat ->
    members fuel num g (b ++ e ++ r) = Some r.

Lemma skip_ok : forall num v b, field_bytes num v b -> skips num v b.
Proof.
  apply (field_mut (fun num v b _ => skips num v b) (fun fs b _ => skips_all fs b)).
  - intros num n h b Hh Hv. exists 0, h, b. repeat split; try assumption; try lia; try apply Hh.
    intros fuel r Hf. pose proof (header_ne _ _ _ Hh). destruct h; [congruence|]. destruct fuel; [cbn in Hf; lia|].
    rewrite skip_unfold. cbn [N.eqb]. rewrite (varint_get _ _ _ Hv). reflexivity.
  - intros num h b Hh Hl. exists 1, h, b. repeat split; try assumption; try lia; try apply Hh.
    intros fuel r Hf. pose proof (header_ne _ _ _ Hh). destruct h; [congruence|]. destruct fuel; [cbn in Hf; lia|].
    rewrite skip_unfold. cbn [N.eqb Pos.eqb]. rewrite take_exact_app by (rewrite Hl; reflexivity). reflexivity.
  - intros num h l b Hh Hv. exists 2, h, (l ++ b). repeat split; try assumption; try lia; try apply Hh.
    intros fuel r Hf. pose proof (header_ne _ _ _ Hh). destruct h; [congruence|]. destruct fuel; [cbn in Hf; lia|].
    rewrite skip_unfold. cbn [N.eqb Pos.eqb]. rewrite <- app_assoc, (bytes_get _ _ _ Hv). reflexivity.
  - intros num h fs b e Hh Hr IH He. exists 3, h, (b ++ e). repeat split; try assumption; try lia; try apply Hh.
    intros fuel r Hf. pose proof (header_ne _ _ _ Hh). destruct h; [congruence|]. destruct fuel; [cbn in Hf; lia|].
    rewrite skip_unfold. cbn [N.eqb Pos.eqb]. rewrite <- app_assoc. cbn [length app] in Hf. rewrite !app_length in Hf.
    apply IH; [exact He|lia|lia].
  - intros num h b Hh Hl. exists 5, h, b. repeat split; try assumption; try lia; try apply Hh.
    intros fuel r Hf. pose proof (header_ne _ _ _ Hh). destruct h; [congruence|]. destruct fuel; [cbn in Hf; lia|].
    rewrite skip_unfold. cbn [N.eqb Pos.eqb]. rewrite take_exact_app by (rewrite Hl; reflexivity). reflexivity.
  - intros num e He fuel g r _ Hg. destruct g; [lia|]. rewrite members_unfold. cbn [app].
    rewrite (header_get _ _ _ _ He) by lia. cbn [N.eqb Pos.eqb]. rewrite N.eqb_refl. reflexivity.
  - intros num v b fs r0 Hf (wt & h & p & -> & Hh & Hw & Hw4 & Hs) Hr IH num' e He fuel g r Hfu Hg.
    destruct g; [lia|]. rewrite members_unfold. rewrite <- !app_assoc. rewrite (header_get _ _ _ _ Hh) by lia.
    replace (wt =? 4) with false by lia. rewrite !app_length in *.
    rewrite Hs by lia. pose proof (header_ne _ _ _ Hh). destruct h; [congruence|]. cbn [length] in *.
    apply IH; [exact He|lia|lia].
Qed.
Lemma skip_value_ok num wt v p fuel r : value_bytes num wt v p -> (length p < fuel)%nat ->
  1 <= num < 2 ^ 29 -> skip_value fuel num wt (p ++ r) = Some r.
Proof.
  intros Hv Hf Hn. destruct fuel; [lia|]. rewrite skip_unfold. inversion Hv; subst; cbn [N.eqb Pos.eqb].
  - rewrite (varint_get _ _ _ H). reflexivity.
  - rewrite take_exact_app by (rewrite H; reflexivity). reflexivity.
  - rewrite <- app_assoc, (bytes_get _ _ _ H). reflexivity.
  - rewrite <- app_assoc. rewrite app_length in Hf.
    assert (A : skips_all fs b).
    { clear - H. induction H as [|num v b fs r0 Hf Hr IH].
      - intros num e He fuel g r _ Hg. destruct g; [lia|]. rewrite members_unfold. cbn [app].
        rewrite (header_get _ _ _ _ He) by lia. cbn [N.eqb Pos.eqb]. rewrite N.eqb_refl. reflexivity.
      - intros num' e He fuel g r Hfu Hg. destruct (skip_ok _ _ _ Hf) as (wt & h & p & -> & Hh & Hw & Hw4 & Hs).
        destruct g; [lia|]. rewrite members_unfold. rewrite <- !app_assoc. rewrite (header_get _ _ _ _ Hh) by lia.
        replace (wt =? 4) with false by lia. rewrite !app_length in *.
        rewrite Hs by lia. pose proof (header_ne _ _ _ Hh). destruct h; [congruence|]. cbn [length] in *.
        apply IH; [exact He|lia|lia]. }
    apply A; [assumption|lia|lia].
  - rewrite take_exact_app by (rewrite H; reflexivity). reflexivity.
Qed.

(** Whatever is skipped is a field. *)
Lemma skip_inv fuel : forall num wt b r, Forall byte b -> skip_value fuel num wt b = Some r ->
  exists v p, b = p ++ r /\ value_bytes num wt v p.
Proof.
  induction fuel as [|fuel IH]; intros num wt b r Hb H; [discriminate|]. rewrite skip_unfold in H.
  destruct (N.eqb_spec wt 0) as [->|].
  { destruct (get_varint 9 b) as [[n r']|] eqn:E; [|discriminate]. injection H as <-.
    destruct (get_varint_inv _ _ _ Hb E) as (p & -> & Hp). exists (PInt n), p. split; [reflexivity|constructor; exact Hp]. }
  destruct (N.eqb_spec wt 1) as [->|].
  { destruct (take_exact 8 b) as [[x r']|] eqn:E; [|discriminate]. injection H as <-.
    apply take_inv in E as [-> E]. exists (PFix64 x), x. split; [reflexivity|constructor; lia]. }
  destruct (N.eqb_spec wt 2) as [->|].
  { destruct (get_bytes b) as [[x r']|] eqn:E; [|discriminate]. injection H as <-.
    destruct (get_bytes_inv _ _ _ Hb E) as (l & -> & Hp). exists (PBytes x), (l ++ x). split; [rewrite app_assoc; reflexivity|constructor; exact Hp]. }
  destruct (N.eqb_spec wt 5) as [->|].
  { destruct (take_exact 4 b) as [[x r']|] eqn:E; [|discriminate]. injection H as <-.
    apply take_inv in E as [-> E]. exists (PFix32 x), x. split; [reflexivity|constructor; lia]. }
  destruct (N.eqb_spec wt 3) as [->|]; [|discriminate].
  assert (M : forall g b r, Forall byte b -> members fuel num g b = Some r ->
    exists fs p e, b = p ++ e ++ r /\ record_bytes fs p /\ header num 4 e).
  { clear H Hb b r. induction g as [|g IHg]; intros b r Hb H; [discriminate|]. rewrite members_unfold in H.
    destruct (get_tag b) as [[[num' wt'] r1]|] eqn:E; [|discriminate].
    destruct (get_tag_inv _ _ _ _ Hb E) as (h & -> & Hh & Hw). apply Forall_app in Hb as [_ Hb].
    destruct (N.eqb_spec wt' 4) as [->|].
    - destruct (N.eqb_spec num' num) as [->|]; [|discriminate]. injection H as <-.
      exists [], [], h. split; [reflexivity|]. split; [constructor|exact Hh].
    - destruct (skip_value fuel num' wt' r1) as [r2|] eqn:E2; [|discriminate].
      destruct (IH _ _ _ _ Hb E2) as (v & p & -> & Hv). apply Forall_app in Hb as [_ Hb].
      destruct (IHg _ _ Hb H) as (fs & p2 & e & -> & Hr & He).
      exists ((num', v) :: fs), ((h ++ p) ++ p2), e. split; [rewrite <- !app_assoc; reflexivity|]. split; [|exact He].
      constructor; [|exact Hr]. apply field_split. exists wt', h, p. auto. }
  destruct (M _ _ _ Hb H) as (fs & p & e & -> & Hr & He). exists (PGroup fs), (p ++ e).
  split; [rewrite <- app_assoc; reflexivity|constructor; assumption].
Qed.

(** ** The decoding loop, field by field *)
Fixpoint run {A} (step : N -> pvalue -> A -> option A) (fs : record) (a : A) : option A :=
  match fs with
  | [] => Some a
  | (num, v) :: fs' => match step num v a with Some a' => run step fs' a' | None => None end
  end.

(** [f] does to a field what [step] says. *)
Definition implements {A} (f : N -> N -> A -> bytes -> field_result A) (step : N -> pvalue -> A -> option A) : Prop :=
  forall num wt v p, value_bytes num wt v p -> forall a r,
    match f num wt a (p ++ r) with
    | FieldOk a' r' => r' = r /\ step num v a = Some a'
    | FieldBad => step num v a = None
    | FieldUnknown => step num v a = Some a
    end.
(** What [f] accepts is a field. *)
Definition reads_fields {A} (f : N -> N -> A -> bytes -> field_result A) : Prop :=
  forall num wt a b a' r, Forall byte b -> f num wt a b = FieldOk a' r -> exists v p, b = p ++ r /\ value_bytes num wt v p.

Lemma decode_run {A} (f : N -> N -> A -> bytes -> field_result A) step : implements f step ->
  forall fs b, record_bytes fs b -> forall a, decode f a b = run step fs a.
Proof.
  intros Hi fs b Hr. unfold decode.
  enough (forall n a, (length b <= n)%nat -> decode_loop f n a b = run step fs a) by auto.
  induction Hr as [|num v b fs r Hf Hr IH]; intros n a Hn; [destruct n; reflexivity|].
  apply field_split in Hf as (wt & h & p & -> & Hh & Hv). rewrite <- app_assoc in *.
  pose proof (header_ne _ _ _ Hh) as Hne. pose proof (value_wt _ _ _ _ Hv) as [Hw Hw4].
  assert (Hlen : (length (p ++ r) < n)%nat).
  { destruct h; [congruence|]. cbn [app length] in Hn. rewrite !app_length in *. lia. }
  destruct n as [|n]; [lia|].
  assert (E : decode_loop f (S n) a (h ++ p ++ r) =
    match get_tag (h ++ p ++ r) with
    | None => None
    | Some (num, wt, r) =>
        if wt =? wt_end_group then None
        else match f num wt a r with
             | FieldOk a' r' => decode_loop f n a' r'
             | FieldBad => None
             | FieldUnknown => match skip_value (S (length r)) num wt r with Some r' => decode_loop f n a r' | None => None end
             end
    end) by (destruct h; [congruence|reflexivity]).
  rewrite E, (header_get _ _ _ _ Hh) by assumption. unfold wt_end_group. replace (wt =? 4) with false by lia.
  cbn [run]. specialize (Hi num wt v p Hv a r). rewrite app_length in Hlen.
  destruct (f num wt a (p ++ r)) as [a' r'| |].
  - destruct Hi as [-> ->]. apply IH. lia.
  - rewrite Hi. reflexivity.
  - rewrite Hi. rewrite (skip_value_ok num wt v p) by (try assumption; try apply Hh; rewrite app_length; lia). apply IH. lia.
Qed.

Lemma decode_record {A} (f : N -> N -> A -> bytes -> field_result A) : reads_fields f ->
  forall b a x, Forall byte b -> decode f a b = Some x -> exists fs, record_bytes fs b.
Proof.
  intros Hi b a x. unfold decode. generalize (length b) at 1. intros n. revert b a x.
  induction n as [|n IH]; intros b a x Hb H.
  - destruct b; [exists []; constructor|discriminate].
  - destruct b as [|y b]; [exists []; constructor|]. cbn [decode_loop] in H. remember (y :: b) as bb. clear Heqbb.
    destruct (get_tag bb) as [[[num wt] r]|] eqn:E; [|discriminate].
    destruct (get_tag_inv _ _ _ _ Hb E) as (h & -> & Hh & Hw). apply Forall_app in Hb as [_ Hb].
    destruct (wt =? wt_end_group); [discriminate|].
    destruct (f num wt a r) as [a' r'| |] eqn:Ef; [| discriminate |].
    + destruct (Hi _ _ _ _ _ _ Hb Ef) as (v & p & -> & Hv). apply Forall_app in Hb as [_ Hb].
      destruct (IH _ _ _ Hb H) as (fs & Hr). exists ((num, v) :: fs). rewrite app_assoc. constructor; [|exact Hr].
      apply field_split. eauto 6.
    + destruct (skip_value _ num wt r) as [r'|] eqn:Es; [|discriminate].
      destruct (skip_inv _ _ _ _ _ Hb Es) as (v & p & -> & Hv). apply Forall_app in Hb as [_ Hb].
      destruct (IH _ _ _ Hb H) as (fs & Hr). exists ((num, v) :: fs). rewrite app_assoc. constructor; [|exact Hr].
      apply field_split. eauto 6.
Qed.

(** ** The decoders of the single fields *)
Definition agree {A} (x : field_result A) (r : bytes) (a : A) (y : option A) : Prop :=
  match x with
  | FieldOk a' r' => r' = r /\ y = Some a'
  | FieldBad => y = None
  | FieldUnknown => y = Some a
  end.
Definition st_int {A} (v : pvalue) (a : A) (set : N -> A) : option A :=
  match v with PInt n => Some (set n) | _ => Some a end.
Definition st_fix64 {A} (v : pvalue) (a : A) (set : N -> A) : option A :=
  match v with PFix64 b => Some (set (get_le b)) | _ => Some a end.
Definition st_block {A} (v : pvalue) (a : A) (set : bytes -> option A) : option A :=
  match v with PBytes b => set b | _ => Some a end.
Definition st_text {A} (v : pvalue) (a : A) (set : bytes -> A) : option A :=
  st_block v a (fun b => if utf8_valid b then Some (set b) else None).
Definition st_doubles {A} (v : pvalue) (a : A) (add : list N -> A) : option A :=
  match v with
  | PBytes b => match get_doubles (length b) b with Some l => Some (add l) | None => None end
  | PFix64 b => Some (add [get_le b])
  | _ => Some a
  end.

Lemma on_varint_agree {A} num wt v p r (a : A) set : value_bytes num wt v p ->
  agree (on_varint wt (p ++ r) set) r a (st_int v a set).
Proof.
  intros H; inversion H; subst; unfold on_varint; cbn [N.eqb wt_varint Pos.eqb st_int agree]; try reflexivity.
  rewrite (varint_get _ _ _ H0). cbn. auto.
Qed.
Lemma on_fixed64_agree {A} num wt v p r (a : A) set : value_bytes num wt v p ->
  agree (on_fixed64 wt (p ++ r) set) r a (st_fix64 v a set).
Proof.
  intros H; inversion H; subst; unfold on_fixed64; cbn [N.eqb wt_fixed64 Pos.eqb st_fix64 agree]; try reflexivity.
  unfold get_fixed64. rewrite take_exact_app by (rewrite H0; reflexivity). cbn. auto.
Qed.
Lemma on_bytes_agree {A} num wt v p r (a : A) set : value_bytes num wt v p ->
  agree (on_bytes wt (p ++ r) set) r a (st_block v a set).
Proof.
  intros H; inversion H; subst; unfold on_bytes; cbn [N.eqb wt_bytes Pos.eqb st_block agree]; try reflexivity.
  rewrite <- app_assoc, (bytes_get _ _ _ H0). destruct (set b); cbn; auto.
Qed.
Lemma on_string_agree {A} num wt v p r (a : A) set : value_bytes num wt v p ->
  agree (on_string wt (p ++ r) set) r a (st_text v a set).
Proof. apply on_bytes_agree. Qed.
Lemma on_doubles_agree {A} num wt v p r (a : A) add : value_bytes num wt v p ->
  agree (on_doubles wt (p ++ r) add) r a (st_doubles v a add).
Proof.
  intros H; inversion H; subst; unfold on_doubles, on_fixed64; cbn [N.eqb wt_bytes wt_fixed64 Pos.eqb st_doubles agree]; try reflexivity.
  - unfold get_fixed64. rewrite take_exact_app by (rewrite H0; reflexivity). cbn. auto.
  - rewrite <- app_assoc, (bytes_get _ _ _ H0). destruct (get_doubles (length b) b); cbn; auto.
Qed.

Definition reads1 {A} (num wt : N) (b : bytes) (x : field_result A) : Prop :=
  forall a' r, x = FieldOk a' r -> exists v p, b = p ++ r /\ value_bytes num wt v p.
Lemma unknown_reads {A} num wt b : reads1 num wt b (@FieldUnknown A).
Proof. discriminate. Qed.
Lemma on_varint_reads {A} num wt b (set : N -> A) : Forall byte b -> reads1 num wt b (on_varint wt b set).
Proof.
  intros Hb a' r. unfold on_varint, wt_varint. destruct (N.eqb_spec wt 0) as [->|]; [|discriminate].
  destruct (get_varint 9 b) as [[n r']|] eqn:E; [|discriminate]. intros H; injection H as <- <-.
  destruct (get_varint_inv _ _ _ Hb E) as (p & -> & Hp). exists (PInt n), p. split; [reflexivity|constructor; exact Hp].
Qed.
Lemma on_fixed64_reads {A} num wt b (set : N -> A) : Forall byte b -> reads1 num wt b (on_fixed64 wt b set).
Proof.
  intros Hb a' r. unfold on_fixed64, wt_fixed64, get_fixed64. destruct (N.eqb_spec wt 1) as [->|]; [|discriminate].
  destruct (take_exact 8 b) as [[x r']|] eqn:E; [|discriminate]. intros H; injection H as <- <-.
  apply take_inv in E as [-> E]. exists (PFix64 x), x. split; [reflexivity|constructor; lia].
Qed.
Lemma on_bytes_reads {A} num wt b (set : bytes -> option A) : Forall byte b -> reads1 num wt b (on_bytes wt b set).
Proof.
  intros Hb a' r. unfold on_bytes, wt_bytes. destruct (N.eqb_spec wt 2) as [->|]; [|discriminate].
  destruct (get_bytes b) as [[x r']|] eqn:E; [|discriminate]. destruct (set x); [|discriminate]. intros H; injection H as <- <-.
  destruct (get_bytes_inv _ _ _ Hb E) as (l & -> & Hp). exists (PBytes x), (l ++ x). split; [rewrite app_assoc; reflexivity|constructor; exact Hp].
Qed.
Lemma on_doubles_reads {A} num wt b (add : list N -> A) : Forall byte b -> reads1 num wt b (on_doubles wt b add).
Proof.
  intros Hb a' r. unfold on_doubles, wt_bytes. destruct (N.eqb_spec wt 2) as [->|].
  - destruct (get_bytes b) as [[x r']|] eqn:E; [|discriminate]. destruct (get_doubles _ x); [|discriminate]. intros H; injection H as <- <-.
    destruct (get_bytes_inv _ _ _ Hb E) as (l2 & -> & Hp). exists (PBytes x), (l2 ++ x). split; [rewrite app_assoc; reflexivity|constructor; exact Hp].
  - apply on_fixed64_reads; exact Hb.
Qed.

(** ** The messages, field by field *)
Definition step_atom (num : N) (v : pvalue) (a : Z * bytes) : option (Z * bytes) :=
  if num =? 1 then st_int v a (fun n => (i64 n, snd a))
  else if num =? 2 then st_text v a (fun s => (fst a, s)) else Some a.
Definition step_line (num : N) (v : pvalue) (l : list (Z * bytes)) : option (list (Z * bytes)) :=
  if num =? 1 then st_block v l (fun b => match decode fld_atom (0%Z, []) b with Some a => Some (l ++ [a]) | None => None end)
  else Some l.
Definition step_metadata (num : N) (v : pvalue) (m : bytes * bytes * bytes) : option (bytes * bytes * bytes) :=
  let '(x, y, z) := m in
  if num =? 1 then st_text v m (fun s => (s, y, z))
  else if num =? 2 then st_text v m (fun s => (x, s, z))
  else if num =? 3 then st_text v m (fun s => (x, y, s)) else Some m.
Definition step_envelope (num : N) (v : pvalue) (e : bytes * bytes) : option (bytes * bytes) :=
  if num =? 1 then st_text v e (fun s => (s, snd e))
  else if num =? 2 then st_block v e (fun d => Some (fst e, d)) else Some e.
Definition step_message (num : N) (v : pvalue) (m : message) : option message :=
  match m with
  | TimeSyncRequest a => if num =? 1 then st_int v m (fun v => TimeSyncRequest (i64 v)) else Some m
  | TimeSyncResponse x y z =>
      if num =? 1 then st_int v m (fun v => TimeSyncResponse (i64 v) y z)
      else if num =? 2 then st_int v m (fun v => TimeSyncResponse x (i64 v) z)
      else if num =? 3 then st_int v m (fun v => TimeSyncResponse x y (i64 v)) else Some m
  | QueueChunkRequest s c lo hi f =>
      if num =? 1 then st_int v m (fun v => QueueChunkRequest (i64 v) c lo hi f)
      else if num =? 2 then st_int v m (fun v => QueueChunkRequest s (i64 v) lo hi f)
      else if num =? 3 then st_doubles v m (fun l => QueueChunkRequest s c (lo ++ l) hi f)
      else if num =? 4 then st_doubles v m (fun l => QueueChunkRequest s c lo (hi ++ l) f)
      else if num =? 5 then st_int v m (fun v => QueueChunkRequest s c lo hi (Z.of_N v)) else Some m
  | SetVolumeRequest _ => if num =? 1 then st_fix64 v m (fun v => SetVolumeRequest v) else Some m
  | SubscribeChannelRequest _ => if num =? 1 then st_int v m (fun v => SubscribeChannelRequest (e32 v)) else Some m
  | NewSongInfo f file len ly md =>
      if num =? 1 then st_int v m (fun v => NewSongInfo (Z.of_N v) file len ly md)
      else if num =? 2 then st_text v m (fun s => NewSongInfo f s len ly md)
      else if num =? 3 then st_int v m (fun v => NewSongInfo f file (i64 v) ly md)
      else if num =? 4 then
        st_block v m (fun b => match decode fld_line [] b with Some l => Some (NewSongInfo f file len (ly ++ [l]) md) | None => None end)
      else if num =? 5 then
        st_block v m (fun b =>
          match decode fld_metadata (match md with Some x => x | None => ([], [], []) end) b with
          | Some x => Some (NewSongInfo f file len ly (Some x)) | None => None end)
      else Some m
  | ChunkInfo s f n =>
      if num =? 1 then st_int v m (fun v => ChunkInfo (i64 v) f n)
      else if num =? 2 then st_int v m (fun v => ChunkInfo s (Z.of_N v) n)
      else if num =? 3 then st_int v m (fun v => ChunkInfo s f (Z.of_N v)) else Some m
  | PauseInfo p t =>
      if num =? 1 then st_int v m (fun v => PauseInfo (negb (v =? 0)) t)
      else if num =? 2 then st_int v m (fun v => PauseInfo p (Z.of_N v)) else Some m
  | PingMessage | PongMessage | OtherMessage _ => Some m
  end.

Ltac agree_tac := first [eapply on_varint_agree; eassumption|eapply on_fixed64_agree; eassumption|eapply on_string_agree; eassumption
  |eapply on_bytes_agree; eassumption|eapply on_doubles_agree; eassumption|reflexivity].
Ltac each_field := repeat match goal with |- context [if ?n =? ?k then _ else _] => destruct (n =? k) end.
Lemma impl_atom : implements fld_atom step_atom.
Proof. intros num wt v p Hv a r. unfold fld_atom, step_atom. each_field; agree_tac. Qed.
Lemma impl_line : implements fld_line step_line.
Proof. intros num wt v p Hv a r. unfold fld_line, step_line. each_field; agree_tac. Qed.
Lemma impl_metadata : implements fld_metadata step_metadata.
Proof. intros num wt v p Hv [[x y] z] r. unfold fld_metadata, step_metadata. each_field; agree_tac. Qed.
Lemma impl_envelope : implements fld_envelope step_envelope.
Proof. intros num wt v p Hv a r. unfold fld_envelope, step_envelope. each_field; agree_tac. Qed.
Lemma impl_message : implements fld_message step_message.
Proof. intros num wt v p Hv a r. destruct a; unfold fld_message, step_message; each_field; agree_tac. Qed.

Lemma reads_atom : reads_fields fld_atom.
Proof. intros num wt a b a' r Hb. unfold fld_atom. each_field; first [eapply on_varint_reads; eassumption|eapply on_bytes_reads; eassumption|discriminate]. Qed.
Lemma reads_line : reads_fields fld_line.
Proof. intros num wt a b a' r Hb. unfold fld_line. each_field; first [eapply on_varint_reads; eassumption|eapply on_bytes_reads; eassumption|discriminate]. Qed.
Lemma reads_metadata : reads_fields fld_metadata.
Proof. intros num wt [[x y] z] b a' r Hb. unfold fld_metadata. each_field; first [eapply on_varint_reads; eassumption|eapply on_bytes_reads; eassumption|discriminate]. Qed.
Lemma reads_envelope : reads_fields fld_envelope.
Proof. intros num wt a b a' r Hb. unfold fld_envelope. each_field; first [eapply on_varint_reads; eassumption|eapply on_bytes_reads; eassumption|discriminate]. Qed.
Lemma reads_message : reads_fields fld_message.
Proof.
  intros num wt a b a' r Hb. destruct a; unfold fld_message; each_field;
    first [eapply on_varint_reads; eassumption|eapply on_fixed64_reads; eassumption|eapply on_bytes_reads; eassumption
          |eapply on_doubles_reads; eassumption|discriminate].
Qed.

(** ** Meaning *)
Lemma run_app {A} (step : N -> pvalue -> A -> option A) fs gs a :
  run step (fs ++ gs) a = match run step fs a with Some a' => run step gs a' | None => None end.
Proof. revert a; induction fs as [|[n v] fs IH]; intros a; cbn [run app]; [reflexivity|]. destruct (step n v a); auto. Qed.

Lemma ints_app num fs gs : ints num (fs ++ gs) = ints num fs ++ ints num gs.
Proof. apply flat_map_app. Qed.
Lemma blocks_app num fs gs : blocks num (fs ++ gs) = blocks num fs ++ blocks num gs.
Proof. apply flat_map_app. Qed.
Lemma fix64s_app num fs gs : fix64s num (fs ++ gs) = fix64s num fs ++ fix64s num gs.
Proof. apply flat_map_app. Qed.
Lemma get_le_value b : get_le b = le_value b.
Proof. induction b as [|x b IH]; cbn [get_le le_value]; [reflexivity|]. rewrite IH. reflexivity. Qed.
Lemma signed64_eq n : n < 2 ^ 64 -> i64 n = signed64 n.
Proof. intros H. unfold i64, signed64, wrap64. destruct (n <? 2 ^ 63) eqn:E; lia. Qed.
Lemma signed32_eq n : e32 n = signed32 n.
Proof. unfold e32, wrap32, signed32. cbv zeta. destruct (n mod 2 ^ 32 <? 2 ^ 31) eqn:E; lia. Qed.
Lemma last_snoc {A} (l : list A) x d : last (l ++ [x]) d = x.
Proof. apply last_last. Qed.
Lemma the_int_snoc num fs n v : the_int num (fs ++ [(n, v)]) = if n =? num then match v with PInt k => k | _ => the_int num fs end else the_int num fs.
Proof.
  unfold the_int. rewrite ints_app. cbn [ints flat_map fst snd app]. destruct (n =? num); [destruct v|]; cbn [app];
    rewrite ?app_nil_r; try reflexivity. apply last_snoc.
Qed.
Lemma blocks_snoc num fs n v : blocks num (fs ++ [(n, v)]) = if n =? num then match v with PBytes b => blocks num fs ++ [b] | _ => blocks num fs end else blocks num fs.
Proof. rewrite blocks_app. cbn [blocks flat_map fst snd app]. destruct (n =? num); [destruct v|]; cbn [app]; rewrite ?app_nil_r; reflexivity. Qed.
Lemma the_block_snoc num fs n v : the_block num (fs ++ [(n, v)]) = if n =? num then match v with PBytes b => b | _ => the_block num fs end else the_block num fs.
Proof. unfold the_block. rewrite blocks_snoc. destruct (n =? num); [destruct v|]; try reflexivity. apply last_snoc. Qed.
Lemma the_double_snoc num fs n v : the_double num (fs ++ [(n, v)]) = if n =? num then match v with PFix64 b => le_value b | _ => the_double num fs end else the_double num fs.
Proof.
  unfold the_double. rewrite fix64s_app. cbn [fix64s flat_map fst snd app]. destruct (n =? num); [destruct v|]; cbn [app];
    rewrite ?app_nil_r; try reflexivity. rewrite last_snoc. reflexivity.
Qed.

(** Numbers of a record that has bytes are 64-bit. *)
Lemma record_ints fs b num : record_bytes fs b -> Forall (fun n => n < 2 ^ 64) (ints num fs).
Proof.
  induction 1 as [|n v b fs r Hf Hr IH]; [constructor|]. cbn [ints flat_map]. apply Forall_app. split; [|exact IH].
  cbn [fst snd]. destruct (n =? num); [|constructor]. destruct v; constructor; [|constructor]. inversion Hf; subst. match goal with H : varint _ _ |- _ => destruct H as (_ & ? & _); assumption end.
Qed.
Lemma the_int_lt fs b num : record_bytes fs b -> the_int num fs < 2 ^ 64.
Proof.
  intros H. apply (record_ints fs b num) in H. unfold the_int. destruct (ints num fs) as [|x l] eqn:E; [reflexivity|].
  rewrite <- E in *. rewrite Forall_forall in H. apply H. rewrite E. clear E H.
  revert x. induction l as [|y l IH]; intros x; [left; reflexivity|right; apply IH].
Qed.
Lemma valid_text b : utf8_valid b = true <-> is_text b.
Proof. apply utf8_valid_spec. Qed.
Lemma valid_text' b : utf8_valid b = false -> ~ is_text b.
Proof. intros H H2. apply valid_text in H2. congruence. Qed.

Ltac snoc_start fs := induction fs as [|[n v] fs IH] using rev_ind; [reflexivity|]; rewrite run_app; cbn [run].
Ltac snoc_fields := rewrite ?the_int_snoc, ?the_block_snoc, ?the_double_snoc.
Ltac by_number :=
  repeat match goal with |- context [?n =? ?k] => destruct (N.eqb_spec n k); [subst n|] end.

Lemma run_tsreq fs : run step_message fs (TimeSyncRequest 0) = Some (TimeSyncRequest (i64 (the_int 1 fs))).
Proof. snoc_start fs. rewrite IH. cbn [step_message]. snoc_fields. by_number; destruct v; reflexivity. Qed.
Lemma run_tsresp fs : run step_message fs (TimeSyncResponse 0 0 0) =
  Some (TimeSyncResponse (i64 (the_int 1 fs)) (i64 (the_int 2 fs)) (i64 (the_int 3 fs))).
Proof. snoc_start fs. rewrite IH. cbn [step_message]. snoc_fields. by_number; destruct v; try reflexivity; cbn; by_number; try congruence; reflexivity. Qed.
Lemma run_ping fs : run step_message fs PingMessage = Some PingMessage.
Proof. snoc_start fs. rewrite IH. reflexivity. Qed.
Lemma run_pong fs : run step_message fs PongMessage = Some PongMessage.
Proof. snoc_start fs. rewrite IH. reflexivity. Qed.
Lemma run_volume fs : run step_message fs (SetVolumeRequest 0) = Some (SetVolumeRequest (the_double 1 fs)).
Proof. snoc_start fs. rewrite IH. cbn [step_message]. snoc_fields. by_number; destruct v; cbn; rewrite ?get_le_value; reflexivity. Qed.
Lemma run_subscribe fs : run step_message fs (SubscribeChannelRequest 0) = Some (SubscribeChannelRequest (e32 (the_int 1 fs))).
Proof. snoc_start fs. rewrite IH. cbn [step_message]. snoc_fields. by_number; destruct v; reflexivity. Qed.
Lemma run_chunkinfo fs : run step_message fs (ChunkInfo 0 0 0) =
  Some (ChunkInfo (i64 (the_int 1 fs)) (Z.of_N (the_int 2 fs)) (Z.of_N (the_int 3 fs))).
Proof. snoc_start fs. rewrite IH. cbn [step_message]. snoc_fields. by_number; destruct v; try reflexivity; cbn; by_number; try congruence; reflexivity. Qed.
Lemma run_pause fs : run step_message fs (PauseInfo false 0) =
  Some (PauseInfo (negb (the_int 1 fs =? 0)) (Z.of_N (the_int 2 fs))).
Proof. snoc_start fs. rewrite IH. cbn [step_message]. snoc_fields. by_number; destruct v; try reflexivity; cbn; by_number; try congruence; reflexivity. Qed.

(** Doubles *)
Lemma packed_get b : forall k l, (length b <= k)%nat -> get_doubles k b = Some l <-> packed b l.
Proof.
  intros k; revert b. induction k as [|k IH]; intros b l Hk.
  - destruct b; [|cbn in Hk; lia]. cbn [get_doubles]. split.
    + intros H; injection H as <-. exists []. repeat split; constructor.
    + intros (cs & H1 & H2 & ->). destruct cs as [|c cs]; [reflexivity|]. inversion H2; subst. destruct c; [cbn in *; lia|discriminate].
  - destruct b as [|x b]; cbn [get_doubles].
    + split.
      * intros H; injection H as <-. exists []. repeat split; constructor.
      * intros (cs & H1 & H2 & ->). destruct cs as [|c cs]; [reflexivity|]. inversion H2; subst. destruct c; [cbn in *; lia|discriminate].
    + remember (x :: b) as bb eqn:Ebb. unfold get_fixed64. split.
      * destruct (take_exact 8 bb) as [[y r]|] eqn:E; [|discriminate]. apply take_inv in E as [E E8].
        destruct (get_doubles k r) as [l'|] eqn:E2; [|discriminate]. intros H; injection H as <-.
        apply IH in E2; [|apply (f_equal (@length N)) in E; rewrite app_length in E; lia].
        destruct E2 as (cs & -> & H2 & ->). exists (y :: cs). cbn [concat map]. rewrite get_le_value. repeat split; [exact E|].
        constructor; [lia|exact H2].
      * intros (cs & H1 & H2 & ->). destruct cs as [|c cs]; [subst bb; discriminate|]. inversion H2 as [|? ? Hc H3]; subst c.
        all: subst. cbn [concat] in H1. rewrite H1. rewrite take_exact_app by (rewrite Hc; reflexivity).
        assert (G : get_doubles k (concat cs) = Some (map le_value cs)).
        { apply IH; [apply (f_equal (@length N)) in H1; rewrite app_length in H1; cbn in H1, Hk; lia|]. exists cs; auto. }
        rewrite G. cbn [map]. rewrite get_le_value. reflexivity.
Qed.
Lemma doubles_snoc num fs l n v : all_doubles num fs l ->
  forall l', (n = num -> match v with PBytes b => packed b l' | PFix64 b => l' = [le_value b] | _ => l' = [] end) ->
  (n <> num -> l' = []) -> all_doubles num (fs ++ [(n, v)]) (l ++ l').
Proof.
  intros H l' H1 H2. induction H as [|b l fs r Hp H IH|b fs r H IH|m u fs r Hm H IH]; cbn [app].
  - destruct (N.eq_dec n num) as [->|Hn].
    + specialize (H1 eq_refl). destruct v; try (subst l').
      * apply D_other; [auto|constructor].
      * apply (D_one num b [] []). constructor.
      * rewrite <- (app_nil_r l'). apply D_packed; [exact H1|constructor].
      * apply D_other; [auto|constructor].
      * apply D_other; [auto|constructor].
    + rewrite (H2 Hn). apply D_other; [congruence|constructor].
  - rewrite <- app_assoc. apply D_packed; assumption.
  - apply D_one; assumption.
  - apply D_other; assumption.
Qed.
Lemma doubles_snoc_inv num fs n v l : all_doubles num (fs ++ [(n, v)]) l ->
  exists l0 l', l = l0 ++ l' /\ all_doubles num fs l0 /\
    (n = num -> match v with PBytes b => packed b l' | PFix64 b => l' = [le_value b] | _ => l' = [] end) /\
    (n <> num -> l' = []).
Proof.
  revert l. induction fs as [|f fs IH]; intros l H; cbn [app] in H.
  - exists [], l. split; [reflexivity|]. split; [constructor|].
    inversion H as [|b l1 fs r Hp H'|b fs r H'|m u fs r Hm H']; subst; inversion H'; subst; rewrite ?app_nil_r.
    + split; [intros _; exact Hp|congruence].
    + split; [reflexivity|congruence].
    + split; [|reflexivity]. intros ->. specialize (Hm eq_refl). destruct v; try contradiction; reflexivity.
  - inversion H as [|b l1 fs' r Hp H'|b fs' r H'|m u fs' r Hm H']; subst; destruct (IH _ H') as (l0 & l' & -> & H1 & H2).
    + exists (l1 ++ l0), l'. split; [apply app_assoc|]. split; [apply D_packed; assumption|exact H2].
    + exists (le_value b :: l0), l'. split; [reflexivity|]. split; [apply D_one; assumption|exact H2].
    + exists l0, l'. split; [reflexivity|]. split; [apply D_other; assumption|exact H2].
Qed.

Lemma run_chunk fs : forall m, run step_message fs (QueueChunkRequest 0 0 [] [] 0) = Some m <->
  exists lo hi, m = QueueChunkRequest (i64 (the_int 1 fs)) (i64 (the_int 2 fs)) lo hi (Z.of_N (the_int 5 fs)) /\
    all_doubles 3 fs lo /\ all_doubles 4 fs hi.
Proof.
  induction fs as [|[n v] fs IH] using rev_ind; intros m.
  - cbn [run]. split.
    + intros H; injection H as <-. exists [], []. repeat split; constructor.
    + intros (lo & hi & -> & H1 & H2). inversion H1; inversion H2; subst. reflexivity.
  - rewrite run_app. cbn [run]. snoc_fields. split.
    + destruct (run step_message fs _) as [m0|] eqn:E; [|discriminate].
      destruct (proj1 (IH m0) eq_refl) as (lo & hi & -> & Hlo & Hhi). cbn [step_message].
      intros H.
      assert (X : forall num l, num <> n -> all_doubles num fs l -> all_doubles num (fs ++ [(n, v)]) l).
      { intros num l Hn Hl. rewrite <- (app_nil_r l). apply doubles_snoc; [exact Hl|congruence|reflexivity]. }
      assert (Y : forall num l, match v with PBytes _ | PFix64 _ => False | _ => True end -> all_doubles num fs l -> all_doubles num (fs ++ [(n, v)]) l).
      { intros num l Hn Hl. rewrite <- (app_nil_r l). apply doubles_snoc; [exact Hl| |reflexivity]. destruct v; auto; contradiction. }
      revert H. destruct (N.eqb_spec n 1) as [->|]; [|destruct (N.eqb_spec n 2) as [->|]; [|destruct (N.eqb_spec n 3) as [->|];
        [|destruct (N.eqb_spec n 4) as [->|]; [|destruct (N.eqb_spec n 5) as [->|]]]]]; cbn [N.eqb Pos.eqb].
      * destruct v; cbn [st_int]; intros H; injection H as <-; exists lo, hi; (split; [reflexivity|]); split; apply X; (lia || assumption).
      * destruct v; cbn [st_int]; intros H; injection H as <-; exists lo, hi; (split; [reflexivity|]); split; apply X; (lia || assumption).
      * destruct v; cbn [st_doubles].
        -- intros H; injection H as <-; exists lo, hi; (split; [reflexivity|]); split; apply Y; (exact I || assumption).
        -- intros H; injection H as <-; eexists _, hi; (split; [reflexivity|]); split; [|apply X; [lia|assumption]].
           apply doubles_snoc; [assumption| |lia]. intros _. rewrite get_le_value; reflexivity.
        -- destruct (get_doubles (length b) b) as [l|] eqn:Eg; [|discriminate].
           intros H; injection H as <-; eexists _, hi; (split; [reflexivity|]); split; [|apply X; [lia|assumption]].
           apply doubles_snoc; [assumption| |lia]. intros _. apply (packed_get b (length b)); [lia|exact Eg].
        -- intros H; injection H as <-; exists lo, hi; (split; [reflexivity|]); split; apply Y; (exact I || assumption).
        -- intros H; injection H as <-; exists lo, hi; (split; [reflexivity|]); split; apply Y; (exact I || assumption).
      * destruct v; cbn [st_doubles].
        -- intros H; injection H as <-; exists lo, hi; (split; [reflexivity|]); split; apply Y; (exact I || assumption).
        -- intros H; injection H as <-; eexists lo, _; (split; [reflexivity|]); split; [apply X; [lia|assumption]|].
           apply doubles_snoc; [assumption| |lia]. intros _. rewrite get_le_value; reflexivity.
        -- destruct (get_doubles (length b) b) as [l|] eqn:Eg; [|discriminate].
           intros H; injection H as <-; eexists lo, _; (split; [reflexivity|]); split; [apply X; [lia|assumption]|].
           apply doubles_snoc; [assumption| |lia]. intros _. apply (packed_get b (length b)); [lia|exact Eg].
        -- intros H; injection H as <-; exists lo, hi; (split; [reflexivity|]); split; apply Y; (exact I || assumption).
        -- intros H; injection H as <-; exists lo, hi; (split; [reflexivity|]); split; apply Y; (exact I || assumption).
      * destruct v; cbn [st_int]; intros H; injection H as <-; exists lo, hi; (split; [reflexivity|]); split; apply X; (lia || assumption).
      * intros H; injection H as <-; exists lo, hi; (split; [reflexivity|]); split; apply X; (lia || assumption).
    + intros (lo & hi & -> & Hlo & Hhi).
      apply doubles_snoc_inv in Hlo as (lo0 & lo' & -> & Hlo & L1 & L2). apply doubles_snoc_inv in Hhi as (hi0 & hi' & -> & Hhi & H1 & H2).
      rewrite (proj2 (IH _) (ex_intro _ lo0 (ex_intro _ hi0 (conj eq_refl (conj Hlo Hhi))))). cbn [step_message].
      destruct (N.eqb_spec n 1) as [->|]; [|destruct (N.eqb_spec n 2) as [->|]; [|destruct (N.eqb_spec n 3) as [->|];
        [|destruct (N.eqb_spec n 4) as [->|]; [|destruct (N.eqb_spec n 5) as [->|]]]]]; cbn [N.eqb Pos.eqb].
      * rewrite L2, H2, !app_nil_r by lia. destruct v; reflexivity.
      * rewrite L2, H2, !app_nil_r by lia. destruct v; reflexivity.
      * rewrite H2, app_nil_r by lia. specialize (L1 eq_refl). destruct v; cbn [st_doubles]; try (subst lo'); rewrite ?app_nil_r, ?get_le_value; try reflexivity.
        apply (packed_get b (length b)) in L1; [|lia]. rewrite L1. reflexivity.
      * rewrite L2, app_nil_r by lia. specialize (H1 eq_refl). destruct v; cbn [st_doubles]; try (subst hi'); rewrite ?app_nil_r, ?get_le_value; try reflexivity.
        apply (packed_get b (length b)) in H1; [|lia]. rewrite H1. reflexivity.
      * rewrite L2, H2, !app_nil_r by lia. destruct v; reflexivity.
      * rewrite L2, H2, !app_nil_r by lia. reflexivity.
Qed.

(** Lyrics and metadata *)
Lemma run_atom fs : forall a, run step_atom fs (0%Z, []) = Some a <->
  Forall is_text (blocks 2 fs) /\ a = (i64 (the_int 1 fs), the_block 2 fs).
Proof.
  induction fs as [|[n v] fs IH] using rev_ind; intros a.
  - cbn. split; [intros H; injection H as <-; split; [constructor|reflexivity]|intros [_ ->]; reflexivity].
  - rewrite run_app. cbn [run]. snoc_fields. rewrite blocks_snoc. unfold step_atom.
    destruct (run (fun num v a => _) fs _) as [a0|] eqn:E; fold step_atom in *; rewrite E in IH.
    2:{ split; [discriminate|]. intros [H ->]. exfalso. enough (None = Some (i64 (the_int 1 fs), the_block 2 fs)) by discriminate.
        apply IH. split; [|reflexivity]. destruct (n =? 2); [destruct v|]; try exact H. apply Forall_app in H. apply H. }
    destruct (proj1 (IH a0) eq_refl) as [H0 ->]. cbn [fst snd]. by_number; cbn [N.eqb Pos.eqb].
    + destruct v; cbn [st_int]; (split; [intros H; injection H as <-; auto|intros [_ ->]; reflexivity]).
    + destruct v; cbn [st_text st_block]; try (split; [intros H; injection H as <-; auto|intros [_ ->]; reflexivity]).
      destruct (utf8_valid b) eqn:Eb.
      * split; [intros H; injection H as <-|intros [_ ->]; reflexivity]. split; [|reflexivity].
        apply Forall_app. split; [exact H0|]. constructor; [apply valid_text; exact Eb|constructor].
      * split; [discriminate|]. intros [H _]. apply Forall_app in H as [_ H]. inversion H; subst. destruct (valid_text' _ Eb). assumption.
    + split; [intros H; injection H as <-; auto|intros [_ ->]; reflexivity].
Qed.

Lemma decode_iff {A} (f : N -> N -> A -> bytes -> field_result A) step a b x : implements f step -> reads_fields f -> Forall byte b ->
  (decode f a b = Some x <-> exists fs, record_bytes fs b /\ run step fs a = Some x).
Proof.
  intros Hi Hr Hb. split.
  - intros H. destruct (decode_record f Hr b a x Hb H) as (fs & Hfs). exists fs. split; [exact Hfs|].
    rewrite <- (decode_run f step Hi fs b Hfs). exact H.
  - intros (fs & Hfs & H). rewrite (decode_run f step Hi fs b Hfs). exact H.
Qed.

Lemma Forall2_snoc {A B} (R : A -> B -> Prop) l x l' :
  Forall2 R (l ++ [x]) l' <-> exists l0 y, l' = l0 ++ [y] /\ Forall2 R l l0 /\ R x y.
Proof.
  split.
  - intros H. apply Forall2_app_inv_l in H as (l0 & l1 & H1 & H2 & ->). inversion H2; subst. inversion H5; subst. eauto 6.
  - intros (l0 & y & -> & H1 & H2). apply Forall2_app; [exact H1|]. constructor; [exact H2|constructor].
Qed.

Lemma run_line fs : forall l, run step_line fs [] = Some l <->
  Forall2 (fun b a => decode fld_atom (0%Z, []) b = Some a) (blocks 1 fs) l.
Proof.
  induction fs as [|[n v] fs IH] using rev_ind; intros l.
  - cbn [run blocks flat_map]. split; [intros H; injection H as <-; constructor|intros H; inversion H; reflexivity].
  - rewrite run_app, blocks_snoc. cbn [run]. destruct (run step_line fs []) as [l0|] eqn:E.
    + pose proof (proj1 (IH l0) eq_refl) as H0. unfold step_line. destruct (n =? 1).
      2:{ split; [intros H; injection H as <-; exact H0|intros H; apply IH in H; congruence]. }
      destruct v; cbn [st_block]; try (split; [intros H; injection H as <-; exact H0|intros H; apply IH in H; congruence]).
      rewrite Forall2_snoc. destruct (decode fld_atom (0%Z, []) b) as [a|] eqn:Ea.
      * split; [intros H; injection H as <-; eauto 6|]. intros (l1 & y & -> & H1 & H2). apply IH in H1. congruence.
      * split; [discriminate|]. intros (l1 & y & -> & H1 & H2). discriminate.
    + split; [discriminate|]. intros H.
      assert (exists l1, Forall2 (fun b a => decode fld_atom (0%Z, []) b = Some a) (blocks 1 fs) l1) as (l1 & H1).
      { destruct (n =? 1); [destruct v|]; eauto. apply Forall2_snoc in H as (l0 & y & _ & H & _). eauto. }
      apply IH in H1. discriminate.
Qed.

Lemma run_metadata fs : forall m, run step_metadata fs ([], [], []) = Some m <-> metadata_means fs m.
Proof.
  unfold metadata_means. induction fs as [|[n v] fs IH] using rev_ind; intros m.
  - cbn. split; [intros H; injection H as <-; split; [constructor|reflexivity]|intros [_ ->]; reflexivity].
  - rewrite run_app. cbn [run]. snoc_fields. rewrite !blocks_snoc.
    destruct (run step_metadata fs ([], [], [])) as [a0|] eqn:E.
    2:{ split; [discriminate|]. intros [H ->]. exfalso. enough (None = Some (the_block 1 fs, the_block 2 fs, the_block 3 fs)) by discriminate.
        apply IH. split; [|reflexivity]. rewrite !Forall_app in *. destruct H as (H1 & H2 & H3).
        repeat split; [revert H1|revert H2|revert H3]; match goal with |- context [?n =? ?k] => destruct (n =? k) end; destruct v; auto;
          rewrite Forall_app; tauto. }
    destruct (proj1 (IH a0) eq_refl) as [H0 ->]. unfold step_metadata. by_number; cbn [N.eqb Pos.eqb].
    1-3: destruct v; cbn [st_text st_block]; try (split; [intros H; injection H as <-; auto|intros [_ ->]; reflexivity]);
      destruct (utf8_valid b) eqn:Eb;
      [split; [intros H; injection H as <-|intros [_ ->]; reflexivity]; split; [|reflexivity];
        apply valid_text in Eb; rewrite !Forall_app in *; intuition (auto; constructor; auto)
      |split; [discriminate|]; intros [H _]; rewrite !Forall_app in H; apply valid_text' in Eb; exfalso;
        repeat match goal with H : _ /\ _ |- _ => destruct H | H : Forall _ [_] |- _ => inversion H; subst; clear H end; contradiction].
    split; [intros H; injection H as <-; auto|intros [_ ->]; reflexivity].
Qed.

Lemma run_envelope fs : forall m, run step_envelope fs ([], []) = Some m <->
  Forall is_text (blocks 1 fs) /\ m = (the_block 1 fs, the_block 2 fs).
Proof.
  induction fs as [|[n v] fs IH] using rev_ind; intros m.
  - cbn. split; [intros H; injection H as <-; split; [constructor|reflexivity]|intros [_ ->]; reflexivity].
  - rewrite run_app. cbn [run]. snoc_fields. rewrite !blocks_snoc.
    destruct (run step_envelope fs ([], [])) as [a0|] eqn:E.
    2:{ split; [discriminate|]. intros [H ->]. exfalso. enough (None = Some (the_block 1 fs, the_block 2 fs)) by discriminate.
        apply IH. split; [|reflexivity]. destruct (n =? 1); [destruct v|]; auto. apply Forall_app in H. apply H. }
    destruct (proj1 (IH a0) eq_refl) as [H0 ->]. unfold step_envelope. by_number; cbn [N.eqb Pos.eqb].
    + destruct v; cbn [st_text st_block]; try (split; [intros H; injection H as <-; auto|intros [_ ->]; reflexivity]).
      destruct (utf8_valid b) eqn:Eb.
      * split; [intros H; injection H as <-|intros [_ ->]; reflexivity]. split; [|reflexivity].
        apply Forall_app. split; [exact H0|]. constructor; [apply valid_text; exact Eb|constructor].
      * split; [discriminate|]. intros [H _]. apply Forall_app in H as [_ H]. inversion H; subst. destruct (valid_text' _ Eb). assumption.
    + destruct v; cbn [st_block]; (split; [intros H; injection H as <-; auto|intros [_ ->]; reflexivity]).
    + split; [intros H; injection H as <-; auto|intros [_ ->]; reflexivity].
Qed.

Definition md0 : bytes * bytes * bytes := ([], [], []).
Fixpoint merge (bs : list bytes) (cur : option (bytes * bytes * bytes)) : option (option (bytes * bytes * bytes)) :=
  match bs with
  | [] => Some cur
  | b :: r => match decode fld_metadata (match cur with Some x => x | None => md0 end) b with Some x => merge r (Some x) | None => None end
  end.
Lemma merge_snoc bs b : forall cur, merge (bs ++ [b]) cur =
  match merge bs cur with
  | Some c => match decode fld_metadata (match c with Some x => x | None => md0 end) b with Some x => Some (Some x) | None => None end
  | None => None
  end.
Proof. induction bs as [|c bs IH]; intros cur; cbn [app merge]; [reflexivity|]. destruct (decode fld_metadata _ c); auto. Qed.
Lemma merge_iff bs : Forall (Forall byte) bs -> forall cur md,
  merge bs cur = Some md <->
  exists gs, Forall2 (fun b g => record_bytes g b) bs gs /\
    match gs with [] => md = cur | _ => exists x, run step_metadata (concat gs) (match cur with Some x => x | None => md0 end) = Some x /\ md = Some x end.
Proof.
  induction 1 as [|b bs Hb Hbs IH]; intros cur md; cbn [merge].
  - split; [intros H; injection H as <-; exists []; split; [constructor|reflexivity]|]. intros (gs & H & H2). destruct gs; [rewrite H2; reflexivity|inversion H].
  - set (c0 := match cur with Some x => x | None => md0 end). split.
    + destruct (decode fld_metadata c0 b) as [x|] eqn:E; [|discriminate]. intros H.
      apply (decode_iff _ _ _ _ _ impl_metadata reads_metadata Hb) in E as (g & Hg & E).
      apply IH in H as (gs & Hgs & H). exists (g :: gs). split; [constructor; assumption|]. cbn [concat].
      destruct gs as [|g2 gs].
      * exists x. cbn [concat]. rewrite app_nil_r. auto.
      * destruct H as (y & H & ->). exists y. split; [|reflexivity]. rewrite run_app, E. exact H.
    + intros (gs & Hgs & H). inversion Hgs as [|? g ? gs' Hg Hgs']; subst. destruct H as (y & H & ->). cbn [concat] in H. rewrite run_app in H.
      destruct (run step_metadata g c0) as [x|] eqn:E; [|discriminate].
      rewrite (proj2 (decode_iff _ _ c0 b x impl_metadata reads_metadata Hb) (ex_intro _ g (conj Hg E))).
      apply IH. exists gs'. split; [exact Hgs'|]. destruct gs' as [|g2 gs']; [cbn in H; injection H as <-; reflexivity|]. exists y. auto.
Qed.

Lemma run_song fs : forall m, run step_message fs (NewSongInfo 0 [] 0 [] None) = Some m <->
  exists ly md, m = NewSongInfo (Z.of_N (the_int 1 fs)) (the_block 2 fs) (i64 (the_int 3 fs)) ly md /\
    Forall is_text (blocks 2 fs) /\
    Forall2 (fun b l => decode fld_line [] b = Some l) (blocks 4 fs) ly /\ merge (blocks 5 fs) None = Some md.
Proof.
  induction fs as [|[n v] fs IH] using rev_ind; intros m.
  - cbn. split.
    + intros H; injection H as <-. exists [], None. repeat split; constructor.
    + intros (ly & md & -> & _ & H & H2). inversion H. injection H2 as <-. reflexivity.
  - rewrite run_app. cbn [run]. snoc_fields. rewrite !blocks_snoc.
    destruct (run step_message fs _) as [m0|] eqn:E.
    2:{ split; [discriminate|]. intros (ly & md & -> & H1 & H2 & H3). exfalso.
        assert (exists ly, Forall2 (fun b l => decode fld_line [] b = Some l) (blocks 4 fs) ly) as (ly1 & A1).
        { destruct (n =? 4); [destruct v|]; eauto. apply Forall2_snoc in H2 as (l0 & y & _ & H & _). eauto. }
        assert (exists md, merge (blocks 5 fs) None = Some md) as (md1 & A2).
        { destruct (n =? 5); [destruct v|]; eauto. rewrite merge_snoc in H3. destruct (merge (blocks 5 fs) None); [eauto|discriminate]. }
        assert (A3 : Forall is_text (blocks 2 fs)).
        { destruct (n =? 2); [destruct v|]; auto. apply Forall_app in H1. apply H1. }
        pose proof (proj2 (IH _) (ex_intro _ ly1 (ex_intro _ md1 (conj eq_refl (conj A3 (conj A1 A2)))))). discriminate. }
    destruct (proj1 (IH m0) eq_refl) as (ly & md & -> & A1 & A2 & A3). cbn [step_message].
    assert (U : forall ly', Forall2 (fun b l => decode fld_line [] b = Some l) (blocks 4 fs) ly' -> ly' = ly).
    { intros ly' H. pose proof (proj2 (IH _) (ex_intro _ ly' (ex_intro _ md (conj eq_refl (conj A1 (conj H A3)))))). congruence. }
    by_number; cbn [N.eqb Pos.eqb].
    + destruct v; cbn [st_int]; (split; [intros H; injection H as <-; eauto 8|
        intros (ly' & md' & -> & B1 & B2 & B3); rewrite (U _ B2); rewrite A3 in B3; injection B3 as <-; reflexivity]).
    + destruct v; cbn [st_text st_block]; try (split; [intros H; injection H as <-; eauto 8|
        intros (ly' & md' & -> & B1 & B2 & B3); rewrite (U _ B2); rewrite A3 in B3; injection B3 as <-; reflexivity]).
      destruct (utf8_valid b) eqn:Eb.
      * split; [intros H; injection H as <-|intros (ly' & md' & -> & B1 & B2 & B3); rewrite (U _ B2); rewrite A3 in B3; injection B3 as <-; reflexivity].
        exists ly, md. repeat split; auto. apply Forall_app. split; [exact A1|]. constructor; [apply valid_text; exact Eb|constructor].
      * split; [discriminate|]. intros (ly' & md' & -> & B1 & B2 & B3). apply Forall_app in B1 as [_ H]. inversion H; subst. destruct (valid_text' _ Eb). assumption.
    + destruct v; cbn [st_int]; (split; [intros H; injection H as <-; eauto 8|
        intros (ly' & md' & -> & B1 & B2 & B3); rewrite (U _ B2); rewrite A3 in B3; injection B3 as <-; reflexivity]).
    + destruct v; cbn [st_block]; try (split; [intros H; injection H as <-; eauto 8|
        intros (ly' & md' & -> & B1 & B2 & B3); rewrite (U _ B2); rewrite A3 in B3; injection B3 as <-; reflexivity]).
      destruct (decode fld_line [] b) as [l|] eqn:El.
      * split.
        -- intros H; injection H as <-. exists (ly ++ [l]), md. repeat split; auto. apply Forall2_snoc. eauto 6.
        -- intros (ly' & md' & -> & B1 & B2 & B3). apply Forall2_snoc in B2 as (l0 & y & -> & B2 & B4).
           rewrite (U _ B2). rewrite A3 in B3; injection B3 as <-. rewrite El in B4. injection B4 as <-. reflexivity.
      * split; [discriminate|]. intros (ly' & md' & -> & B1 & B2 & B3). apply Forall2_snoc in B2 as (l0 & y & -> & B2 & B4). congruence.
    + destruct v; cbn [st_block]; try (split; [intros H; injection H as <-; eauto 8|
        intros (ly' & md' & -> & B1 & B2 & B3); rewrite (U _ B2); rewrite A3 in B3; injection B3 as <-; reflexivity]).
      rewrite merge_snoc, A3. fold md0. destruct (decode fld_metadata (match md with Some x => x | None => md0 end) b) as [x|] eqn:Ex.
      * split.
        -- intros H; injection H as <-. exists ly, (Some x). repeat split; auto.
        -- intros (ly' & md' & -> & B1 & B2 & B3). rewrite (U _ B2). injection B3 as <-. reflexivity.
      * split; [discriminate|]. intros (ly' & md' & -> & B1 & B2 & B3). discriminate.
    + split; [intros H; injection H as <-; eauto 8|
        intros (ly' & md' & -> & B1 & B2 & B3); rewrite (U _ B2); rewrite A3 in B3; injection B3 as <-; reflexivity].
Qed.
