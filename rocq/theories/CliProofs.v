(** Proofs for C107: command lines. *)
From Verif Require Import GoBase GoBaseFacts GoFmt PlaylistModel PcmModel GoFloat NumberSpec FloatTextSpec FloatTextModel CliModel CliSpec CliNumProofs CliDurationProofs.
Local Open Scope Z_scope.
Local Open Scope bool_scope.

Lemma text_dec (a b : text) : {a = b} + {a <> b}.
Proof. destruct (text_eqb a b) eqn:E; [left; now apply text_eqb_eq|right; now apply text_eqb_neq]. Qed.

(* ------------------------------------------------------------------ *)
(** ** Values *)

Lemma takes_spec k t v : set_value k t = Some v <-> takes k t v.
Proof.
  assert (B : forall b, parse_bool t = Some b -> takes KBool t (VBool b)).
  { intros b. unfold parse_bool. destruct (existsb _ _) eqn:E1.
    - intros [= <-]. apply takes_yes. apply existsb_exists in E1 as (x & I & X). apply text_eqb_eq in X as ->. exact I.
    - destruct (existsb (text_eqb t) [T "0"; _; _; _; _; _]) eqn:E2; [|discriminate]. intros [= <-]. apply takes_no.
      apply existsb_exists in E2 as (x & I & X). apply text_eqb_eq in X as ->. exact I. }
  destruct k; cbn [set_value].
  - split; [intros [= <-]; constructor|]. now inversion 1.
  - split.
    + destruct (parse_int64 t) as [z|] eqn:E; [|discriminate]. intros [= <-]. constructor. now apply integer_spec.
    + inversion 1; subst. apply integer_spec in H0. now rewrite H0.
  - split.
    + destruct (parse_uint64 t) as [z|] eqn:E; [|discriminate]. intros [= <-]. constructor. now apply natural_spec.
    + inversion 1; subst. apply natural_spec in H0. now rewrite H0.
  - split.
    + destruct (parse_duration t) as [z|] eqn:E; [|discriminate]. intros [= <-]. now constructor.
    + inversion 1; subst. now rewrite H0.
  - split.
    + destruct (parse_bool t) as [b|] eqn:E; [|discriminate]. intros [= <-]. now apply B.
    + inversion 1; subst.
      * destruct H0 as [<-|[<-|[<-|[<-|[<-|[<-|[]]]]]]]; reflexivity.
      * destruct H0 as [<-|[<-|[<-|[<-|[<-|[<-|[]]]]]]]; reflexivity.
Qed.

Definition valid (k : kind) (v : value) : Prop :=
  match k, v with
  | KString, VText _ | KBool, VBool _ => True
  | KInt, VNumber z => - 2 ^ 63 <= z < 2 ^ 63
  | KUint, VNumber z => 0 <= z < 2 ^ 64
  | KDuration, VNumber z => - 2 ^ 63 < z < 2 ^ 63
  | _, _ => False
  end.
Lemma duration_range t z : parse_duration t = Some z -> - 2 ^ 63 < z < 2 ^ 63.
Proof.
  intros H. unfold parse_duration in H. destruct (strip_sign t) as [neg s]. destruct (text_eqb s (T "0")); [injection H as <-; lia|].
  destruct s as [|c s]; [discriminate|]. destruct (duration_loop _ _ 0) as [d|] eqn:D; [|discriminate]. injection H as <-.
  assert (G : forall fuel s d0 d, 0 <= d0 < 2 ^ 63 -> duration_loop fuel s d0 = Some d -> 0 <= d < 2 ^ 63).
  { clear. induction fuel as [|fuel IH]; intros s d0 d H0 H.
    - destruct s; [injection H as <-; exact H0|discriminate].
    - destruct s as [|c s]; [injection H as <-; exact H0|]. rewrite loop_step in H by discriminate. destruct (duration_part _) as [[v r]|]; [|discriminate].
      cbn zeta in H. destruct (Z.ltb_spec (wrap64 (d0 + v)) 0) as [L|L]; [discriminate|]. apply (IH r _ d) in H; [exact H|].
      split; [exact L|]. unfold wrap64 in *. pose proof (Z.mod_pos_bound (d0 + v + 2 ^ 63) (2 ^ 64) ltac:(lia)). lia. }
  apply G in D; [|lia]. destruct neg; lia.
Qed.
Lemma set_valid k t v : set_value k t = Some v -> valid k v.
Proof.
  destruct k; cbn [set_value].
  - intros [= <-]. exact I.
  - destruct (parse_int64 t) as [z|] eqn:E; [|discriminate]. intros [= <-]. apply integer_spec in E as (? & ? & ? & ? & _ & _ & _ & _ & R). exact R.
  - destruct (parse_uint64 t) as [z|] eqn:E; [|discriminate]. intros [= <-]. apply natural_spec in E as [M L]. apply magnitude_nonneg in M. cbn. lia.
  - destruct (parse_duration t) as [z|] eqn:E; [|discriminate]. intros [= <-]. exact (duration_range t z E).
  - destruct (parse_bool t); [|discriminate]. intros [= <-]. exact I.
Qed.
Lemma round_trip k v : valid k v -> set_value k (value_string k v) = Some v.
Proof.
  destruct k, v as [t|z|b]; cbn [valid set_value value_string]; try contradiction; intros H.
  - reflexivity.
  - now rewrite int_round_trip.
  - now rewrite uint_round_trip.
  - now rewrite duration_round_trip.
  - now destruct b.
Qed.

(* ------------------------------------------------------------------ *)
(** ** Flag sets *)

Lemma lookup_store fs n v m : lookup (store fs n v) m = if text_eqb n m then match lookup fs n with Some (k, _) => Some (k, v) | None => None end else lookup fs m.
Proof.
  induction fs as [|[a [k w]] fs IH]; cbn [store lookup]; [now destruct (text_eqb n m)|].
  destruct (text_eqb a n) eqn:E; cbn [lookup].
  - apply text_eqb_eq in E as ->. destruct (text_eqb n m); reflexivity.
  - rewrite IH. destruct (text_eqb a m) eqn:E2; [|reflexivity]. destruct (text_eqb n m) eqn:E3; [|reflexivity].
    apply text_eqb_eq in E2, E3. apply text_eqb_neq in E. congruence.
Qed.
Definition shape (o : list option_) (fs : flag_set) : Prop := forall n k, named o n k <-> exists v, lookup fs n = Some (k, v).
Definition all_valid (fs : flag_set) : Prop := forall n k v, lookup fs n = Some (k, v) -> valid k v.
Lemma store_shape o fs n v : shape o fs -> shape o (store fs n v).
Proof.
  intros H m k. rewrite (H m k). rewrite lookup_store. destruct (text_eqb n m) eqn:E; [|reflexivity]. apply text_eqb_eq in E as ->.
  destruct (lookup fs m) as [[k' v']|]; [|reflexivity]. split; intros [w [= -> _]]; eauto.
Qed.
Lemma store_valid fs n v : all_valid fs -> (forall k w, lookup fs n = Some (k, w) -> valid k v) -> all_valid (store fs n v).
Proof.
  intros H Hv m k w. rewrite lookup_store. destruct (text_eqb n m); [|apply H]. destruct (lookup fs n) as [[k' v']|] eqn:E; [|discriminate].
  intros [= <- <-]. exact (Hv k' v' eq_refl).
Qed.

Definition table (o : list option_) : flag_set := flat_map (fun x => map (fun n => (n, (o_kind x, o_default x))) (o_forms x)) o.
Definition names (o : list option_) : list text := flat_map o_forms o.
Lemma lookup_app a b n : lookup (a ++ b) n = match lookup a n with Some e => Some e | None => lookup b n end.
Proof. induction a as [|[m e] a IH]; [reflexivity|]. cbn [app lookup]. destruct (text_eqb m n); [reflexivity|exact IH]. Qed.
Lemma lookup_forms l e n : lookup (map (fun m => (m, e)) l) n = if existsb (text_eqb n) l then Some e else None.
Proof.
  induction l as [|m l IH]; [reflexivity|]. cbn [map lookup existsb]. rewrite IH.
  destruct (text_eqb m n) eqn:E.
  - apply text_eqb_eq in E as ->. now rewrite text_eqb_refl.
  - destruct (text_eqb n m) eqn:E2; [|reflexivity]. apply text_eqb_eq in E2. apply text_eqb_neq in E. congruence.
Qed.
Lemma existsb_in n l : existsb (text_eqb n) l = true <-> In n l.
Proof.
  rewrite existsb_exists. split; [intros (x & I & E); apply text_eqb_eq in E as ->; exact I|]. intros I. exists n. split; [exact I|apply text_eqb_refl].
Qed.
Lemma lookup_table o n k v : NoDup (names o) -> lookup (table o) n = Some (k, v) <-> exists x, In x o /\ In n (o_forms x) /\ o_kind x = k /\ o_default x = v.
Proof.
  induction o as [|x o IH]; intros ND; cbn [table flat_map].
  - split; [discriminate|]. now intros (x & [] & _).
  - fold (table o). cbn [names flat_map] in ND. fold (names o) in ND. rewrite lookup_app, lookup_forms.
    assert (Ndo : NoDup (names o)) by (clear - ND; induction (o_forms x); [exact ND|]; inversion ND; auto).
    assert (Dis : In n (o_forms x) -> ~ In n (names o)).
    { clear - ND. induction (o_forms x) as [|m l IH]; [intros []|]. cbn [app] in ND. inversion ND as [|? ? Nm ND']; subst. intros [->|I]; [|now apply IH].
      intros I2. apply Nm. apply in_or_app. now right. }
    destruct (existsb (text_eqb n) (o_forms x)) eqn:E.
    + apply existsb_in in E. split.
      * intros [= <- <-]. exists x. repeat split; auto. now left.
      * intros (y & [<-|I] & J & K & V); [now rewrite K, V|]. exfalso. apply (Dis E). apply in_flat_map. eauto.
    + rewrite (IH Ndo). split; intros (y & I & J & KV); [exists y; repeat split; try apply KV; auto; now right|].
      destruct I as [<-|I]; [apply existsb_in in J; congruence|]. exists y. auto.
Qed.
Lemma table_shape o : NoDup (names o) -> shape o (table o).
Proof.
  intros ND n k. split.
  - intros (x & I & J & K). exists (o_default x). apply lookup_table; [exact ND|]. exists x. auto.
  - intros (v & H). apply lookup_table in H; [|exact ND]. destruct H as (x & I & J & K & _). exists x. auto.
Qed.

(* ------------------------------------------------------------------ *)
(** ** Parsing *)

Definition name_ok (n : text) : Prop := match n with [] => False | c :: r => c <> 45%N /\ c <> 61%N /\ ~ In 61%N r end.
Definition stores (fs : flag_set) (l : list (text * value)) : flag_set := fold_left (fun fs p => store fs (fst p) (snd p)) l fs.

Lemma split_equals_app n t : ~ In 61%N n -> split_equals (n ++ 61%N :: t) = (n, Some t).
Proof.
  induction n as [|c n IH]; intros H; [reflexivity|]. cbn [app split_equals]. destruct (N.eqb_spec c 61) as [->|_]; [exfalso; apply H; now left|].
  rewrite IH; [reflexivity|]. intros I. apply H. now right.
Qed.
Lemma split_equals_none n : ~ In 61%N n -> split_equals n = (n, None).
Proof.
  induction n as [|c n IH]; intros H; [reflexivity|]. cbn [split_equals]. destruct (N.eqb_spec c 61) as [->|_]; [exfalso; apply H; now left|].
  rewrite IH; [reflexivity|]. intros I. apply H. now right.
Qed.
Lemma split_equals_inv s : forall n v, split_equals s = (n, v) -> s = match v with Some t => n ++ 61%N :: t | None => n end.
Proof.
  induction s as [|c s IH]; intros n v H; cbn [split_equals] in H; [injection H as <- <-; reflexivity|].
  destruct (N.eqb_spec c 61) as [->|_]; [injection H as <- <-; reflexivity|]. destruct (split_equals s) as [n' v'] eqn:E. injection H as <- <-.
  rewrite (IH _ _ eq_refl) at 1. now destruct v'.
Qed.
Lemma name_value_inv s n v : s <> [] -> name_value s = (n, v) -> s = match v with Some t => n ++ 61%N :: t | None => n end /\ n <> [].
Proof.
  destruct s as [|c s]; [contradiction|]. intros _. cbn [name_value]. destruct (split_equals s) as [n' v'] eqn:E. intros [= <- <-].
  split; [|discriminate]. rewrite (split_equals_inv _ _ _ E) at 1. now destruct v'.
Qed.

(** one step of the parser, for an argument that gives an option *)
Definition parse_option (n : text) (v : option text) (rest : list text) (fs : flag_set) (actual : list text) :=
  match lookup fs n with
  | None => (false, fs, actual, rest)
  | Some (k, _) =>
      match k with
      | KBool =>
          match set_value KBool (match v with Some t => t | None => T "true" end) with
          | Some x => parse rest (store fs n x) (n :: actual)
          | None => (false, fs, actual, rest)
          end
      | _ =>
          match v with
          | Some t =>
              match set_value k t with
              | Some x => parse rest (store fs n x) (n :: actual)
              | None => (false, fs, actual, rest)
              end
          | None =>
              match rest with
              | [] => (false, fs, actual, rest)
              | t :: rest' =>
                  match set_value k t with
                  | Some x => parse rest' (store fs n x) (n :: actual)
                  | None => (false, fs, actual, rest')
                  end
              end
          end
      end
  end.
Lemma parse_dashed d name rest fs actual : dashes d -> match name with [] => False | c :: _ => c <> 45%N /\ c <> 61%N end ->
  parse ((d ++ name) :: rest) fs actual = let '(n, v) := name_value name in parse_option n v rest fs actual.
Proof.
  intros D H. destruct name as [|c r]; [contradiction|]. destruct H as [H1 H2].
  apply N.eqb_neq in H1, H2.
  assert (Fin : forall nv, (let '(n, v) := nv in parse_option n v rest fs actual) = let '(n, v) := nv in
     match lookup fs n with
     | None => (false, fs, actual, rest)
     | Some (k, _) => match k with
         | KBool => match set_value KBool (match v with Some t => t | None => T "true" end) with
             | Some x => parse rest (store fs n x) (n :: actual) | None => (false, fs, actual, rest) end
         | _ => match v with
             | Some t => match set_value k t with Some x => parse rest (store fs n x) (n :: actual) | None => (false, fs, actual, rest) end
             | None => match rest with [] => (false, fs, actual, rest) | t :: rest' =>
                 match set_value k t with Some x => parse rest' (store fs n x) (n :: actual) | None => (false, fs, actual, rest') end end
             end end end) by reflexivity.
  rewrite Fin. clear Fin.
  destruct D as [->| ->]; [change (T "-" ++ c :: r) with (45%N :: c :: r)|change (T "--" ++ c :: r) with (45%N :: 45%N :: c :: r)]; cbn [parse];
    change ((45 =? 45)%N) with true; cbn zeta; cbn [negb andb]; rewrite ?H1, ?H2; cbn [andb orb]; rewrite ?H1, ?H2; cbn [andb orb]; reflexivity.
Qed.

Section Parse.
  Context (o : list option_) (OK : Forall name_ok (names o)).

  Lemma named_ok n k : named o n k -> name_ok n.
  Proof. intros (x & I & J & _). rewrite Forall_forall in OK. apply OK. apply in_flat_map. eauto. Qed.
  Lemma name_first n : name_ok n -> forall r, match n ++ r with [] => False | c :: _ => c <> 45%N /\ c <> 61%N end.
  Proof. destruct n as [|c n]; [contradiction|]. cbn. intros (A & B & _) r. auto. Qed.
  Lemma name_value_eq n t : name_ok n -> name_value (n ++ 61%N :: t) = (n, Some t).
  Proof. destruct n as [|c n]; [contradiction|]. cbn. intros (_ & _ & H). now rewrite split_equals_app. Qed.
  Lemma name_value_plain n : name_ok n -> name_value n = (n, None).
  Proof. destruct n as [|c n]; [contradiction|]. cbn. intros (_ & _ & H). now rewrite split_equals_none. Qed.

  Lemma parse_complete args l extra : command_line o args l extra -> forall fs actual, shape o fs ->
    parse args fs actual = (true, stores fs l, rev (map fst l) ++ actual, extra).
  Proof.
    induction 1 as [|extra|a r P|d name k t v r l extra D Nm Tk _ IH|d name k t v r l extra D Nm Nb Tk _ IH|d name r l extra D Nm _ IH]; intros fs actual S.
    - reflexivity.
    - reflexivity.
    - cbn [parse]. destruct a as [|c [|c2 a]]; try reflexivity. destruct P as [P|[P|P]]; try discriminate. cbn in P.
      destruct (N.eqb_spec c 45) as [->|_]; [contradiction|]. reflexivity.
    - pose proof (named_ok _ _ Nm) as No. change (T "=") with [61%N]. cbn [app].
      rewrite parse_dashed; [|exact D|now apply name_first]. rewrite name_value_eq by exact No. unfold parse_option.
      pose proof Nm as Nm'. apply S in Nm' as (w & L). rewrite L. apply takes_spec in Tk.
      assert (E : parse r (store fs name v) (name :: actual) = (true, stores fs ((name, v) :: l), rev (map fst ((name, v) :: l)) ++ actual, extra)).
      { rewrite IH by (now apply store_shape). cbn [map fst rev stores fold_left]. now rewrite <- app_assoc. }
      destruct k; rewrite Tk; exact E.
    - pose proof (named_ok _ _ Nm) as No. 
      rewrite parse_dashed; [|exact D|rewrite <- (app_nil_r name); now apply name_first]. rewrite name_value_plain by exact No. unfold parse_option.
      pose proof Nm as Nm'. apply S in Nm' as (w & L). rewrite L. apply takes_spec in Tk.
      assert (E : parse r (store fs name v) (name :: actual) = (true, stores fs ((name, v) :: l), rev (map fst ((name, v) :: l)) ++ actual, extra)).
      { rewrite IH by (now apply store_shape). cbn [map fst rev stores fold_left]. now rewrite <- app_assoc. }
      destruct k; try (rewrite Tk; exact E). contradiction.
    - pose proof (named_ok _ _ Nm) as No. 
      rewrite parse_dashed; [|exact D|rewrite <- (app_nil_r name); now apply name_first]. rewrite name_value_plain by exact No. unfold parse_option.
      pose proof Nm as Nm'. apply S in Nm' as (w & L). rewrite L. cbn [set_value]. change (parse_bool (T "true")) with (Some true). cbn [option_map].
      rewrite IH by (now apply store_shape). cbn [map fst rev stores fold_left]. now rewrite <- app_assoc.
  Qed.

  Lemma parse_sound_aux : forall m args, (length args <= m)%nat -> forall fs actual fs' actual' rest, shape o fs ->
    parse args fs actual = (true, fs', actual', rest) -> exists l, command_line o args l rest.
  Proof.
    induction m as [|m IH]; intros args Lm fs actual fs' actual' rest S H.
    - destruct args; [|cbn in Lm; lia]. injection H as _ _ <-. exists []. constructor.
    - destruct args as [|a r]; [injection H as _ _ <-; exists []; constructor|]. cbn [length] in Lm.
      assert (Plain : plain_argument a -> exists l, command_line o (a :: r) l rest).
      { intros P. rewrite (parse_complete (a :: r) [] (a :: r)) in H; [|now constructor|exact S]. injection H as _ _ <-. exists []. now constructor. }
      destruct a as [|c [|c2 a]]; [apply Plain; now left| |].
      + apply Plain. destruct (N.eq_dec c 45) as [->|Nc]; [right; now left|right; now right].
      + destruct (N.eq_dec c 45) as [->|Nc]; [|apply Plain; right; right; exact Nc]. clear Plain.
        assert (Opt : forall d name, dashes d -> match name with [] => False | c :: _ => c <> 45%N /\ c <> 61%N end -> 45%N :: c2 :: a = d ++ name -> exists l, command_line o ((45%N :: c2 :: a) :: r) l rest).
        { intros d name D Nm E. rewrite E in *. rewrite parse_dashed in H by assumption. destruct (name_value name) as [n v] eqn:NV.
          apply name_value_inv in NV as [En Nn]; [|now destruct name]. unfold parse_option in H. destruct (lookup fs n) as [[k w]|] eqn:L; [|discriminate].
          assert (Nk : named o n k) by (apply S; eauto).
          assert (Go : forall t x r', (length r' <= m)%nat -> set_value k t = Some x -> parse r' (store fs n x) (n :: actual) = (true, fs', actual', rest) ->
            takes k t x /\ exists l, command_line o r' l rest).
          { intros t x r' Lr Sx P. split; [now apply takes_spec|]. apply (IH r' Lr _ _ _ _ _ (store_shape o fs n x S) P). }
          destruct v as [t|].
          - rewrite En in *. assert (H' : match set_value k t with Some x => parse r (store fs n x) (n :: actual) | None => (false, fs, actual, r) end = (true, fs', actual', rest)) by (destruct k; exact H).
            destruct (set_value k t) as [x|] eqn:Sx; [|discriminate]. destruct (Go t x r ltac:(lia) Sx H') as [Tk (l & C)].
            exists ((n, x) :: l). apply (line_joined o d n k t x r l rest); assumption.
          - subst name. destruct (match k with KBool => true | _ => false end) eqn:Kb.
            + destruct k; try discriminate. cbn [set_value] in H. change (parse_bool (T "true")) with (Some true) in H. cbn [option_map] in H.
              destruct (IH r ltac:(lia) _ _ _ _ _ (store_shape o fs n (VBool true) S) H) as (l & C). exists ((n, VBool true) :: l). now apply line_switch.
            + assert (Kn : k <> KBool) by (intros ->; discriminate). destruct r as [|t r]; [destruct k; discriminate|].
              assert (H' : match set_value k t with Some x => parse r (store fs n x) (n :: actual) | None => (false, fs, actual, r) end = (true, fs', actual', rest)) by (destruct k; try exact H; contradiction).
              destruct (set_value k t) as [x|] eqn:Sx; [|discriminate]. cbn [length] in Lm. destruct (Go t x r ltac:(lia) Sx H') as [Tk (l & C)].
              exists ((n, x) :: l). apply (line_next o d n k t x r l rest); assumption. }
        destruct (N.eq_dec c2 45) as [->|N2].
        * destruct a as [|c3 a].
          -- injection H as _ _ <-. exists []. apply line_stop.
          -- cbn [parse] in H. change ((45 =? 45)%N) with true in H. cbn [negb andb] in H.
             destruct (N.eqb_spec c3 45) as [|N3]; [discriminate|]. destruct (N.eqb_spec c3 61) as [|N3']; [discriminate|].
             apply (Opt (T "--") (c3 :: a)); [now right|auto|reflexivity].
        * destruct (N.eq_dec c2 61) as [->|N2'].
          -- cbn [parse] in H. change ((45 =? 45)%N) with true in H. change ((61 =? 45)%N) with false in H. cbn [negb andb orb] in H. change ((61 =? 61)%N) with true in H. discriminate.
          -- apply (Opt (T "-") (c2 :: a)); [now left|auto|reflexivity].
  Qed.
  Lemma parse_sound args fs actual fs' actual' rest : shape o fs -> parse args fs actual = (true, fs', actual', rest) ->
    exists l, command_line o args l rest /\ fs' = stores fs l /\ actual' = rev (map fst l) ++ actual.
  Proof.
    intros S H. destruct (parse_sound_aux _ args (le_n _) _ _ _ _ _ S H) as (l & C). exists l. split; [exact C|].
    rewrite (parse_complete _ _ _ C fs actual S) in H. injection H as <- <-. auto.
  Qed.

  Lemma command_line_valid args l extra : command_line o args l extra -> forall n v, In (n, v) l -> exists k, named o n k /\ valid k v.
  Proof.
    induction 1 as [|extra|a r P|d name k t v r l extra D Nm Tk _ IH|d name k t v r l extra D Nm Nb Tk _ IH|d name r l extra D Nm _ IH]; intros n w I; try contradiction.
    - destruct I as [[= <- <-]|I]; [|now apply IH]. exists k. split; [exact Nm|]. apply takes_spec in Tk. exact (set_valid _ _ _ Tk).
    - destruct I as [[= <- <-]|I]; [|now apply IH]. exists k. split; [exact Nm|]. apply takes_spec in Tk. exact (set_valid _ _ _ Tk).
    - destruct I as [[= <- <-]|I]; [|now apply IH]. exists KBool. split; [exact Nm|exact Logic.I].
  Qed.
End Parse.
