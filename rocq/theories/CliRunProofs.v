(** Proofs for C107: the values of the options, and what the programs do. *)
From Verif Require Import GoBase GoBaseFacts GoFmt PlaylistModel PcmModel GoFloat NumberSpec FloatTextSpec FloatTextModel LoggingModel CliModel CliSpec CliNumProofs CliDurationProofs CliProofs.
Local Open Scope Z_scope.
Local Open Scope bool_scope.

(* ------------------------------------------------------------------ *)
(** ** The last value given *)

Definition last_given (l : list (text * value)) (forms : list text) : option value :=
  option_map snd (find (fun p => existsb (text_eqb (fst p)) forms) (rev l)).
Lemma last_given_spec l forms : match last_given l forms with
  | Some v => exists a n b, l = a ++ (n, v) :: b /\ In n forms /\ forall n', In n' forms -> ~ In n' (map fst b)
  | None => forall n', In n' forms -> ~ In n' (map fst l) end.
Proof.
  unfold last_given. induction l as [|[n v] l IH] using rev_ind; [cbn; auto|]. rewrite rev_app_distr. cbn [rev app find fst].
  destruct (existsb (text_eqb n) forms) eqn:E; cbn [option_map snd].
  - apply existsb_in in E. exists l, n, []. repeat split; auto.
  - destruct (find _ (rev l)) as [[m w]|]; cbn [option_map snd] in *.
    + destruct IH as (a & n0 & b & -> & I & H). exists a, n0, (b ++ [(n, v)]). split; [now rewrite <- app_assoc|]. split; [exact I|].
      intros n' J K. rewrite map_app in K. apply in_app_or in K as [K|[<-|[]]]; [now apply (H n')|]. cbn in J. apply existsb_in in J. congruence.
    + intros n' J K. rewrite map_app in K. apply in_app_or in K as [K|[<-|[]]]; [now apply (IH n')|]. cbn in J. apply existsb_in in J. congruence.
Qed.
Lemma option_value_spec l x v : option_value l x v <-> v = match last_given l (o_forms x) with Some w => w | None => o_default x end.
Proof.
  pose proof (last_given_spec l (o_forms x)) as H. unfold option_value. destruct (last_given l (o_forms x)) as [w|].
  - split; [|intros ->; now left]. intros [(a & n & b & E & I & N)|[N _]].
    + destruct H as (a' & n' & b' & E' & I' & N'). rewrite E in E'. clear E l.
      assert (G : forall a a' : list (text * value), a ++ (n, v) :: b = a' ++ (n', w) :: b' -> v = w).
      { induction a0 as [|p a0 IH]; intros [|p' a1]; cbn [app].
        - now intros [= _ -> _].
        - intros [= <- E]. exfalso. apply (N n' I'). rewrite E, map_app. apply in_or_app. right. now left.
        - intros [= -> E]. exfalso. apply (N' n I). rewrite <- E, map_app. apply in_or_app. right. now left.
        - intros [= _ E]. now apply (IH a1). }
      exact (G a a' E').
    + exfalso. destruct H as (a' & n' & b' & -> & I' & _). apply (N n' I'). rewrite map_app. apply in_or_app. right. now left.
  - split; [|intros ->; right; auto]. intros [(a & n & b & -> & I & _)|[_ ->]]; [|reflexivity].
    exfalso. apply (H n I). rewrite map_app. apply in_or_app. right. now left.
Qed.

Lemma stores_app fs a b : stores fs (a ++ b) = stores (stores fs a) b. Proof. apply fold_left_app. Qed.
Lemma stores_shape o l : forall fs, shape o fs -> shape o (stores fs l).
Proof. induction l as [|p l IH]; intros fs S; [exact S|]. cbn [stores fold_left]. apply IH. now apply store_shape. Qed.
Lemma lookup_stores fs l n : lookup (stores fs l) n = match lookup fs n with
  | Some (k, v) => Some (k, match last_given l [n] with Some w => w | None => v end) | None => None end.
Proof.
  induction l as [|[m w] l IH] using rev_ind; [cbn; now destruct (lookup fs n) as [[k v]|]|].
  rewrite stores_app. cbn [stores fold_left fst snd]. fold (stores fs l). rewrite lookup_store. unfold last_given. rewrite rev_app_distr. cbn [rev app find fst existsb].
  rewrite orb_false_r. destruct (text_eqb m n) eqn:E.
  - apply text_eqb_eq in E as ->. rewrite IH. now destruct (lookup fs n) as [[k v]|].
  - rewrite IH. reflexivity.
Qed.

(** with one form used, the last value of that form is the last of the option *)
Lemma last_given_one l forms n : In n forms -> (forall m, In m forms -> In m (map fst l) -> m = n) -> last_given l forms = last_given l [n].
Proof.
  intros I H. unfold last_given. f_equal. assert (G : forall p, In p (rev l) -> existsb (text_eqb (fst p)) forms = existsb (text_eqb (fst p)) [n]).
  { intros [m v] J. apply in_rev in J. cbn [fst existsb]. rewrite orb_false_r. destruct (text_eqb m n) eqn:E.
    - apply text_eqb_eq in E as ->. now apply existsb_in.
    - destruct (existsb (text_eqb m) forms) eqn:X; [|reflexivity]. apply existsb_in in X. apply text_eqb_neq in E. exfalso. apply E. apply H; [exact X|].
      apply in_map_iff. exists (m, v). auto. }
  induction (rev l) as [|p r IH]; [reflexivity|]. cbn [find]. rewrite (G p (or_introl eq_refl)). destruct (existsb _ [n]); [reflexivity|]. apply IH. intros q J. apply G. now right.
Qed.
Lemma last_given_none l forms : (forall m, In m forms -> ~ In m (map fst l)) -> last_given l forms = None.
Proof.
  intros H. pose proof (last_given_spec l forms) as S. destruct (last_given l forms) as [v|]; [|reflexivity]. destruct S as (a & n & b & -> & I & _).
  exfalso. apply (H n I). rewrite map_app. apply in_or_app. right. now left.
Qed.

(* ------------------------------------------------------------------ *)
(** ** Copying to the other forms *)

Definition option_of (f : cli_flag) : option_ := {| o_forms := forms (fl_name f); o_kind := fl_kind f; o_default := fl_value f |}.
Definition is_set (actual : list text) (n : text) : bool := existsb (text_eqb n) actual.

Lemma copy_lookup fs n m k v : lookup fs n = Some (k, v) -> valid k v -> (exists w, lookup fs m = Some (k, w)) -> forall j,
  lookup (copy_flag fs n m) j = if text_eqb m j then Some (k, v) else lookup fs j.
Proof.
  intros L V (w & M) j. unfold copy_flag. rewrite L, M. rewrite round_trip by exact V. rewrite lookup_store, M. reflexivity.
Qed.
Lemma copy_all actual n k v : valid k v -> is_set actual n = true -> forall P fs, lookup fs n = Some (k, v) ->
  (forall m, In m P -> exists w, lookup fs m = Some (k, w)) -> (forall m, In m P -> is_set actual m = true -> m = n) ->
  forall j, lookup (fold_left (fun fs m => if is_set actual m then fs else copy_flag fs n m) P fs) j = if existsb (text_eqb j) P then Some (k, v) else lookup fs j.
Proof.
  intros V Sn. induction P as [|m P IH]; intros fs L K U j; [reflexivity|]. cbn [fold_left existsb].
  destruct (is_set actual m) eqn:Sm.
  - assert (m = n) as -> by (apply U; [now left|exact Sm]). rewrite IH; [|exact L|intros; apply K; now right|intros; apply U; [now right|assumption]].
    destruct (text_eqb j n) eqn:E; [|reflexivity]. apply text_eqb_eq in E as ->. cbn [orb]. rewrite L. now destruct (existsb _ _).
  - pose proof (copy_lookup fs n m k v L V (K m (or_introl eq_refl))) as C.
    assert (Nmn : text_eqb m n = false) by (apply text_eqb_neq; intros ->; congruence).
    rewrite IH.
    + rewrite C. destruct (text_eqb j m) eqn:E.
      * apply text_eqb_eq in E as ->. rewrite text_eqb_refl. cbn [orb]. now destruct (existsb _ _).
      * destruct (text_eqb m j) eqn:E2; [apply text_eqb_eq in E2; apply text_eqb_neq in E; congruence|]. reflexivity.
    + rewrite C, Nmn. exact L.
    + intros m' I. rewrite C. destruct (text_eqb m m') eqn:E; [|apply K; now right]. exists v. reflexivity.
    + intros m' I. apply U. now right.
Qed.

Definition two_forms (actual : list text) (f : cli_flag) : Prop :=
  exists n m, In n (forms (fl_name f)) /\ In m (forms (fl_name f)) /\ n <> m /\ In n actual /\ In m actual.

(** what normalize_one does *)
Lemma normalize_one_spec actual fs f : NoDup (forms (fl_name f)) -> all_valid fs -> (forall n, In n (forms (fl_name f)) -> exists w, lookup fs n = Some (fl_kind f, w)) ->
  (two_forms actual f /\ normalize_one actual fs f = None) \/
  (~ two_forms actual f /\ exists fs', normalize_one actual fs f = Some fs' /\
     (forall j, ~ In j (forms (fl_name f)) -> lookup fs' j = lookup fs j) /\
     (forall n, In n (forms (fl_name f)) -> In n actual -> forall m, In m (forms (fl_name f)) -> lookup fs' m = lookup fs n) /\
     ((forall n, In n (forms (fl_name f)) -> ~ In n actual) -> forall j, lookup fs' j = lookup fs j)).
Proof.
  intros ND AV K. unfold normalize_one. cbn zeta. set (P := forms (fl_name f)) in *. unfold two_forms. fold P. fold (is_set actual).
  assert (FI : forall n, In n (filter (is_set actual) P) <-> In n P /\ In n actual).
  { intros n. rewrite filter_In. unfold is_set. rewrite existsb_in. reflexivity. }
  assert (Two : forall a b r, filter (is_set actual) P = a :: b :: r -> exists n m, In n P /\ In m P /\ n <> m /\ In n actual /\ In m actual).
  { intros a b r E. pose proof (NoDup_filter (is_set actual) ND) as NF. rewrite E in NF, FI. inversion NF as [|? ? Na _]; subst.
    exists a, b. destruct (proj1 (FI a) ltac:(now left)). destruct (proj1 (FI b) ltac:(right; now left)). repeat split; auto. intros ->. apply Na. now left. }
  assert (NotTwo : forall n, (forall m, In m P -> In m actual -> m = n) -> ~ exists n m, In n P /\ In m P /\ n <> m /\ In n actual /\ In m actual).
  { intros n H (a & b & Ia & Ib & Nab & Aa & Ab). apply Nab. rewrite (H a Ia Aa). symmetry. now apply H. }
  assert (Main : (exists n m, In n P /\ In m P /\ n <> m /\ In n actual /\ In m actual) /\ match filter (is_set actual) P with [] => Some fs | [n] => Some (fold_left (fun fs m => if is_set actual m then fs else copy_flag fs n m) P fs) | _ => None end = None
    \/ (~ exists n m, In n P /\ In m P /\ n <> m /\ In n actual /\ In m actual) /\ exists fs',
       match filter (is_set actual) P with [] => Some fs | [n] => Some (fold_left (fun fs m => if is_set actual m then fs else copy_flag fs n m) P fs) | _ => None end = Some fs' /\
     (forall j, ~ In j P -> lookup fs' j = lookup fs j) /\
     (forall n, In n P -> In n actual -> forall m, In m P -> lookup fs' m = lookup fs n) /\
     ((forall n, In n P -> ~ In n actual) -> forall j, lookup fs' j = lookup fs j)).
  { destruct (filter (is_set actual) P) as [|n [|b r]] eqn:F.
    - right. assert (No : forall n, In n P -> ~ In n actual) by (intros n I A; apply (proj2 (FI n)); auto).
      split; [intros (a & _ & Ia & _ & _ & Aa & _); exact (No a Ia Aa)|]. exists fs. split; [reflexivity|]. split; [auto|]. split; [|auto].
      intros n I A. exfalso. exact (No n I A).
    - right. destruct (proj1 (FI n) ltac:(now left)) as [In_ An]. assert (Un : forall m, In m P -> In m actual -> m = n).
      { intros m I A. destruct (proj2 (FI m) (conj I A)) as [->|[]]. reflexivity. }
      split; [now apply (NotTwo n)|]. destruct (K n In_) as (v & L). pose proof (AV _ _ _ L) as V.
      assert (Sn : is_set actual n = true) by (unfold is_set; now apply existsb_in).
      assert (Un' : forall m, In m P -> is_set actual m = true -> m = n) by (intros m I A; apply Un; [exact I|]; unfold is_set in A; now apply existsb_in in A).
      pose proof (copy_all actual n (fl_kind f) v V Sn P fs L K Un') as C. eexists. split; [reflexivity|]. split; [|split].
      + intros j Nj. rewrite C. destruct (existsb (text_eqb j) P) eqn:E; [apply existsb_in in E; contradiction|reflexivity].
      + intros n' I' A' m Im. rewrite (Un n' I' A'), C. apply existsb_in in Im. rewrite Im. now rewrite L.
      + intros No. exfalso. exact (No n In_ An).
    - left. split; [now apply (Two n b r)|reflexivity]. }
  destruct P as [|p [|p2 P']] eqn:EP; [exact Main| |exact Main].
  right. split; [intros (a & b & [<-|[]] & [<-|[]] & Nab & _); contradiction|]. exists fs. split; [reflexivity|]. split; [auto|]. split; [|auto].
  intros n [<-|[]] _ m [<-|[]]. reflexivity.
Qed.

Lemma normalize_spec actual : forall fl fs, NoDup (flat_map (fun f => forms (fl_name f)) fl) -> all_valid fs ->
  (forall f n, In f fl -> In n (forms (fl_name f)) -> exists w, lookup fs n = Some (fl_kind f, w)) ->
  ((exists f, In f fl /\ two_forms actual f) /\ normalize actual fl fs = None) \/
  ((forall f, In f fl -> ~ two_forms actual f) /\ exists fs', normalize actual fl fs = Some fs' /\
     (forall j, ~ In j (flat_map (fun f => forms (fl_name f)) fl) -> lookup fs' j = lookup fs j) /\
     (forall f n, In f fl -> In n (forms (fl_name f)) -> In n actual -> forall m, In m (forms (fl_name f)) -> lookup fs' m = lookup fs n) /\
     (forall f, In f fl -> (forall n, In n (forms (fl_name f)) -> ~ In n actual) -> forall m, In m (forms (fl_name f)) -> lookup fs' m = lookup fs m)).
Proof.
  induction fl as [|f fl IH]; intros fs ND AV K.
  - right. split; [intros f []|]. exists fs. split; [reflexivity|]. split; [auto|]. split; [intros f n []|intros f []].
  - cbn [flat_map] in ND. cbn [normalize].
    assert (ND1 : NoDup (forms (fl_name f))) by (clear - ND; induction (forms (fl_name f)); [constructor|]; inversion ND; subst; constructor; auto; intros I; apply H1; apply in_or_app; now left).
    assert (ND2 : NoDup (flat_map (fun f => forms (fl_name f)) fl)) by (clear - ND; induction (forms (fl_name f)); [exact ND|]; inversion ND; auto).
    assert (Dis : forall n, In n (forms (fl_name f)) -> ~ In n (flat_map (fun f => forms (fl_name f)) fl)).
    { clear - ND. induction (forms (fl_name f)) as [|m l IH]; [intros n []|]. cbn [app] in ND. inversion ND as [|? ? Nm ND']; subst. intros n [->|I]; [|now apply IH].
      intros I2. apply Nm. apply in_or_app. now right. }
    assert (Dis2 : forall g n, In g fl -> In n (forms (fl_name g)) -> ~ In n (forms (fl_name f))).
    { intros g n Ig In_ If. apply (Dis n If). apply in_flat_map. eauto. }
    destruct (normalize_one_spec actual fs f ND1 AV (fun n I => K f n (or_introl eq_refl) I)) as [[Tw E]|[NT (fs1 & E & A1 & A2 & A3)]].
    { left. split; [exists f; split; [now left|exact Tw]|]. now rewrite E. }
    rewrite E.
    assert (AV1 : all_valid fs1).
    { intros n k v L. destruct (in_dec text_dec n (forms (fl_name f))) as [I|I]; [|rewrite (A1 n I) in L; exact (AV _ _ _ L)].
      destruct (existsb (is_set actual) (forms (fl_name f))) eqn:X.
      - apply existsb_exists in X as (m & Im & Sm). unfold is_set in Sm. apply existsb_in in Sm. rewrite (A2 m Im Sm n I) in L. exact (AV _ _ _ L).
      - rewrite A3 in L; [exact (AV _ _ _ L)|]. intros m Im Am. assert (existsb (is_set actual) (forms (fl_name f)) = true); [|congruence].
        apply existsb_exists. exists m. split; [exact Im|]. unfold is_set. now apply existsb_in. }
    destruct (IH fs1 ND2 AV1) as [[(g & Ig & Tw) E2]|[NT2 (fs2 & E2 & B1 & B2 & B3)]].
    { intros g n Ig In_. rewrite A1 by (now apply (Dis2 g)). apply K; [now right|exact In_]. }
    { left. split; [exists g; split; [now right|exact Tw]|exact E2]. }
    right. split; [intros g [<-|Ig]; [exact NT|now apply NT2]|]. exists fs2. split; [exact E2|]. cbn [flat_map]. split; [|split].
    + intros j Nj. rewrite B1, A1; [reflexivity| |]; intros I; apply Nj; apply in_or_app; auto.
    + intros g n [<-|Ig] In_ An m Im.
      * rewrite B1 by (now apply Dis). now apply A2.
      * rewrite (B2 g n Ig In_ An m Im). apply A1. now apply (Dis2 g).
    + intros g [<-|Ig] Nn m Im.
      * rewrite B1 by (now apply Dis). now apply A3.
      * rewrite (B3 g Ig Nn m Im). apply A1. now apply (Dis2 g).
Qed.

(* ------------------------------------------------------------------ *)
(** ** A program *)

Section Program.
  Context {C : Type} (flags : list cli_flag) (action : flag_set -> C).
  Let all := flags ++ [help_flag; version_flag].
  Let o := map option_of all.
  Context (OK : Forall name_ok (names o)) (ND : NoDup (names o)) (Reg : new_flag_set all [] = Ok (table o))
    (VD : forall x, In x o -> valid (o_kind x) (o_default x)).

  Lemma names_forms : names o = flat_map (fun f => forms (fl_name f)) all.
  Proof. unfold names, o. clear. induction all as [|f l IH]; [reflexivity|]. cbn [map flat_map]. now rewrite IH. Qed.
  Lemma table_valid : all_valid (table o).
  Proof. intros n k v L. apply lookup_table in L; [|exact ND]. destruct L as (x & I & _ & <- & <-). now apply VD. Qed.
  Lemma stores_valid args l extra : command_line o args l extra -> all_valid (stores (table o) l).
  Proof.
    intros CL n k v L. rewrite lookup_stores in L. destruct (lookup (table o) n) as [[k' w]|] eqn:L0; [|discriminate]. injection L as <- <-.
    destruct (last_given l [n]) as [x|] eqn:G; [|exact (table_valid _ _ _ L0)].
    pose proof (last_given_spec l [n]) as S. rewrite G in S. destruct S as (a & m & b & -> & [<-|[]] & _).
    destruct (command_line_valid o _ _ _ CL n x) as (k2 & N & V); [apply in_or_app; right; now left|].
    apply (table_shape o ND) in N as (w2 & L2). rewrite L0 in L2. injection L2 as <- _. exact V.
  Qed.

  Lemma two_forms_each l : (exists f, In f all /\ two_forms (rev (map fst l) ++ []) f) <-> ~ one_form_each o l.
  Proof.
    rewrite app_nil_r. split.
    - intros (f & I & n & m & In_ & Im & Nnm & An & Am) H. apply Nnm. apply in_rev in An, Am. apply (H (option_of f) n m); auto. apply in_map. exact I.
    - intros H. assert (Dec : forall f, two_forms (rev (map fst l)) f \/ ~ two_forms (rev (map fst l)) f).
      { intros f. destruct (existsb (fun n => existsb (fun m => negb (text_eqb n m) && is_set (rev (map fst l)) n && is_set (rev (map fst l)) m) (forms (fl_name f))) (forms (fl_name f))) eqn:E.
        - left. apply existsb_exists in E as (n & In_ & E). apply existsb_exists in E as (m & Im & E). apply andb_true_iff in E as [E E3]. apply andb_true_iff in E as [E1 E2].
          exists n, m. unfold is_set in *. apply existsb_in in E2, E3. apply negb_true_iff, text_eqb_neq in E1. auto.
        - right. intros (n & m & In_ & Im & Nnm & An & Am). assert (X : true = false); [|discriminate]. rewrite <- E. symmetry.
          apply existsb_exists. exists n. split; [exact In_|]. apply existsb_exists. exists m. split; [exact Im|]. unfold is_set.
          apply existsb_in in An, Am. rewrite An, Am. apply text_eqb_neq in Nnm. now rewrite Nnm. }
      assert (Fin : forall fl, (exists f, In f fl /\ two_forms (rev (map fst l)) f) \/ forall f, In f fl -> ~ two_forms (rev (map fst l)) f).
      { induction fl as [|f fl [(g & I & T)|IH]]; [right; intros f []|left; exists g; split; [now right|exact T]|].
        destruct (Dec f) as [T|N]; [left; exists f; split; [now left|exact T]|right; intros g [<-|I]; auto]. }
      destruct (Fin all) as [F|F]; [exact F|]. exfalso. apply H. intros x n m Ix In_ Im An Am. apply in_map_iff in Ix as (f & <- & If_).
      destruct (text_dec n m) as [E|N]; [exact E|]. exfalso. apply (F f If_). exists n, m. rewrite <- !in_rev. auto.
  Qed.

  (** the flag set after a proper command line *)
  Lemma after args l extra : command_line o args l extra -> one_form_each o l ->
    exists fs, normalize (rev (map fst l) ++ []) all (stores (table o) l) = Some fs /\
      forall x, In x o -> forall m, In m (o_forms x) -> exists v, lookup fs m = Some (o_kind x, v) /\ valid (o_kind x) v /\ option_value l x v.
  Proof.
    intros CL OF. pose proof ND as ND'. rewrite names_forms in ND'. pose proof (stores_valid _ _ _ CL) as AV.
    assert (K : forall f n, In f all -> In n (forms (fl_name f)) -> exists w, lookup (stores (table o) l) n = Some (fl_kind f, w)).
    { intros f n I J. apply (stores_shape o l _ (table_shape o ND)). exists (option_of f). split; [now apply in_map|]. split; [exact J|reflexivity]. }
    destruct (normalize_spec (rev (map fst l) ++ []) all (stores (table o) l) ND' AV K) as [[H _]|[NT (fs & E & _ & B2 & B3)]].
    { exfalso. now apply (proj1 (two_forms_each l)). }
    exists fs. split; [exact E|]. intros x Ix m Im. apply in_map_iff in Ix as (f & <- & If_). cbn [option_of o_forms o_kind] in *.
    assert (Tab : forall n, In n (forms (fl_name f)) -> lookup (table o) n = Some (fl_kind f, fl_value f)).
    { intros n J. apply lookup_table; [exact ND|]. exists (option_of f). repeat split; auto. now apply in_map. }
    destruct (existsb (fun n => existsb (text_eqb n) (map fst l)) (forms (fl_name f))) eqn:X.
    - apply existsb_exists in X as (n & In_ & An). apply existsb_in in An.
      rewrite (B2 f n If_ In_ ltac:(rewrite app_nil_r; now apply in_rev in An) m Im). destruct (K f n If_ In_) as (w & L). exists w. split; [exact L|].
      split; [exact (AV _ _ _ L)|]. apply option_value_spec. cbn [o_forms o_default option_of].
      rewrite (last_given_one l _ n In_). 2:{ intros m' Im' Am'. apply (OF (option_of f) m' n); auto. now apply in_map. }
      rewrite lookup_stores, (Tab n In_) in L. injection L as <-. reflexivity.
    - assert (No : forall n, In n (forms (fl_name f)) -> ~ In n (map fst l)).
      { intros n I A. apply not_true_iff_false in X. apply X. apply existsb_exists. exists n. split; [exact I|]. now apply existsb_in. }
      rewrite (B3 f If_); [|intros n I A; rewrite app_nil_r in A; apply in_rev in A; exact (No n I A)|exact Im].
      destruct (K f m If_ Im) as (w & L). exists w. split; [exact L|]. split; [exact (AV _ _ _ L)|]. apply option_value_spec.
      cbn [o_forms o_default option_of]. rewrite last_given_none by exact No. rewrite lookup_stores, (Tab m Im) in L.
      rewrite last_given_none in L; [now injection L|]. intros m' [<-|[]]. now apply No.
  Qed.

  Definition asks (f : text -> value) (extra : list text) (fs : flag_set) : fate C :=
    if match f (T "help") with VBool b => b | _ => false end then Helps
    else if match f (T "version") with VBool b => b | _ => false end then Versions
    else match extra with
         | n :: r => if text_eqb n (T "help") || text_eqb n (T "h") then HelpCommand r else Runs (action fs)
         | [] => Runs (action fs)
         end.

  Context (Ihelp : In (opt KBool [T "help"; T "h"] (VBool false)) o) (Iversion : In (opt KBool [T "version"; T "v"] (VBool false)) o)
    (NE : forall x, In x o -> o_forms x <> []).

  Lemma proper_run args f extra : shell_complete args = (false, args) -> proper o args f extra ->
    exists fs, (forall x, In x o -> lookup fs (hd [] (o_forms x)) = Some (o_kind x, f (hd [] (o_forms x))) /\ valid (o_kind x) (f (hd [] (o_forms x)))) /\
      app_run flags action args = asks f extra fs.
  Proof.
    intros SC (l & CL & OF & V). destruct (after args l extra CL OF) as (fs & E & L). exists fs.
    assert (Val : forall x m, In x o -> In m (o_forms x) -> lookup fs m = Some (o_kind x, f (hd [] (o_forms x))) /\ valid (o_kind x) (f (hd [] (o_forms x)))).
    { intros x m I J. destruct (L x I m J) as (v & Lk & Vv & Ov). specialize (V x I). apply option_value_spec in Ov, V. rewrite V, <- Ov. auto. }
    split.
    { intros x I. apply Val; [exact I|]. specialize (NE x I). destruct (o_forms x); [contradiction|now left]. }
    unfold app_run. rewrite SC. fold all. rewrite Reg. rewrite (parse_complete o OK args l extra CL (table o) [] (table_shape o ND)). rewrite E. cbn [negb andb].
    assert (B : forall x a b, In x o -> o_forms x = [a; b] -> o_kind x = KBool -> existsb (ctx_bool fs) [a; b] = match f a with VBool y => y | _ => false end).
    { intros x a b I F Kb. cbn [existsb]. rewrite orb_false_r.
      assert (G : forall m, In m (o_forms x) -> ctx_bool fs m = match f a with VBool y => y | _ => false end).
      { intros m J. destruct (Val x m I J) as [Lk Vv]. unfold ctx_bool. rewrite Lk. rewrite F in *. cbn [hd] in *. rewrite Kb in *. pose proof (round_trip _ _ Vv) as R.
        destruct (f a) as [t|z|y]; try contradiction. now destruct y. }
      rewrite !G by (rewrite F; cbn; auto). apply orb_diag. }
    change (forms (fl_name help_flag)) with [T "help"; T "h"]. change (forms (fl_name version_flag)) with [T "version"; T "v"].
    rewrite (B _ _ _ Ihelp eq_refl eq_refl), (B _ _ _ Iversion eq_refl eq_refl). unfold asks.
    destruct extra as [|n r]; cbn [tl]; reflexivity.
  Qed.
  Lemma one_form_dec args l rest : command_line o args l rest -> {one_form_each o l} + {~ one_form_each o l}.
  Proof.
    intros CL. destruct (normalize (rev (map fst l) ++ []) all (stores (table o) l)) as [fs|] eqn:N.
        - left. pose proof ND as ND'. rewrite names_forms in ND'. 
          assert (K : forall f n, In f all -> In n (forms (fl_name f)) -> exists w, lookup (stores (table o) l) n = Some (fl_kind f, w)).
          { intros f n I J. apply (stores_shape o l _ (table_shape o ND)). exists (option_of f). split; [now apply in_map|]. split; [exact J|reflexivity]. }
          destruct (normalize_spec (rev (map fst l) ++ []) all (stores (table o) l) ND' (stores_valid _ _ _ CL) K) as [[_ E]|[NT _]]; [congruence|].
          intros x n m Ix In_ Im An Am. destruct (text_dec n m) as [E|Nnm]; [exact E|]. exfalso. apply in_map_iff in Ix as (g & <- & Ig).
          apply (NT g Ig). exists n, m. rewrite app_nil_r, <- !in_rev. auto.
        - right. intros OF. destruct (after _ _ _ CL OF) as (fs & E & _). congruence.
  Qed.
  Lemma proper_dec args : (exists f extra, proper o args f extra) \/ (forall f extra, ~ proper o args f extra).
  Proof.
    destruct (parse args (table o) []) as [[[ok fs1] actual] rest] eqn:P. destruct ok.
    - apply (parse_sound o OK) in P; [|exact (table_shape o ND)]. destruct P as (l & CL & _ & _). destruct (one_form_dec _ _ _ CL) as [OF|NOF].
      + left. destruct (after _ _ _ CL OF) as (fs & E & L).
        exists (fun n => match lookup fs n with Some (_, v) => v | None => VBool false end), rest. exists l. split; [exact CL|]. split; [exact OF|].
        intros x I. destruct (L x I (hd [] (o_forms x))) as (v & Lk & _ & Ov); [specialize (NE x I); destruct (o_forms x); [contradiction|now left]|]. rewrite Lk. exact Ov.
      + right. intros f extra (l' & CL' & OF' & _). pose proof (parse_complete o OK _ _ _ CL (table o) [] (table_shape o ND)) as P1.
        pose proof (parse_complete o OK _ _ _ CL' (table o) [] (table_shape o ND)) as P2. rewrite P1 in P2. injection P2 as _ E _.
        apply NOF. rewrite !app_nil_r in E. apply (f_equal (@rev _)) in E. rewrite !rev_involutive in E.
        intros x n m Ix In_ Im An Am. rewrite E in An, Am. exact (OF' x n m Ix In_ Im An Am).
    - right. intros f extra (l & CL & _). rewrite (parse_complete o OK _ _ _ CL (table o) [] (table_shape o ND)) in P. discriminate.
  Qed.
  Lemma improper_run args : shell_complete args = (false, args) -> (forall f extra, ~ proper o args f extra) -> app_run flags action args = Refused.
  Proof.
    intros SC H. unfold app_run. rewrite SC. fold all. rewrite Reg. destruct (parse args (table o) []) as [[[ok fs1] actual] rest] eqn:P.
    destruct ok.
    - apply (parse_sound o OK) in P; [|exact (table_shape o ND)]. destruct P as (l & CL & -> & ->).
      pose proof (one_form_dec _ _ _ CL) as Dec.
      destruct Dec as [OF|NOF].
      + exfalso. destruct (after _ _ _ CL OF) as (fs & E & L).
        apply (H (fun n => match lookup fs n with Some (_, v) => v | None => VBool false end) rest). exists l. split; [exact CL|]. split; [exact OF|].
        intros x I. destruct (L x I (hd [] (o_forms x))) as (v & Lk & _ & Ov); [specialize (NE x I); destruct (o_forms x); [contradiction|now left]|]. rewrite Lk. exact Ov.
      + destruct (normalize _ all _) as [fs|] eqn:N; [|reflexivity]. exfalso. apply two_forms_each in NOF.
        pose proof ND as ND'. rewrite names_forms in ND'. 
        assert (K : forall f n, In f all -> In n (forms (fl_name f)) -> exists w, lookup (stores (table o) l) n = Some (fl_kind f, w)).
        { intros f n I J. apply (stores_shape o l _ (table_shape o ND)). exists (option_of f). split; [now apply in_map|]. split; [exact J|reflexivity]. }
        destruct (normalize_spec (rev (map fst l) ++ []) all (stores (table o) l) ND' (stores_valid _ _ _ CL) K) as [[_ E]|[NT _]]; [congruence|].
        destruct NOF as (g & Ig & T). exact (NT g Ig T).
    - destruct (normalize actual all fs1); reflexivity.
  Qed.
  Lemma completion_run args c : (exists r, args = r ++ [completion_arg]) -> app_run flags action args <> Runs c.
  Proof.
    intros (r & ->). unfold app_run. assert (SC : shell_complete (r ++ [completion_arg]) = (true, r)).
    { unfold shell_complete. rewrite rev_app_distr. cbn [rev app]. rewrite text_eqb_refl. now rewrite rev_involutive. }
    rewrite SC. fold all. rewrite Reg. destruct (parse r (table o) []) as [[[ok fs1] actual] rest]. destruct (normalize actual all fs1) as [fs|]; [|discriminate].
    destruct (match rest with n :: _ => text_eqb n (T "help") || text_eqb n (T "h") | [] => false end); cbn [negb andb]; [|discriminate].
    rewrite andb_false_r. destruct (existsb _ _); [discriminate|]. destruct (existsb _ _); discriminate.
  Qed.
End Program.

Lemma shell_complete_dec args : shell_complete args = (false, args) \/ exists r, args = r ++ [completion_arg].
Proof.
  unfold shell_complete. destruct (rev args) as [|a r] eqn:E; [now left|]. destruct (text_eqb a completion_arg) eqn:X; [|now left].
  right. apply text_eqb_eq in X as ->. exists (rev r). rewrite <- (rev_involutive args), E. reflexivity.
Qed.
Lemma shell_complete_not args : shell_complete args = (false, args) <-> ~ exists r, args = r ++ [completion_arg].
Proof.
  split; [|intros H; destruct (shell_complete_dec args); [assumption|contradiction]]. intros H (r & ->). unfold shell_complete in H.
  rewrite rev_app_distr in H. cbn [rev app] in H. rewrite text_eqb_refl in H. discriminate.
Qed.
