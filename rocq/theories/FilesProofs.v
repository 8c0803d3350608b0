(** Lemmas about paths and the file listing. *)
From Verif Require Import GoBase GoBaseFacts FilesModel FilesSpec.
Local Open Scope N_scope.

(* ---------- split_slash ---------- *)
Lemma split_slash_nonnil s : split_slash s <> [].
Proof. destruct s as [|c r]; cbn; [discriminate|]. destruct (c =? 47); [discriminate|]. destruct (split_slash r); discriminate. Qed.

Lemma split_slash_app a b : split_slash (a ++ T "/" ++ b) = split_slash a ++ split_slash b.
Proof.
  induction a as [|c a IH]; [reflexivity|].
  cbn [app split_slash]. rewrite IH. destruct (c =? 47); [reflexivity|].
  destruct (split_slash a) as [|w ws] eqn:E; [now apply split_slash_nonnil in E|reflexivity].
Qed.

Lemma split_slash_name n : ~ In 47 n -> split_slash n = [n].
Proof.
  induction n as [|c n IH]; intro H; [reflexivity|]. cbn.
  destruct (N.eqb_spec c 47) as [->|Hc]; [exfalso; apply H; now left|].
  rewrite IH by (intro; apply H; now right). reflexivity.
Qed.

Lemma split_slash_join ns : ns <> [] -> Forall (fun n => ~ In 47 n) ns -> split_slash (join (T "/") ns) = ns.
Proof.
  intros NE H. induction H as [|n ns Hn Hns IH]; [contradiction|]. clear NE.
  destruct ns as [|m ns]; [now apply split_slash_name|].
  change (join (T "/") (n :: m :: ns)) with (n ++ T "/" ++ join (T "/") (m :: ns)).
  rewrite split_slash_app, IH, split_slash_name by (auto; discriminate). reflexivity.
Qed.

Lemma split_slash_no_slash s : Forall (fun n => ~ In 47 n) (split_slash s).
Proof.
  induction s as [|c r IH]; cbn; [repeat constructor; intros []|].
  destruct (N.eqb_spec c 47) as [->|Hc]; [constructor; [intros []|exact IH]|].
  destruct (split_slash r) as [|w ws]; [repeat constructor; intros [H|[]]; congruence|].
  inversion IH; subst. constructor; [|assumption]. intros [H|H]; [congruence|contradiction].
Qed.

(* ---------- clean ---------- *)
Definition kept (e : text) : bool := negb (text_eqb e [] || text_eqb e (T ".")).

Lemma clean_elems_plain rooted cs : forall stack, ~ In (T "..") cs ->
  clean_elems rooted stack cs = rev stack ++ filter kept cs.
Proof.
  induction cs as [|c cs IH]; intros stack H; cbn [clean_elems filter]; [now rewrite app_nil_r|].
  assert (Hc : c <> T "..") by (intros ->; apply H; now left).
  assert (Hcs : ~ In (T "..") cs) by (intro; apply H; now right).
  unfold kept at 1. destruct (text_eqb c [] || text_eqb c (T "."))%bool; cbn [negb]; [now apply IH|].
  apply text_eqb_neq in Hc. rewrite Hc. rewrite IH by exact Hcs. cbn [rev]. now rewrite <- app_assoc.
Qed.

Lemma name_ok_kept n : name_ok n -> kept n = true.
Proof.
  intros (A & _ & B & _). unfold kept. apply text_eqb_neq in A, B. now rewrite A, B.
Qed.
Lemma filter_kept ns : Forall name_ok ns -> filter kept ns = ns.
Proof. induction 1 as [|n ns H _ IH]; [reflexivity|]. cbn. now rewrite (name_ok_kept n H), IH. Qed.
Lemma ok_no_up ns : Forall name_ok ns -> ~ In (T "..") ns.
Proof. intros H I. rewrite Forall_forall in H. destruct (H _ I) as (_ & _ & _ & N). now apply N. Qed.
Lemma ok_no_slash ns : Forall name_ok ns -> Forall (fun n => ~ In 47 n) ns.
Proof. intro H. eapply Forall_impl; [|exact H]. intros n (_ & A & _). exact A. Qed.

(** the elements of a path without .. are entry names once the empty ones and . are gone *)
Lemma elems_ok s : ~ In (T "..") (split_slash s) -> Forall name_ok (filter kept (split_slash s)).
Proof.
  intro H. apply Forall_forall. intros n I. apply filter_In in I as [I K].
  pose proof (split_slash_no_slash s) as S. rewrite Forall_forall in S. specialize (S n I).
  unfold kept in K. apply Bool.negb_true_iff, Bool.orb_false_iff in K as [K1 K2].
  apply text_eqb_neq in K1, K2. repeat split; auto. intros ->. contradiction.
Qed.

Lemma clean_elems_ups k rest : forall j,
  clean_elems false (repeat (T "..") j) (repeat (T "..") k ++ rest) = clean_elems false (repeat (T "..") (j + k)) rest.
Proof.
  induction k as [|k IH]; intro j; [now rewrite Nat.add_0_r|].
  cbn [repeat app].
  replace (j + S k)%nat with (S j + k)%nat by lia. rewrite <- IH.
  destruct j as [|j]; reflexivity.
Qed.

Lemma clean_elems_app_ok rooted ns rest : Forall name_ok ns -> forall stack,
  clean_elems rooted stack (ns ++ rest) = clean_elems rooted (rev ns ++ stack) rest.
Proof.
  induction 1 as [|n ns (A & _ & B & C) _ IH]; intro stack; [reflexivity|].
  apply text_eqb_neq in A, B, C. cbn [app clean_elems]. rewrite A, B, C. cbn [orb]. rewrite IH.
  cbn [rev]. now rewrite <- app_assoc.
Qed.

Lemma join_nonnil ns : ns <> [] -> Forall (fun n => n <> []) ns -> join (T "/") ns <> [].
Proof.
  intros NE H. destruct H as [|n ns Hn Hns]; [contradiction|].
  destruct ns; cbn; [exact Hn|]. destruct n; [contradiction|discriminate].
Qed.

Lemma head_not_slash ns : Forall (fun n => n <> [] /\ ~ In 47 n) ns -> is_rooted (join (T "/") ns) = false.
Proof.
  intro H. destruct H as [|n ns [Hn Hs] _]; [reflexivity|].
  destruct n as [|c n]; [contradiction|].
  assert (c <> 47) by (intros ->; apply Hs; now left).
  assert (E : forall r, is_rooted (c :: r) = false).
  { intro r. unfold is_rooted. cbn. apply N.eqb_neq in H. now rewrite H. }
  destruct ns; apply E.
Qed.

Lemma is_rooted_app d s : d <> [] -> is_rooted (d ++ s) = is_rooted d.
Proof. destruct d; [contradiction|]. intros _. reflexivity. Qed.

Lemma clean_nonnil p : p <> [] -> clean p = render (is_rooted p) (clean_elems (is_rooted p) [] (split_slash p)).
Proof. destruct p; [contradiction|reflexivity]. Qed.

Lemma ups_noslash k : Forall (fun n => n <> [] /\ ~ In 47 n) (repeat (T "..") k).
Proof. induction k; cbn; constructor; auto. split; [discriminate|]. cbn. intuition discriminate. Qed.
Lemma ok_noslash2 ns : Forall name_ok ns -> Forall (fun n => n <> [] /\ ~ In 47 n) ns.
Proof. intro H. eapply Forall_impl; [|exact H]. intros n (A & B & _). auto. Qed.

Lemma rev_ups k : rev (repeat (T "..") k) = repeat (T "..") k.
Proof.
  induction k as [|k IH]; [reflexivity|]. cbn [repeat rev]. rewrite IH. symmetry. apply repeat_cons.
Qed.

(** how a plain directory behaves at the start of a path *)
Lemma plain_elems d : plain d -> exists cs, cs <> [] /\ d <> [] /\ d = render (is_rooted d) cs /\
  forall rest, clean_elems (is_rooted d) [] (split_slash d ++ rest) = clean_elems (is_rooted d) (rev cs) rest.
Proof.
  intros [ns NE H|k ns L H].
  - exists ns. split; [exact NE|]. split; [discriminate|].
    change (is_rooted (T "/" ++ join (T "/") ns)) with true. split; [reflexivity|]. intro rest.
    change (T "/" ++ join (T "/") ns) with ([] ++ T "/" ++ join (T "/") ns).
    rewrite split_slash_app, split_slash_join by (auto using ok_no_slash).
    cbn [split_slash app clean_elems]. change (text_eqb [] []) with true. cbn [orb].
    rewrite clean_elems_app_ok by exact H. now rewrite app_nil_r.
  - set (cs := repeat (T "..") k ++ ns).
    assert (NE : cs <> []) by (intro E; apply (f_equal (@length _)) in E; unfold cs in E; rewrite app_length, repeat_length in E; cbn in E; lia).
    assert (Hcs : Forall (fun n => n <> [] /\ ~ In 47 n) cs).
    { apply Forall_app. split; [apply ups_noslash|now apply ok_noslash2]. }
    exists cs. split; [exact NE|].
    assert (NN : join (T "/") cs <> []).
    { apply join_nonnil; [exact NE|]. eapply Forall_impl; [|exact Hcs]. intros ? [? _]; auto. }
    split; [exact NN|]. rewrite (head_not_slash cs Hcs). split.
    + unfold render. destruct cs; [contradiction|reflexivity].
    + intro rest. rewrite split_slash_join.
      * unfold cs. rewrite <- app_assoc.
        pose proof (clean_elems_ups k (ns ++ rest) 0) as U. cbn [repeat Nat.add] in U. rewrite U.
        rewrite clean_elems_app_ok by exact H. rewrite rev_app_distr.
        now rewrite rev_ups.
      * exact NE.
      * eapply Forall_impl; [|exact Hcs]. intros ? [_ ?]; auto.
Qed.

Lemma join_under cs ns : cs <> [] ->
  join (T "/") (cs ++ ns) = join (T "/") cs ++ flat_map (fun n => T "/" ++ n) ns.
Proof.
  induction cs as [|c cs IH]; [contradiction|]. intros _.
  destruct cs as [|c' cs].
  - change (join (T "/") [c]) with c. change ([c] ++ ns) with (c :: ns).
    clear IH. revert c. induction ns as [|n ns IHn]; intro c; [symmetry; apply app_nil_r|].
    change (join (T "/") (c :: n :: ns)) with (c ++ T "/" ++ join (T "/") (n :: ns)).
    rewrite IHn. cbn [flat_map]. now rewrite <- app_assoc.
  - change ((c :: c' :: cs) ++ ns) with (c :: c' :: (cs ++ ns)).
    change (join (T "/") (c :: c' :: (cs ++ ns))) with (c ++ T "/" ++ join (T "/") ((c' :: cs) ++ ns)).
    rewrite IH by discriminate.
    change (join (T "/") (c :: c' :: cs)) with (c ++ T "/" ++ join (T "/") (c' :: cs)).
    now rewrite <- !app_assoc.
Qed.

Lemma render_under rooted cs ns : cs <> [] -> render rooted (cs ++ ns) = under (render rooted cs) ns.
Proof.
  intro NE. unfold render, under. destruct rooted.
  - rewrite join_under by exact NE. now rewrite <- app_assoc.
  - rewrite join_under by exact NE. destruct cs; [contradiction|reflexivity].
Qed.

(** joining a plain directory with a path that does not go up *)
Lemma clean_under d s : plain d -> ~ In (T "..") (split_slash s) ->
  clean (d ++ T "/" ++ s) = under d (filter kept (split_slash s)).
Proof.
  intros P H. destruct (plain_elems d P) as (cs & NE & ND & E & C).
  rewrite clean_nonnil by (destruct d; [contradiction|discriminate]).
  rewrite is_rooted_app by exact ND. rewrite split_slash_app, C, clean_elems_plain by exact H.
  rewrite rev_involutive, render_under by exact NE. now rewrite <- E.
Qed.

Lemma plain_nonnil d : plain d -> d <> [].
Proof. intro P. now destruct (plain_elems d P) as (_ & _ & N & _). Qed.

Lemma join_path_clean d s : d <> [] -> join_path d s = clean (d ++ T "/" ++ s).
Proof. destruct d; [contradiction|]. destruct s; reflexivity. Qed.

Lemma join_path_under d s : plain d -> ~ In (T "..") (split_slash s) ->
  join_path d s = under d (filter kept (split_slash s)).
Proof. intros P H. rewrite join_path_clean by now apply plain_nonnil. now apply clean_under. Qed.

Lemma join_path_name d n : plain d -> name_ok n -> join_path d n = under d [n].
Proof.
  intros P H. pose proof H as (_ & S & _ & U).
  rewrite join_path_under; rewrite ?split_slash_name by exact S; auto.
  - cbn [filter]. now rewrite name_ok_kept.
  - intros [E|[]]. now apply U.
Qed.

Lemma join_path_names d ns : plain d -> ns <> [] -> Forall name_ok ns -> join_path d (join (T "/") ns) = under d ns.
Proof.
  intros P NE H. rewrite join_path_under; rewrite ?split_slash_join; auto using ok_no_slash, ok_no_up.
  now rewrite filter_kept.
Qed.

Lemma under_app d a b : under (under d a) b = under d (a ++ b).
Proof. unfold under. rewrite flat_map_app. now rewrite app_assoc. Qed.
Lemma under_nil d : under d [] = d. Proof. unfold under. cbn. apply app_nil_r. Qed.

Lemma plain_under d ns : plain d -> Forall name_ok ns -> plain (under d ns).
Proof.
  intros [ms NE H|k ms L H] Hn.
  - pose proof (render_under true ms ns NE) as R. unfold render in R. rewrite <- R.
    constructor; [destruct ms; [contradiction|discriminate]|]. apply Forall_app. auto.
  - set (cs := repeat (T "..") k ++ ms).
    assert (NE : cs <> []) by (intro E; apply (f_equal (@length _)) in E; unfold cs in E; rewrite app_length, repeat_length in E; cbn in E; lia).
    unfold under. rewrite <- join_under by exact NE. unfold cs. rewrite <- app_assoc.
    constructor; [rewrite app_length; lia|]. apply Forall_app. auto.
Qed.

(* ---------- remove_dir_prefix ---------- *)
Lemma has_prefix_app a b : has_prefix (a ++ b) a = true.
Proof. induction a as [|c a IH]; [destruct b; reflexivity|]. cbn. now rewrite N.eqb_refl. Qed.

Lemma flat_map_join ns : ns <> [] -> flat_map (fun n => T "/" ++ n) ns = T "/" ++ join (T "/") ns.
Proof.
  intro NE. destruct ns as [|n ns]; [contradiction|].
  change (n :: ns) with ([n] ++ ns). rewrite join_under by discriminate. cbn [app flat_map join]. now rewrite <- app_assoc.
Qed.

Lemma remove_prefix_under d ns : ns <> [] -> remove_dir_prefix (under d ns) d = join (T "/") ns.
Proof.
  intro NE. unfold remove_dir_prefix, under. rewrite has_prefix_app, skipn_app, skipn_all, Nat.sub_diag.
  cbn [app skipn]. rewrite flat_map_join by exact NE. reflexivity.
Qed.

Lemma remove_prefix_self d : remove_dir_prefix d d = [].
Proof.
  unfold remove_dir_prefix.
  replace (has_prefix d d) with true by (symmetry; rewrite <- (app_nil_r d) at 1; apply has_prefix_app).
  now rewrite skipn_all.
Qed.

(* ---------- walk ---------- *)
Section NodeInd.
Variable P : node -> Prop.
Hypothesis Pfile : P File.
Hypothesis Plink : P Link.
Hypothesis Pgone : P Gone.
Hypothesis Pnone : P (Dir None).
Hypothesis Pdir : forall es, Forall (fun e => P (snd e)) es -> P (Dir (Some es)).
Fixpoint node_ind' (n : node) : P n :=
  match n with
  | File => Pfile
  | Link => Plink
  | Gone => Pgone
  | Dir None => Pnone
  | Dir (Some es) => Pdir es ((fix go (es : list (text * node)) : Forall (fun e => P (snd e)) es :=
                                 match es with
                                 | [] => Forall_nil _
                                 | e :: r => Forall_cons e (node_ind' (snd e)) (go r)
                                 end) es)
  end.
End NodeInd.

(** the entries of a directory, visited in order *)
Section WalkChildren.
Variable path : text.
Fixpoint walk_children (es : list (text * node)) : list (text * bool) * bool :=
  match es with
  | [] => ([], false)
  | (name, c) :: r =>
      let '(v, stopped) := walk (join_path path name) c in
      if stopped : bool then (v, true)
      else let '(v', stopped') := walk_children r in (v ++ v', stopped')
  end.
End WalkChildren.
Lemma walk_dir path es : walk path (Dir (Some es)) =
  (let '(below, stopped) := walk_children path es in ((path, true) :: below, stopped)).
Proof. reflexivity. Qed.

Definition is_dir (n : node) : bool := match n with Dir _ => true | _ => false end.

Lemma walk_sound n : tree_ok n -> forall path, plain path -> forall p b, In (p, b) (fst (walk path n)) ->
  exists ns m, entry n ns m /\ Forall name_ok ns /\ p = under path ns /\ b = is_dir m /\ m <> Gone /\ m <> Dir None.
Proof.
  induction n as [| | | |es IH] using node_ind'; intros Ok path P p b.
  - cbn. intros [[= <- <-]|[]]. exists [], File. rewrite under_nil. repeat split; [constructor|constructor|discriminate|discriminate].
  - cbn. intros [[= <- <-]|[]]. exists [], Link. rewrite under_nil. repeat split; [constructor|constructor|discriminate|discriminate].
  - intros [].
  - intros [].
  - rewrite walk_dir. inversion Ok as [| | | |es' Hn Ht]; subst es'.
    assert (G : forall l, incl l es -> forall p b, In (p, b) (fst (walk_children path l)) ->
      exists name c ns m, In (name, c) es /\ entry c ns m /\ Forall name_ok (name :: ns) /\ p = under path (name :: ns) /\
        b = is_dir m /\ m <> Gone /\ m <> Dir None).
    { induction l as [|[name c] l IHl]; intros Hi q b' Hq; [destruct Hq|].
      assert (Hin : In (name, c) es) by (apply Hi; now left).
      rewrite Forall_forall in IH, Hn, Ht. pose proof (Hn _ Hin) as Hname. cbn in Hname.
      assert (Here : In (q, b') (fst (walk (join_path path name) c)) ->
        exists name c ns m, In (name, c) es /\ entry c ns m /\ Forall name_ok (name :: ns) /\ q = under path (name :: ns) /\
          b' = is_dir m /\ m <> Gone /\ m <> Dir None).
      { intro I. rewrite join_path_name in I by auto.
        destruct (IH _ Hin (Ht _ Hin) (under path [name])) with (p := q) (b := b') as (ns & m & E & O & Q & R).
        - apply plain_under; auto.
        - exact I.
        - exists name, c, ns, m. split; [exact Hin|]. split; [exact E|]. split; [auto|].
          split; [rewrite Q, under_app; reflexivity|exact R]. }
      cbn [walk_children] in Hq. destruct (walk (join_path path name) c) as [v st]. cbn [fst] in Here.
      destruct st; [now apply Here|].
      destruct (walk_children path l) as [v' st'] eqn:El. cbn [fst] in Hq.
      apply in_app_or in Hq as [Hq|Hq]; [now apply Here|].
      apply IHl; [intros x Hx; apply Hi; now right|]. exact Hq. }
    specialize (G es (incl_refl es)).
    destruct (walk_children path es) as [below st]. cbn [fst] in *. intros [[= <- <-]|I].
    + exists [], (Dir (Some es)). rewrite under_nil. repeat split; [constructor|constructor|discriminate|discriminate].
    + destruct (G p b I) as (name & c & ns & m & Hin & E & O & Q & R).
      exists (name :: ns), m. split; [econstructor; eauto|]. auto.
Qed.

Lemma walk_complete n : tree_ok n -> readable n -> forall path, plain path ->
  snd (walk path n) = false /\ forall ns m, entry n ns m -> In (under path ns, is_dir m) (fst (walk path n)).
Proof.
  induction n as [| | | |es IH] using node_ind'; intros Ok Rd path P.
  - split; [reflexivity|]. intros ns m E. inversion E; subst. rewrite under_nil. now left.
  - split; [reflexivity|]. intros ns m E. inversion E; subst. rewrite under_nil. now left.
  - inversion Rd.
  - inversion Rd.
  - rewrite walk_dir. inversion Ok as [| | | |es' Hn Ht]; subst es'. inversion Rd as [| |es' Hr]; subst es'.
    assert (G : snd (walk_children path es) = false /\
      forall name c ns m, In (name, c) es -> entry c ns m -> In (under path (name :: ns), is_dir m) (fst (walk_children path es))).
    { clear Ok Rd. induction es as [|[name c] l IHl]; [split; [reflexivity|intros ? ? ? ? []]|].
      inversion IH as [|? ? IHc IHr]; subst. inversion Hn as [|? ? Nc Nr]; subst.
      inversion Ht as [|? ? Tc Tr]; subst. inversion Hr as [|? ? Rc Rr]; subst. cbn [snd fst] in *.
      destruct (IHl IHr Nr Tr Rr) as [S1 C1].
      destruct (IHc Tc Rc (join_path path name)) as [S2 C2]; [rewrite join_path_name; auto; apply plain_under; auto|].
      cbn [walk_children]. destruct (walk (join_path path name) c) as [v st]. cbn [fst snd] in *. subst st.
      destruct (walk_children path l) as [v' st']. cbn [fst snd] in *. split; [exact S1|].
      intros name' c' ns m [[= <- <-]|I] E; apply in_or_app.
      - left. specialize (C2 ns m E). rewrite join_path_name, under_app in C2; auto.
      - right. eauto. }
    destruct G as [S C]. destruct (walk_children path es) as [below st]. cbn [fst snd] in *. split; [exact S|].
    intros ns m E. inversion E; subst; [rewrite under_nil; now left|]. right. eauto.
Qed.

(** what the listing functions return *)
Lemma list_all_files_spec w d sub name : plain d -> ~ In (T "..") (split_slash sub) ->
  (forall n, lstat w (join_path d sub) = Some n -> tree_ok n) ->
  (In name (list_all_files w d sub) <->
   exists p, In (p, false) (walk_root w (join_path d sub)) /\ name = remove_dir_prefix p d /\ name <> []).
Proof.
  intros P U Ok. unfold list_all_files, walker.
  assert (E : match sub with [] => d | _ => join_path d sub end = join_path d sub).
  { destruct sub as [|c r]; [|reflexivity]. rewrite join_path_under by (auto; intros [H|[]]; discriminate).
    cbn. symmetry. apply under_nil. }
  rewrite E. split.
  - intro I. apply in_map_iff in I as ([q b] & <- & I). apply filter_In in I as [I K]. cbn [fst snd] in *.
    apply in_map_iff in I as ([p b'] & [= <- <-] & I). cbn [fst snd] in *.
    apply andb_prop in K as [K1 K2]. apply Bool.negb_true_iff in K1, K2. apply text_eqb_neq in K1. subst b'.
    exists p. auto.
  - intros (p & I & -> & NE). apply in_map_iff. exists (remove_dir_prefix p d, false). split; [reflexivity|].
    apply filter_In. split.
    + apply in_map_iff. exists (p, false). auto.
    + cbn. apply text_eqb_neq in NE. now rewrite NE.
Qed.

(* ---------- Split, Glob ---------- *)
Lemma split_file_name n : ~ In 47 n -> split_file n = ([], n).
Proof.
  induction n as [|c n IH]; intro H; [reflexivity|]. cbn. rewrite IH by (intro; apply H; now right).
  destruct (N.eqb_spec c 47) as [->|_]; [exfalso; apply H; now left|reflexivity].
Qed.
Lemma split_file_app a n : ~ In 47 n -> split_file (a ++ T "/" ++ n) = (a ++ T "/", n).
Proof.
  intro H. induction a as [|c a IH].
  - cbn. now rewrite split_file_name by exact H.
  - cbn [app split_file]. change (a ++ 47 :: n) with (a ++ T "/" ++ n). rewrite IH. destruct a; reflexivity.
Qed.
Lemma clean_glob_app a : a <> [] -> clean_glob_path (a ++ T "/") = a.
Proof.
  intro H. unfold clean_glob_path. destruct (a ++ T "/") as [|c r] eqn:E; [destruct a; discriminate|]. rewrite <- E.
  replace (text_eqb (a ++ T "/") (T "/")) with false.
  - apply removelast_last.
  - symmetry. apply text_eqb_neq. intro F. destruct a as [|x [|y a]]; [contradiction|discriminate|discriminate].
Qed.

Lemma concat_opt_in {A} (l : list (option (list A))) r x : concat_opt l = Some r -> In x r ->
  exists y, In (Some y) l /\ In x y.
Proof.
  revert r. induction l as [|[y|] l IH]; cbn; intros r H I; [injection H as <-; destruct I| |discriminate].
  destruct (concat_opt l) as [z|]; [|discriminate]. injection H as <-. apply in_app_or in I as [I|I].
  - exists y. auto.
  - destruct (IH z eq_refl I) as (y' & A1 & A2). exists y'. auto.
Qed.

Section Glob.
Variable w : fs.
Hypothesis names_ok : forall dir names, dir_names w dir = Some names -> Forall name_ok names.

Lemma glob_in_under dir file ms p : plain dir -> glob_in w dir file = Some ms -> In p ms ->
  exists n, name_ok n /\ p = under dir [n].
Proof.
  intros P. unfold glob_in. destruct (dir_names w dir) as [[|n0 ns]|] eqn:E.
  - intros [= <-] [].
  - destruct (parse_pattern (length file) file) as [ts|]; [|discriminate]. intros H I.
    assert (F : ms = map (join_path dir) (filter (matches ts) (n0 :: ns))) by congruence. rewrite F in I. clear H F.
    apply in_map_iff in I as (n & <- & I). apply filter_In in I as [I _].
    pose proof (names_ok dir _ E) as O. rewrite Forall_forall in O. specialize (O n I).
    exists n. split; [exact O|]. now apply join_path_name.
  - intros [= <-] [].
Qed.

Lemma glob_under d : plain d -> has_meta d = false -> forall fuel ns ms, Forall name_ok ns ->
  glob fuel w (under d ns) = Some ms -> forall p, In p ms ->
  exists qs, p = under d qs /\ Forall name_ok qs /\ length qs = length ns.
Proof.
  intros P M. induction fuel as [|f IH]; intros ns ms O G p I.
  - cbn [glob] in G. destruct (has_meta (under d ns)) eqn:E; cbn [negb] in G.
    + destruct ns as [|l ns _] using rev_ind; [rewrite under_nil in E; congruence|].
      apply Forall_app in O as [O1 O2]. inversion O2 as [|? ? Ol _]; subst. pose proof Ol as (_ & Sl & _).
      assert (Eq : under d (ns ++ [l]) = under d ns ++ T "/" ++ l).
      { rewrite <- under_app. unfold under at 1. cbn [flat_map]. now rewrite app_nil_r. }
      rewrite Eq, split_file_app in G by exact Sl.
      rewrite clean_glob_app in G by (apply plain_nonnil, plain_under; auto).
      destruct (has_meta (under d ns)); cbn [negb] in G; [discriminate|].
      destruct (glob_in_under _ _ _ _ (plain_under _ _ P O1) G I) as (n & On & ->).
      exists (ns ++ [n]). rewrite under_app. split; [reflexivity|]. split; [apply Forall_app; auto|].
      now rewrite !app_length.
    + destruct (lstat w (under d ns)); injection G as <-; [destruct I as [<-|[]]; eauto|destruct I].
  - cbn [glob] in G. destruct (has_meta (under d ns)) eqn:E; cbn [negb] in G.
    + destruct ns as [|l ns _] using rev_ind; [rewrite under_nil in E; congruence|].
      apply Forall_app in O as [O1 O2]. inversion O2 as [|? ? Ol _]; subst. pose proof Ol as (_ & Sl & _).
      assert (Eq : under d (ns ++ [l]) = under d ns ++ T "/" ++ l).
      { rewrite <- under_app. unfold under at 1. cbn [flat_map]. now rewrite app_nil_r. }
      rewrite Eq, split_file_app in G by exact Sl.
      rewrite clean_glob_app in G by (apply plain_nonnil, plain_under; auto).
      destruct (has_meta (under d ns)); cbn [negb] in G.
      * destruct (glob f w (under d ns)) as [ds|] eqn:Gd; [|discriminate].
        destruct (concat_opt_in _ _ _ G I) as (y & Iy & Ip). apply in_map_iff in Iy as (q & Gq & Iq).
        destruct (IH ns ds O1 Gd q Iq) as (qs & -> & Oq & Lq).
        destruct (glob_in_under _ _ _ _ (plain_under _ _ P Oq) Gq Ip) as (n & On & ->).
        exists (qs ++ [n]). rewrite under_app. split; [reflexivity|]. split; [apply Forall_app; auto|].
        rewrite !app_length. cbn. lia.
      * destruct (glob_in_under _ _ _ _ (plain_under _ _ P O1) G I) as (n & On & ->).
        exists (ns ++ [n]). rewrite under_app. split; [reflexivity|]. split; [apply Forall_app; auto|].
        now rewrite !app_length.
    + destruct (lstat w (under d ns)); injection G as <-; [destruct I as [<-|[]]; eauto|destruct I].
Qed.
End Glob.

Lemma has_meta_app a b : has_meta (a ++ b) = (has_meta a || has_meta b)%bool.
Proof. apply existsb_app. Qed.

(** a name without special characters matches itself only *)
Definition literal (s : text) : Prop := has_meta s = false.

Lemma parse_lit c f r : (c =? 42) || (c =? 63) || (c =? 91) || (c =? 92) = false ->
  parse_pattern (S f) (c :: r) = match parse_pattern f r with None => None | Some ts => Some (TLit c :: ts) end.
Proof.
  intro H. cbn [parse_pattern]. destruct c as [|p]; [reflexivity|].
  do 7 (destruct p as [p|p|]; try reflexivity; try discriminate H).
Qed.

Lemma parse_lits s k r : literal s ->
  parse_pattern (length s + k) (s ++ r) =
  match parse_pattern k r with None => None | Some ts => Some (map TLit s ++ ts) end.
Proof.
  unfold literal. induction s as [|c s IH]; intro H.
  - cbn. destruct (parse_pattern k r); reflexivity.
  - change (has_meta (c :: s)) with (((c =? 42) || (c =? 63) || (c =? 91) || (c =? 92)) || has_meta s)%bool in H.
    apply Bool.orb_false_iff in H as [Hc Hs].
    change (length (c :: s) + k)%nat with (S (length s + k)). change ((c :: s) ++ r) with (c :: s ++ r).
    rewrite parse_lit by exact Hc. rewrite IH by exact Hs. destruct (parse_pattern k r); reflexivity.
Qed.

Lemma matches_lits s ts n : matches (map TLit s ++ ts) n = true <-> exists n', n = s ++ n' /\ matches ts n' = true.
Proof.
  revert n. induction s as [|c s IH]; intro n.
  - cbn. split; [eauto|]. intros (n' & -> & H). exact H.
  - cbn [map app matches]. destruct n as [|x n]; [split; [discriminate|intros (n' & [=] & _)]|].
    rewrite Bool.andb_true_iff, N.eqb_eq, IH. split.
    + intros [-> (n' & -> & H)]. eauto.
    + intros (n' & [= -> ->] & H). eauto.
Qed.

(* ---------- entries ---------- *)
Lemma NoDup_app_intro {A} (a b : list A) : NoDup a -> NoDup b -> (forall x, In x a -> ~ In x b) -> NoDup (a ++ b).
Proof.
  induction a as [|x a IH]; intros Ha Hb H; [exact Hb|]. cbn. inversion Ha; subst. constructor.
  - intro I. apply in_app_or in I as [I|I]; [contradiction|]. exact (H x (or_introl eq_refl) I).
  - apply IH; auto. intros y I. apply H. now right.
Qed.
Lemma entry_ok n : tree_ok n -> forall ns m, entry n ns m -> Forall name_ok ns.
Proof.
  intros Ok ns m E. induction E as [|es name c ns m I E IH]; [constructor|].
  inversion Ok as [| | | |es' A B]; subst. rewrite Forall_forall in A, B. constructor; [exact (A _ I)|]. apply IH. exact (B _ I).
Qed.
Lemma entry_tree_ok n : tree_ok n -> forall ns m, entry n ns m -> tree_ok m.
Proof.
  intros Ok ns m E. induction E as [|es name c ns m I E IH]; [exact Ok|].
  inversion Ok as [| | | |es' A B]; subst. rewrite Forall_forall in B. apply IH. exact (B _ I).
Qed.

Lemma join_slash_inj a b : a <> [] -> b <> [] -> Forall (fun n => ~ In 47 n) a -> Forall (fun n => ~ In 47 n) b ->
  join (T "/") a = join (T "/") b -> a = b.
Proof. intros A B Ha Hb E. apply (f_equal split_slash) in E. now rewrite !split_slash_join in E. Qed.

Lemma under_cons_inj d n ns m ms : name_ok n -> name_ok m -> under d (n :: ns) = under d (m :: ms) ->
  Forall name_ok ns -> Forall name_ok ms -> n = m.
Proof.
  intros Hn Hm E On Om. unfold under in E. apply app_inv_head in E. rewrite !flat_map_join in E by discriminate.
  apply app_inv_head in E. apply join_slash_inj in E; try discriminate; [congruence|apply ok_no_slash; auto..].
Qed.

Lemma walk_distinct n : tree_ok n -> tree_distinct n -> forall path, plain path -> NoDup (map fst (fst (walk path n))).
Proof.
  induction n as [| | | |es IH] using node_ind'; intros Ok Di path P.
  - cbn. repeat constructor. intros [].
  - cbn. repeat constructor. intros [].
  - constructor.
  - constructor.
  - pose proof (walk_sound (Dir (Some es)) Ok path P) as S0.
    rewrite walk_dir in *. inversion Ok as [| | | |es' Hn Ht]; subst es'. inversion Di as [| | | |es' Hd Hr]; subst es'.
    assert (G : NoDup (map fst (fst (walk_children path es))) /\
      forall p b, In (p, b) (fst (walk_children path es)) -> exists name ns, In name (map fst es) /\ name_ok name /\ Forall name_ok ns /\ p = under path (name :: ns)).
    { clear Ok Di S0. induction es as [|[name c] l IHl]; [split; [constructor|intros ? ? []]|].
      inversion IH as [|? ? IHc IHr]; subst. inversion Hn as [|? ? Nc Nr]; subst.
      inversion Ht as [|? ? Tc Tr]; subst. inversion Hr as [|? ? Rc Rr]; subst. cbn [map] in Hd.
      inversion Hd as [|? ? D1 D2]; subst. cbn [snd fst] in *.
      destruct (IHl IHr Nr Tr D2 Rr) as [N1 S1].
      assert (Pc : plain (under path [name])) by (apply plain_under; auto).
      specialize (IHc Tc Rc _ Pc). pose proof (walk_sound c Tc _ Pc) as Sc.
      cbn [walk_children]. rewrite join_path_name by auto.
      destruct (walk (under path [name]) c) as [v st]. cbn [fst] in *.
      assert (Sv : forall p b, In (p, b) v -> exists ns, Forall name_ok ns /\ p = under path (name :: ns)).
      { intros p b I. destruct (Sc p b I) as (ns & m & _ & O & -> & _). exists ns. split; [exact O|]. now rewrite under_app. }
      destruct st; cbn [fst].
      - split; [exact IHc|]. intros p b I. destruct (Sv p b I) as (ns & O & ->). exists name, ns. cbn. auto.
      - destruct (walk_children path l) as [v' st']. cbn [fst] in *. split.
        + rewrite map_app. apply NoDup_app_intro; [exact IHc|exact N1|]. intros x I1 I2.
          apply in_map_iff in I1 as ([p1 b1] & <- & I1). apply in_map_iff in I2 as ([p2 b2] & E & I2). cbn [fst] in E. subst p2.
          destruct (Sv _ _ I1) as (ns & O & E). cbn [fst] in I2. destruct (S1 _ _ I2) as (nm & ms & In' & Onm & Oms & E2).
          rewrite E in E2. apply under_cons_inj in E2; auto. subst nm. contradiction.
        + intros p b I. apply in_app_or in I as [I|I].
          * destruct (Sv p b I) as (ns & O & ->). exists name, ns. cbn. auto.
          * destruct (S1 p b I) as (nm & ns & A1 & A2 & A3 & A4). exists nm, ns. cbn. auto. }
    destruct G as [N S]. destruct (walk_children path es) as [below st]. cbn [fst map] in *. constructor; [|exact N].
    intro I. apply in_map_iff in I as ([p b] & E & I). cbn [fst] in E. subst p.
    destruct (S _ _ I) as (nm & ns & _ & _ & _ & E). apply (f_equal (@length _)) in E. unfold under in E.
    rewrite app_length in E. cbn [flat_map] in E. rewrite !app_length in E. cbn in E. lia.
Qed.

(* ---------- Glob of a literal path, and of a pattern in the last element ---------- *)
Lemma glob_no_meta fuel w p : has_meta p = false ->
  glob fuel w p = match lstat w p with None => Some [] | Some _ => Some [p] end.
Proof. intro H. destruct fuel; cbn [glob]; rewrite H; reflexivity. Qed.

Lemma glob_last fuel w d file : d <> [] -> has_meta d = false -> ~ In 47 file -> has_meta (d ++ T "/" ++ file) = true ->
  glob fuel w (d ++ T "/" ++ file) = glob_in w d file.
Proof.
  intros ND M Hs H. destruct fuel; cbn [glob]; rewrite H; cbn [negb]; rewrite split_file_app by exact Hs;
    rewrite clean_glob_app by exact ND; rewrite M; reflexivity.
Qed.

Lemma parse_bracket pre c rest : has_meta pre = false -> has_meta rest = false -> c <> 93 -> c <> 92 -> c <> 45 -> c <> 94 ->
  let p := pre ++ T "[" ++ [c] ++ T "]" ++ rest in
  parse_pattern (length p) p = Some (map TLit pre ++ TClass false [(c, c)] :: map TLit rest).
Proof.
  intros H1 H2 C1 C2 C3 C4 p. unfold p. rewrite app_length, parse_lits by exact H1.
  replace (length (T "[" ++ [c] ++ T "]" ++ rest)) with (S (length rest + 2))%nat by (rewrite !app_length; cbn; lia).
  change (T "[" ++ [c] ++ T "]" ++ rest) with (91 :: c :: 93 :: rest). cbn [parse_pattern].
  assert (E : has_prefix (c :: 93 :: rest) (T "^") = false) by (cbn; apply N.eqb_neq in C4; now rewrite C4).
  rewrite E. cbn [length class_ranges].
  assert (Ge : get_esc (c :: 93 :: rest) = Some (c, 93 :: rest)).
  { unfold get_esc. apply N.eqb_neq in C1, C2, C3. now rewrite C1, C2, C3. }
  assert (CR : class_ranges (S (S (length rest))) [] (c :: 93 :: rest) = Some ([(c, c)], rest)).
  { cbn [class_ranges]. rewrite Ge. reflexivity. }
  cbn [class_ranges] in CR. rewrite CR.
  replace (length rest + 2)%nat with (length rest + 2)%nat by lia.
  rewrite <- (app_nil_r rest) at 2. rewrite parse_lits by exact H2. cbn [parse_pattern]. rewrite app_nil_r. reflexivity.
Qed.

Lemma split_file_noslash s : split_file s = ([], s) -> ~ In 47 s.
Proof.
  induction s as [|c r IH]; [intros _ []|]. cbn. destruct (split_file r) as [d f] eqn:E. destruct d as [|x d]; [|discriminate].
  destruct (N.eqb_spec c 47) as [->|Hc]; [discriminate|]. intros [= ->]. intros [H|H]; [congruence|]. now apply IH.
Qed.
