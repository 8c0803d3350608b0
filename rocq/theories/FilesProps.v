(** Properties C61, C62 and C76-C79: file names. *)
From Verif Require Import GoBase GoBaseFacts FilesModel FilesSpec FilesProofs.
Local Open Scope N_scope.

(* ================= C61 ================= *)
(** A name reported by ls (for a sub directory that does not go up) belongs to a file found
    there, and the player opens exactly that file. *)
Theorem C61_ls_partial : forall w d sub n name,
  plain d -> ~ In (T "..") (split_slash sub) ->
  lstat w (join_path d sub) = Some n -> tree_ok n ->
  In name (list_all_files w d sub) ->
  exists ns m, entry n ns m /\ is_leaf m /\ song_path d name = under (join_path d sub) ns.
Proof.
  intros w d sub n name P U L Ok I.
  apply list_all_files_spec in I as (p & I & -> & NE); [|exact P|exact U|intros n' E; congruence].
  unfold walk_root in I. rewrite L in I. rewrite join_path_under in * by auto.
  set (es := filter kept (split_slash sub)) in *.
  pose proof (elems_ok sub U) as Oe. fold es in Oe.
  destruct (walk_sound n Ok (under d es) (plain_under _ _ P Oe) p false I) as (ns & m & E & O & -> & B & G1 & G2).
  exists ns, m. split; [exact E|]. split; [destruct m; cbn in B; try discriminate; [now left|now right|contradiction]|].
  rewrite under_app in NE. rewrite (join_path_under d sub P U). fold es. rewrite under_app. unfold song_path.
  assert (N : es ++ ns <> []) by (intro Z; rewrite Z, under_nil in NE; now apply NE, remove_prefix_self).
  rewrite remove_prefix_under by exact N. apply join_path_names; [exact P|exact N|apply Forall_app; auto].
Qed.

(** The same for queue, when the directory name has no pattern characters. *)
Theorem C61_queue_partial : forall w d pattern found name,
  plain d -> has_meta d = false -> is_file w d = false -> ~ In (T "..") (split_slash pattern) ->
  (forall dir names, dir_names w dir = Some names -> Forall name_ok names) ->
  list_glob_files w d pattern = Some found -> In name found ->
  exists p, is_file w p = true /\ song_path d name = p /\ exists ns, p = under d ns /\ Forall name_ok ns.
Proof.
  intros w d pattern found name P M F U Names. unfold list_glob_files.
  rewrite join_path_under by auto. set (es := filter kept (split_slash pattern)).
  pose proof (elems_ok pattern U) as Oe. fold es in Oe.
  destruct (glob _ w (under d es)) as [ms|] eqn:G; [|discriminate]. intros H I. injection H as H. rewrite <- H in I.
  apply in_map_iff in I as (p & <- & I). apply filter_In in I as [I Fp].
  destruct (glob_under w Names d P M _ _ _ Oe G p I) as (qs & -> & Oq & Lq).
  exists (under d qs). split; [exact Fp|].
  assert (N : qs <> []) by (intros ->; rewrite under_nil in Fp; congruence).
  split; [|eauto]. unfold song_path. rewrite remove_prefix_under by exact N. now apply join_path_names.
Qed.

Lemma walk_children_ext p1 p2 es : (forall n c, In (n, c) es -> join_path p1 n = join_path p2 n) ->
  walk_children p1 es = walk_children p2 es.
Proof.
  induction es as [|[n c] r IH]; intro H; [reflexivity|]. cbn [walk_children].
  rewrite (H n c) by now left. rewrite IH by (intros; apply (H _ c0); now right). reflexivity.
Qed.

Lemma clean_dot x : x <> [] -> is_rooted x = false -> clean (T "./" ++ x) = clean x.
Proof.
  intros N R. rewrite clean_nonnil by discriminate. rewrite clean_nonnil by exact N.
  rewrite R. change (is_rooted (T "./" ++ x)) with false.
  change (T "./" ++ x) with (T "." ++ T "/" ++ x). rewrite split_slash_app. reflexivity.
Qed.

(** With the music directory given as ./d every file is reported as d/..., and the player
    then looks for a file that is not the one found. *)
Theorem C61_dot_slash_refuted : forall w n0 ds es name,
  Forall name_ok (n0 :: ds) -> has_prefix n0 (T "\") = false ->
  let d := join (T "/") (n0 :: ds) in
  lstat w (T "./" ++ d) = Some (Dir (Some es)) -> tree_ok (Dir (Some es)) ->
  In name (list_all_files w (T "./" ++ d) []) ->
  exists ns m, entry (Dir (Some es)) ns m /\ is_leaf m /\ name = under d ns /\
    song_path (T "./" ++ d) name <> under d ns.
Proof.
  intros w n0 ds es name Ok B d L Tr I.
  assert (P : plain d) by (apply (PlainRel 0 (n0 :: ds)); [cbn; lia|exact Ok]).
  pose proof (plain_nonnil d P) as Nd.
  assert (R : is_rooted d = false) by (apply head_not_slash, ok_noslash2; exact Ok).
  assert (J : forall s, s <> [] -> join_path (T "./" ++ d) s = join_path d s).
  { intros s Hs. rewrite !join_path_clean by (auto; discriminate). rewrite <- app_assoc. apply clean_dot.
    - destruct d; [contradiction|discriminate].
    - now rewrite is_rooted_app. }
  unfold list_all_files, walker, walk_root in I. rewrite L, walk_dir in I.
  rewrite (walk_children_ext _ d) in I.
  2:{ intros n c Hin. apply J. inversion Tr as [| | | |es' Hn Ht]; subst. rewrite Forall_forall in Hn. now destruct (Hn _ Hin). }
  pose proof (walk_sound (Dir (Some es)) Tr d P) as S. rewrite walk_dir in S.
  destruct (walk_children d es) as [below st]. cbn [fst] in I, S.
  apply in_map_iff in I as ([q b] & <- & I). apply filter_In in I as [I K]. cbn [fst snd] in *.
  apply andb_prop in K as [K1 K2]. apply Bool.negb_true_iff in K2. subst b.
  apply in_map_iff in I as ([p b] & E & I). cbn [fst snd] in E. injection E as <- ->.
  destruct I as [[= ]|I].
  destruct (S p false (or_intror I)) as (ns & m & En & O & -> & Bm & G1 & G2).
  exists ns, m. split; [exact En|]. split; [destruct m; cbn in Bm; try discriminate; [now left|now right|contradiction]|].
  inversion Ok as [|? ? (A1 & A2 & A3 & A4) Ods]; subst.
  assert (Hd : exists c t, under d ns = c :: t /\ c <> 47 /\ c <> 92 /\ (c = 46 -> exists x u, t = x :: u /\ x <> 47)).
  { unfold d, under. destruct n0 as [|c n0]; [contradiction|].
    assert (Hc1 : c <> 47) by (intros ->; apply A2; now left).
    assert (Hc2 : c <> 92). { intros ->. cbn in B. discriminate. }
    destruct n0 as [|x n0].
    - exists c. destruct ds; (eexists; split; [reflexivity|]; split; [exact Hc1|]; split; [exact Hc2|]; intros ->; now apply A3 in A1 || (exfalso; now apply A3)).
    - exists c. assert (Hx : x <> 47) by (intros ->; apply A2; right; now left).
      destruct ds; (eexists; split; [reflexivity|]; split; [exact Hc1|]; split; [exact Hc2|]; intros _; eexists _, _; split; [reflexivity|exact Hx]). }
  destruct Hd as (c & t & Hp & H1 & H2 & H3).
  assert (NP : remove_dir_prefix (under d ns) (T "./" ++ d) = under d ns).
  { rewrite Hp. unfold remove_dir_prefix.
    replace (has_prefix (c :: t) (T "./" ++ d)) with false.
    - cbn. apply N.eqb_neq in H1, H2. now rewrite H1, H2.
    - symmetry. cbn. destruct (N.eqb_spec c 46) as [->|]; [|reflexivity].
      destruct (H3 eq_refl) as (x & u & -> & Hx). apply N.eqb_neq in Hx. now rewrite Hx. }
  change (46 :: 47 :: d) with (T "./" ++ d). rewrite NP. split; [reflexivity|].
  unfold song_path. rewrite J by (rewrite Hp; discriminate).
  assert (Ej : under d ns = join (T "/") ((n0 :: ds) ++ ns)).
  { unfold under, d. now rewrite join_under by discriminate. }
  rewrite Ej at 1. rewrite join_path_names; [|exact P|discriminate|apply Forall_app; auto].
  intro Z. apply (f_equal (@length _)) in Z. unfold under in Z. rewrite !app_length in Z.
  rewrite flat_map_app, app_length in Z. cbn [flat_map] in Z. rewrite app_length in Z. cbn in Z. lia.
Qed.

(** `ls ..` leaves the music directory and reports names that denote no file found. *)
Theorem C61_up_refuted : forall w d n, name_ok d -> name_ok n ->
  has_prefix n d = false -> has_prefix n (T "\") = false ->
  lstat w (T ".") = Some (Dir (Some [(n, File)])) ->
  list_all_files w d (T "..") = [n] /\ song_path d n <> n.
Proof.
  intros w d n Hd Hn Hp Hb L.
  assert (P : plain d) by (apply (PlainRel 0 [d]); [cbn; lia|repeat constructor; apply Hd]).
  assert (R : forall x, name_ok x -> is_rooted x = false).
  { intros x H. apply (head_not_slash [x]). constructor; [|constructor]. destruct H as (A & B & _). auto. }
  assert (J : join_path d (T "..") = T ".").
  { rewrite join_path_clean by now apply plain_nonnil.
    destruct Hd as (D1 & D2 & D3 & D4). rewrite clean_nonnil by (destruct d; [contradiction|discriminate]).
    rewrite is_rooted_app by exact D1. rewrite (R d) by (repeat split; auto).
    rewrite split_slash_app, split_slash_name by exact D2. cbn [app split_slash].
    apply text_eqb_neq in D1, D3, D4. cbn [clean_elems]. rewrite D1, D3, D4. cbn [orb].
    change (split_slash (T "..")) with [T ".."].
    change (clean_elems false [d] [T ".."]) with (if text_eqb d (T "..") then rev [T ".."; d] else []).
    rewrite D4. reflexivity. }
  assert (C : join_path (T ".") n = n).
  { rewrite join_path_clean by discriminate. change (T "." ++ T "/" ++ n) with (T "./" ++ n).
    destruct Hn as (N1 & N2 & N3 & N4). rewrite clean_dot; [|exact N1|apply R; repeat split; auto].
    rewrite clean_nonnil by exact N1. rewrite (R n) by (repeat split; auto).
    rewrite split_slash_name by exact N2. apply text_eqb_neq in N1, N3, N4.
    cbn [clean_elems]. rewrite N1, N3, N4. reflexivity. }
  assert (K : remove_dir_prefix n d = n).
  { unfold remove_dir_prefix. rewrite Hp, Hb. pose proof (R n Hn) as Rn. unfold is_rooted in Rn. now rewrite Rn. }
  split.
  - unfold list_all_files. change (T "..") with (46 :: [46]) at 1. cbv iota.
    change (46 :: [46]) with (T ".."). rewrite J. unfold walker, walk_root. rewrite L, walk_dir. cbn [walk_children walk].
    rewrite C. cbn [map app fst snd]. rewrite K. cbn [filter fst snd].
    rewrite Bool.andb_false_r. destruct Hn as (N1 & _). apply text_eqb_neq in N1. rewrite N1. reflexivity.
  - unfold song_path. rewrite join_path_name by auto. intro Z. apply (f_equal (@length _)) in Z.
    unfold under in Z. cbn [flat_map] in Z. rewrite !app_length in Z. cbn in Z. destruct Hd as (D1 & _). destruct d; [contradiction|]. cbn in Z. lia.
Qed.

(** With the music directory "." a hidden file loses its first character. *)
Theorem C61_hidden_refuted : forall w x, name_ok (46 :: x) -> has_prefix x (T "\") = false ->
  lstat w (T ".") = Some (Dir (Some [(46 :: x, File)])) ->
  list_all_files w (T ".") [] = [x].
Proof.
  intros w x Hn Hb L. destruct Hn as (N1 & N2 & N3 & N4).
  assert (R : is_rooted (46 :: x) = false) by reflexivity.
  assert (C : join_path (T ".") (46 :: x) = 46 :: x).
  { rewrite join_path_clean by discriminate. change (T "." ++ T "/" ++ 46 :: x) with (T "./" ++ (46 :: x)).
    rewrite clean_dot by (auto; discriminate).
    rewrite clean_nonnil by discriminate. rewrite R, split_slash_name by exact N2. apply text_eqb_neq in N3, N4.
    cbn [clean_elems]. rewrite N3, N4. reflexivity. }
  unfold list_all_files, walker, walk_root. rewrite L, walk_dir. cbn [walk_children walk]. rewrite C.
  cbn [map app fst snd].
  assert (Hx : x <> []) by (intros ->; now apply N3).
  assert (Hs : has_prefix x (T "/") = false).
  { destruct x as [|c x]; [contradiction|]. cbn. destruct (N.eqb_spec c 47) as [->|]; [|reflexivity]. exfalso. apply N2. right; now left. }
  assert (K : remove_dir_prefix (46 :: x) (T ".") = x).
  { unfold remove_dir_prefix. change (has_prefix (46 :: x) (T ".")) with (has_prefix x []). 
    replace (has_prefix x []) with true by (destruct x; reflexivity). cbv iota.
    change (skipn (length (T ".")) (46 :: x)) with x. now rewrite Hs, Hb. }
  rewrite K. change (remove_dir_prefix (T ".") (T ".")) with (@nil N). cbn [filter fst snd].
  apply text_eqb_neq in Hx. rewrite Hx. reflexivity.
Qed.

(** A file tree: audio/a.mp3, audio/sub/b.mp3, audio/sub/c.txt *)
Definition ex_tree : node :=
  Dir (Some [(T "a.mp3", File); (T "sub", Dir (Some [(T "b.mp3", File); (T "c.txt", File)]))]).
Definition ex_fs : fs :=
  {| lstat := fun p => if text_eqb p (T "audio") || text_eqb p (T "./audio") then Some ex_tree
                       else if text_eqb p (T "audio/sub") then Some (Dir (Some [(T "b.mp3", File); (T "c.txt", File)]))
                       else if text_eqb p (T "audio/a.mp3") then Some File else None;
     is_file := fun p => text_eqb p (T "audio/a.mp3") || text_eqb p (T "audio/sub/b.mp3");
     dir_names := fun p => if text_eqb p (T "audio") then Some [T "a.mp3"; T "sub"]
                           else if text_eqb p (T "audio/sub") then Some [T "b.mp3"; T "c.txt"] else None |}.
Lemma ok_literal n : forallb (fun c => negb (c =? 47)) n = true -> n <> [] -> n <> T "." -> n <> T ".." -> name_ok n.
Proof.
  intros H A B C. repeat split; auto. intro I. rewrite forallb_forall in H. specialize (H _ I). discriminate.
Qed.
Lemma ex_tree_ok : tree_ok ex_tree.
Proof. repeat (constructor; cbn [fst snd]); try (apply ok_literal; [reflexivity|discriminate..]); try discriminate. Qed.
Example C61_nonvacuous :
  plain (T "audio") /\ plain (T "/srv/music") /\ plain (T "../music") /\ tree_ok ex_tree /\
  list_all_files ex_fs (T "audio") [] = [T "a.mp3"; T "sub/b.mp3"; T "sub/c.txt"] /\
  list_glob_files ex_fs (T "audio") (T "*/*.mp3") = Some [T "sub/b.mp3"] /\
  list_all_files ex_fs (T "./audio") [] = [T "audio/a.mp3"; T "audio/sub/b.mp3"; T "audio/sub/c.txt"].
Proof.
  split; [apply (PlainRel 0 [T "audio"]); [cbn; lia|repeat constructor; try (apply ok_literal; [reflexivity|discriminate..])]; cbn; intuition discriminate|].
  split; [apply (PlainAbs [T "srv"; T "music"]); [discriminate|repeat constructor]; cbn; intuition discriminate|].
  split; [apply (PlainRel 1 [T "music"]); [cbn; lia|repeat constructor]; cbn; intuition discriminate|].
  split; [exact ex_tree_ok|]. repeat split; vm_compute; reflexivity.
Qed.

(* ================= C62 ================= *)
Theorem C62_songs : forall l l', songs_of l l' <-> filter_songs l = l'.
Proof.
  intros l l'. split.
  - induction 1 as [|s l l' _ IH|f l l' H _ IH]; [reflexivity| |]; unfold filter_songs in *; cbn [filter].
    + replace (has_suffix (s ++ T ".mp3") (T ".mp3")) with true by (symmetry; apply has_suffix_spec; eauto). now rewrite IH.
    + destruct (has_suffix f (T ".mp3")) eqn:E; [|exact IH]. apply has_suffix_spec in E as [r E]. now destruct (H r).
  - intros <-. induction l as [|f l IH]; [constructor|]. unfold filter_songs in *. cbn [filter].
    destruct (has_suffix f (T ".mp3")) eqn:E.
    + apply has_suffix_spec in E as [r ->]. now constructor.
    + constructor; [|exact IH]. intros s ->.
      assert (X : has_suffix (s ++ T ".mp3") (T ".mp3") = true) by (apply has_suffix_spec; eauto). congruence.
Qed.
Example C62_nonvacuous : filter_songs [T "a.mp3"; T "b.txt"; T ".mp3"; T "c.mp3.txt"; T "d.MP3"; T "sub/e.mp3"] = [T "a.mp3"; T ".mp3"; T "sub/e.mp3"].
Proof. reflexivity. Qed.

(* ================= C76 ================= *)
(** If everything can be read, ls reports every file below the directory ... *)
Theorem C76_ls_complete_partial : forall w d sub n ns m,
  plain d -> ~ In (T "..") (split_slash sub) ->
  lstat w (join_path d sub) = Some n -> tree_ok n -> readable n ->
  entry n ns m -> is_leaf m -> under (join_path d sub) ns <> d ->
  exists name, In name (list_all_files w d sub) /\ song_path d name = under (join_path d sub) ns.
Proof.
  intros w d sub n ns m P U L Ok Rd E Lf NE.
  exists (remove_dir_prefix (under (join_path d sub) ns) d).
  rewrite join_path_under in * by auto.
  set (es := filter kept (split_slash sub)) in *.
  pose proof (elems_ok sub U) as Oe. fold es in Oe.
  pose proof (entry_ok n Ok ns m E) as On.
  rewrite under_app in *.
  assert (N : es ++ ns <> []) by (intro Z; rewrite Z, under_nil in NE; now apply NE).
  assert (O : Forall name_ok (es ++ ns)) by (apply Forall_app; auto).
  split.
  - apply list_all_files_spec; [exact P|exact U|intros n' E'; rewrite join_path_under in E' by auto; fold es in E'; congruence|].
    exists (under d (es ++ ns)). split; [|split; [reflexivity|]].
    + unfold walk_root. rewrite join_path_under by auto. fold es. rewrite L.
      destruct (walk_complete n Ok Rd (under d es) (plain_under _ _ P Oe)) as [_ C]. specialize (C ns m E).
      rewrite under_app in C. destruct Lf as [->| ->]; exact C.
    + rewrite remove_prefix_under by exact N. apply join_nonnil; [exact N|].
      eapply Forall_impl; [|exact O]. intros ? (A & _); exact A.
  - rewrite remove_prefix_under by exact N. unfold song_path. now apply join_path_names.
Qed.

(** ... and no name twice. *)
Theorem C76_ls_once : forall w d sub n,
  plain d -> ~ In (T "..") (split_slash sub) ->
  lstat w (join_path d sub) = Some n -> tree_ok n -> tree_distinct n ->
  NoDup (list_all_files w d sub).
Proof.
  intros w d sub n P U L Ok Di. unfold list_all_files.
  assert (E : match sub with [] => d | _ => join_path d sub end = join_path d sub).
  { destruct sub as [|c r]; [|reflexivity]. rewrite join_path_under by (auto; intros [H|[]]; discriminate).
    cbn. symmetry. apply under_nil. }
  rewrite E. unfold walker, walk_root. rewrite L. rewrite join_path_under by auto.
  set (es := filter kept (split_slash sub)).
  pose proof (elems_ok sub U) as Oe. fold es in Oe.
  assert (Pe : plain (under d es)) by now apply plain_under.
  pose proof (walk_distinct n Ok Di (under d es) Pe) as ND.
  pose proof (walk_sound n Ok (under d es) Pe) as S.
  assert (S' : forall p b, In (p, b) (fst (walk (under d es) n)) -> exists ns, p = under d ns /\ Forall name_ok ns).
  { intros p b I. destruct (S p b I) as (ns & m & _ & O & -> & _). exists (es ++ ns). rewrite under_app. split; [reflexivity|apply Forall_app; auto]. }
  clear S. induction (fst (walk (under d es) n)) as [|[p b] l IH]; [constructor|].
  cbn [map fst] in ND. inversion ND as [|? ? H1 H2]; subst. cbn [map filter fst snd].
  assert (IH' := IH H2 (fun p b I => S' p b (or_intror I))). clear IH.
  destruct (negb (text_eqb (remove_dir_prefix p d) []) && negb b)%bool eqn:K; [|exact IH'].
  cbn [map fst]. constructor; [|exact IH']. intro I. apply H1.
  apply in_map_iff in I as ([q b'] & Q & I). cbn in Q. subst q. apply filter_In in I as [I _].
  apply in_map_iff in I as ([q b''] & Q & I). cbn in Q. injection Q as Q1 Q2.
  apply andb_prop in K as [K _]. apply Bool.negb_true_iff, text_eqb_neq in K.
  destruct (S' p b (or_introl eq_refl)) as (ns & -> & O1). destruct (S' q b'' (or_intror I)) as (ms & -> & O2).
  assert (N1 : ns <> []) by (intros ->; rewrite under_nil in K; now apply K, remove_prefix_self).
  assert (N2 : ms <> []) by (intros ->; rewrite under_nil, remove_prefix_self in Q1; now apply K).
  rewrite !remove_prefix_under in Q1 by auto. apply join_slash_inj in Q1; auto using ok_no_slash. subst ms.
  apply in_map_iff. exists (under d ns, b''). auto.
Qed.

(** The first entry that cannot be read ends the listing: it is the same as if nothing came
    after that entry. *)
Theorem C76_unreadable_refuted : forall w w' d before name bad after,
  d <> [] -> bad = Dir None \/ bad = Gone ->
  lstat w d = Some (Dir (Some (before ++ (name, bad) :: after))) ->
  lstat w' d = Some (Dir (Some before)) ->
  list_all_files w d [] = list_all_files w' d [].
Proof.
  intros w w' d before name bad after _ B L L'. unfold list_all_files, walker, walk_root. rewrite L, L'.
  f_equal. f_equal. f_equal. rewrite !walk_dir.
  assert (G : fst (walk_children d (before ++ (name, bad) :: after)) = fst (walk_children d before)).
  { clear L L'. induction before as [|[n c] l IH].
    - cbn. destruct B as [->| ->]; reflexivity.
    - cbn [app walk_children]. destruct (walk (join_path d n) c) as [v st]. destruct st; [reflexivity|].
      destruct (walk_children d (l ++ _)); destruct (walk_children d l). cbn [fst] in *. now subst. }
  destruct (walk_children d (before ++ _)); destruct (walk_children d before). cbn [fst] in *. now subst.
Qed.

Example C76_nonvacuous :
  readable ex_tree /\ tree_distinct ex_tree /\ entry ex_tree [T "sub"; T "b.mp3"] File /\
  list_all_files ex_fs (T "audio") (T "sub//") = [T "sub/b.mp3"; T "sub/c.txt"] /\
  let w t := {| lstat := fun _ => Some t; is_file := fun _ => true; dir_names := fun _ => None |} in
  list_all_files (w (Dir (Some [(T "a.mp3", File); (T "lost+found", Dir None); (T "z.mp3", File)]))) (T "audio") [] = [T "a.mp3"].
Proof.
  split; [repeat constructor|]. split; [repeat (constructor; cbn; try (intuition discriminate))|].
  split; [econstructor; [right; left; reflexivity|]; econstructor; [left; reflexivity|constructor]|].
  split; vm_compute; reflexivity.
Qed.

(* ================= C77 ================= *)
(** A file offered by the completion of queue and handed to queue is what gets queued, if its
    name contains no pattern character. *)
Theorem C77_offered_is_queued_partial : forall w d n prefix ns,
  plain d -> has_meta d = false -> describes w d n -> tree_ok n -> entry n ns File -> ns <> [] ->
  In (join (T "/") ns) (queue_options w d prefix 0) ->
  has_meta (join (T "/") ns) = false ->
  option_map filter_songs (list_glob_files w d (join (T "/") ns)) = Some [join (T "/") ns].
Proof.
  intros w d n prefix ns P M D Ok E NE Q H.
  pose proof (entry_ok n Ok ns File E) as On.
  destruct (D ns File E) as (L & F & _).
  unfold list_glob_files. rewrite join_path_names by auto.
  assert (HM : has_meta (under d ns) = false).
  { unfold under. rewrite has_meta_app, M, flat_map_join by exact NE. rewrite has_meta_app. exact H. }
  rewrite glob_no_meta by exact HM. rewrite L by discriminate. cbn [filter]. rewrite F by reflexivity.
  cbn [map option_map]. rewrite remove_prefix_under by exact NE. f_equal.
  unfold queue_options in Q. cbn [negb Z.eqb] in Q. apply filter_In in Q as [Q _].
  unfold filter_songs in Q. apply filter_In in Q as [_ Q]. unfold filter_songs. cbn [filter]. now rewrite Q.
Qed.

(** A file name with a bracketed character is offered, but queue never queues that file; it
    takes the pattern for the name without the brackets. *)
Theorem C77_brackets_refuted : forall w d es pre c post prefix,
  plain d -> has_meta d = false ->
  let n := Dir (Some es) in
  describes w d n -> tree_ok n -> readable n ->
  has_meta pre = false -> has_meta post = false -> c <> 93 -> c <> 92 -> c <> 45 -> c <> 94 ->
  let name := pre ++ T "[" ++ [c] ++ T "]" ++ post ++ T ".mp3" in
  In (name, File) es -> has_prefix name prefix = true ->
  In name (queue_options w d prefix 0) /\
  exists found, list_glob_files w d name = Some found /\ ~ In name found /\
    forall x, In x found -> x = pre ++ [c] ++ post ++ T ".mp3".
Proof.
  intros w d es pre c post prefix P M n D Ok Rd Hpre Hpost C1 C2 C3 C4 name I Hp.
  assert (E : entry n [name] File) by (econstructor; [exact I|constructor]).
  pose proof (entry_ok n Ok _ _ E) as On. inversion On as [|? ? Hn _]; subst.
  assert (Jn : join_path d name = under d [name]) by now apply join_path_name.
  assert (Jd : join_path d [] = d) by (rewrite join_path_under by (auto; intros [X|[]]; discriminate); apply under_nil).
  destruct (D [] n (EntrySelf n)) as (Ld & _ & Dd). rewrite under_nil in Ld, Dd.
  specialize (Ld ltac:(discriminate)). destruct (Dd es eq_refl) as [_ Names].
  split.
  - unfold queue_options. cbn [negb Z.eqb]. apply filter_In. split; [|exact Hp].
    unfold filter_songs. apply filter_In. split.
    + apply list_all_files_spec; [exact P|intros [X|[]]; discriminate|rewrite Jd; congruence|].
      exists (under d [name]). rewrite Jd. split; [|split].
      * unfold walk_root. rewrite Ld. destruct (walk_complete n Ok Rd d P) as [_ C]. exact (C _ _ E).
      * now rewrite remove_prefix_under by discriminate.
      * destruct Hn as (A & _). exact A.
    + apply has_suffix_spec. exists (pre ++ T "[" ++ [c] ++ T "]" ++ post). unfold name. now rewrite <- !app_assoc.
  - unfold list_glob_files. rewrite Jn.
    assert (HM : has_meta (under d [name]) = true).
    { unfold under. cbn [flat_map]. rewrite app_nil_r, !has_meta_app. unfold name. rewrite !has_meta_app.
      change (has_meta (T "[")) with true. rewrite !Bool.orb_true_r. reflexivity. }
    assert (Hs : ~ In 47 name) by (destruct Hn as (_ & A & _); exact A).
    assert (PP : parse_pattern (length name) name = Some (map TLit pre ++ TClass false [(c, c)] :: map TLit (post ++ T ".mp3"))).
    { apply parse_bracket; auto. rewrite has_meta_app, Hpost. reflexivity. }
    assert (G : glob (length (under d [name])) w (under d [name]) =
      Some (map (join_path d) (filter (matches (map TLit pre ++ TClass false [(c, c)] :: map TLit (post ++ T ".mp3"))) (map fst es)))).
    { assert (Hu : under d [name] = d ++ T "/" ++ name) by (unfold under; cbn [flat_map]; now rewrite app_nil_r).
      rewrite Hu in *. rewrite (glob_last _ w d name) by (auto; now apply plain_nonnil).
      unfold glob_in. rewrite Names. destruct es as [|e es']; [destruct I|].
      cbn [map]. rewrite PP. reflexivity. }
    rewrite G. eexists. split; [reflexivity|].
    assert (X : forall x, In x (map (fun m => remove_dir_prefix m d) (filter (is_file w)
        (map (join_path d) (filter (matches (map TLit pre ++ TClass false [(c, c)] :: map TLit (post ++ T ".mp3"))) (map fst es))))) ->
        x = pre ++ [c] ++ post ++ T ".mp3").
    { intros x Ix. apply in_map_iff in Ix as (q & <- & Iq). apply filter_In in Iq as [Iq _].
      apply in_map_iff in Iq as (y & <- & Iy). apply filter_In in Iy as [Iy My].
      assert (Hy : name_ok y).
      { apply in_map_iff in Iy as ([y' c'] & <- & Iy). inversion Ok as [| | | |es' A B]; subst.
        rewrite Forall_forall in A. exact (A _ Iy). }
      rewrite join_path_name by auto. rewrite remove_prefix_under by discriminate. cbn [join].
      apply matches_lits in My as (y1 & -> & My). cbn [matches] in My. destruct y1 as [|z y1]; [discriminate|].
      apply andb_prop in My as [Mz My]. rewrite <- (app_nil_r (map TLit _)) in My.
      apply matches_lits in My as (y2 & -> & My). destruct y2; [|discriminate].
      rewrite app_nil_r. cbn in Mz. rewrite Bool.orb_false_r in Mz.
      destruct (c <=? z) eqn:Z1, (z <=? c) eqn:Z2; cbn in Mz; try discriminate.
      apply N.leb_le in Z1, Z2. replace z with c by lia. reflexivity. }
    split; [|exact X]. intro In'. apply X in In'. apply (f_equal (@length _)) in In'. unfold name in In'.
    rewrite !app_length in In'. cbn in In'. lia.
Qed.

Example C77_nonvacuous :
  let t := Dir (Some [(T "a[1].mp3", File); (T "a1.mp3", File)]) in
  let w := {| lstat := fun p => if text_eqb p (T "audio") then Some t else Some File;
              is_file := fun p => negb (text_eqb p (T "audio"));
              dir_names := fun p => if text_eqb p (T "audio") then Some [T "a[1].mp3"; T "a1.mp3"] else None |} in
  describes w (T "audio") t /\
  queue_options w (T "audio") (T "a") 0 = [T "a[1].mp3"; T "a1.mp3"] /\
  list_glob_files w (T "audio") (T "a[1].mp3") = Some [T "a1.mp3"] /\
  list_glob_files w (T "audio") (T "a1.mp3") = Some [T "a1.mp3"].
Proof.
  cbv zeta. split; [|repeat split; vm_compute; reflexivity].
  intros ns m E. inversion E as [|es name c ms m' I E']; subst.
  - repeat split; try discriminate; injection H as <-; reflexivity.
  - destruct I as [[= <- <-]|[[= <- <-]|[]]]; inversion E'; subst; (split; [reflexivity|split; [reflexivity|intros ? [=]]]).
Qed.

(* ================= C78 ================= *)
(** The completion of ls offers exactly the directories whose name continues the typed text
    up to the next separator, with a separator appended ... *)
Theorem C78_ls_completion : forall w d n prefix o,
  plain d -> lstat w d = Some n -> tree_ok n -> readable n ->
  (In o (ls_options w d prefix 0) <->
   exists ns es r, ns <> [] /\ entry n ns (Dir (Some es)) /\ join (T "/") ns = prefix ++ r /\ ~ In 47 r /\
     o = join (T "/") ns ++ T "/").
Proof.
  intros w d n prefix o P L Ok Rd. unfold ls_options. cbn [negb Z.eqb].
  pose proof (walk_sound n Ok d P) as S. destruct (walk_complete n Ok Rd d P) as [_ C].
  rewrite in_flat_map. split.
  - intros (sub & I & Io). unfold list_all_sub_dirs, walker, walk_root in I. rewrite L in I.
    apply in_map_iff in I as ([q b] & <- & I). apply filter_In in I as [I K]. cbn [fst snd] in *.
    apply in_map_iff in I as ([p b'] & X & I). cbn in X. injection X as <- <-.
    apply andb_prop in K as [K1 ->]. apply Bool.negb_true_iff, text_eqb_neq in K1.
    destruct (S _ _ I) as (ns & m & E & O & -> & B & G1 & G2).
    assert (N : ns <> []) by (intros ->; rewrite under_nil in K1; now apply K1, remove_prefix_self).
    rewrite remove_prefix_under in Io by exact N.
    destruct m as [| |[es|]|]; try discriminate; [|contradiction].
    destruct (has_prefix (join (T "/") ns) prefix) eqn:Hp; [|destruct Io].
    apply has_prefix_spec in Hp as [r Hr].
    exists ns, es, r. rewrite Hr in *. rewrite skipn_app, skipn_all, Nat.sub_diag in Io. cbn [app skipn] in Io.
    destruct (split_file r) as [d' f] eqn:Sf.
    destruct (text_eqb d' [] && text_eqb f r)%bool eqn:T; [|destruct Io].
    apply andb_prop in T as [T1 T2]. apply text_eqb_eq in T1, T2. subst d' f.
    destruct Io as [<-|[]]. split; [exact N|]. split; [exact E|]. split; [reflexivity|]. split; [|reflexivity].
    now apply split_file_noslash.
  - intros (ns & es & r & N & E & Hr & Hs & ->). exists (join (T "/") ns). split.
    + unfold list_all_sub_dirs, walker, walk_root. rewrite L. apply in_map_iff. exists (join (T "/") ns, true).
      split; [reflexivity|]. apply filter_In. split.
      * apply in_map_iff. exists (under d ns, true). split; [cbn; now rewrite remove_prefix_under|]. exact (C _ _ E).
      * cbn [fst snd]. replace (text_eqb (join (T "/") ns) []) with false; [reflexivity|]. symmetry. apply text_eqb_neq.
        apply join_nonnil; [exact N|]. eapply Forall_impl; [|exact (entry_ok n Ok _ _ E)]. intros ? (A & _); exact A.
    + rewrite Hr. replace (has_prefix (prefix ++ r) prefix) with true by (symmetry; apply has_prefix_spec; eauto).
      rewrite skipn_app, skipn_all, Nat.sub_diag. cbn [app skipn]. rewrite split_file_name by exact Hs.
      rewrite !text_eqb_refl. cbn; now left.
Qed.

(** ... nothing for a later argument, and ls of what was offered lists that directory. *)
Theorem C78_later_arguments : forall w d prefix arg, arg <> 0%Z ->
  ls_options w d prefix arg = [] /\ queue_options w d prefix arg = [].
Proof.
  intros w d prefix arg H. unfold ls_options, queue_options. apply Z.eqb_neq in H. now rewrite H.
Qed.
Theorem C78_ls_offered : forall w d n ns es name,
  plain d -> describes w d n -> tree_ok n -> ns <> [] -> entry n ns (Dir (Some es)) ->
  In name (list_all_files w d (join (T "/") ns ++ T "/")) ->
  exists ms m, entry (Dir (Some es)) ms m /\ is_leaf m /\ name = join (T "/") (ns ++ ms).
Proof.
  intros w d n ns es name P D Ok N E I.
  pose proof (entry_ok n Ok _ _ E) as On.
  assert (Hs : split_slash (join (T "/") ns ++ T "/") = ns ++ [[]]).
  { change (join (T "/") ns ++ T "/") with (join (T "/") ns ++ T "/" ++ []).
    rewrite split_slash_app, split_slash_join by auto using ok_no_slash. reflexivity. }
  assert (U : ~ In (T "..") (split_slash (join (T "/") ns ++ T "/"))).
  { rewrite Hs. intro X. apply in_app_or in X as [X|[X|[]]]; [now apply ok_no_up in X|discriminate]. }
  assert (J : join_path d (join (T "/") ns ++ T "/") = under d ns).
  { rewrite join_path_under by auto. rewrite Hs, filter_app, filter_kept by exact On. cbn. now rewrite app_nil_r. }
  destruct (D ns _ E) as (L & _). specialize (L ltac:(discriminate)).
  pose proof (entry_tree_ok n Ok _ _ E) as Oe.
  apply list_all_files_spec in I as (p & I & -> & NE); [|exact P|exact U|rewrite J, L; intros n' [= <-]; exact Oe].
  rewrite J in I. unfold walk_root in I. rewrite L in I.
  destruct (walk_sound _ Oe (under d ns) (plain_under _ _ P On) p false I) as (ms & m & E' & O & -> & B & G1 & G2).
  exists ms, m. split; [exact E'|]. split; [destruct m; cbn in B; try discriminate; [now left|now right|contradiction]|].
  rewrite under_app. apply remove_prefix_under. destruct ns; [contradiction|discriminate].
Qed.
Example C78_nonvacuous : ls_options ex_fs (T "audio") (T "s") 0 = [T "sub/"] /\ ls_options ex_fs (T "audio") (T "sub/") 0 = [] /\
  entry ex_tree [T "sub"] (Dir (Some [(T "b.mp3", File); (T "c.txt", File)])).
Proof. repeat split; [econstructor; [right; left; reflexivity|constructor]]. Qed.

(* ================= C79 ================= *)
(** The lyrics and the tags of a found song are read from the file next to it and from the
    song itself, and different songs never share a lyrics file. *)
Theorem C79_beside_the_song : forall d ns, plain d -> ns <> [] -> Forall name_ok ns ->
  let name := join (T "/") ns in
  song_path d name = under d ns /\ metadata_path d name = under d ns /\ lyrics_path d name = under d ns ++ T ".json".
Proof.
  intros d ns P N O name. unfold song_path, metadata_path, lyrics_path.
  split; [now apply join_path_names|]. split; [now apply join_path_names|].
  destruct (exists_last N) as (ms & l & ->). unfold name.
  assert (Ol : name_ok (l ++ T ".json")).
  { apply Forall_app in O as [_ O]. inversion O as [|? ? (A & B & C & D) _]; subst.
    repeat split.
    - destruct l; discriminate.
    - intro X. apply in_app_or in X as [X|X]; [now apply B|]. cbn in X. intuition discriminate.
    - intro X. apply (f_equal (@length _)) in X. rewrite app_length in X. cbn in X. lia.
    - intro X. apply (f_equal (@length _)) in X. rewrite app_length in X. cbn in X. lia. }
  assert (J : join (T "/") (ms ++ [l]) ++ T ".json" = join (T "/") (ms ++ [l ++ T ".json"])).
  { destruct ms as [|x ms]; [reflexivity|]. rewrite !join_under by discriminate. cbn [flat_map].
    now rewrite !app_nil_r, <- !app_assoc. }
  rewrite J, join_path_names; [|exact P|intro X; destruct ms; discriminate|apply Forall_app; apply Forall_app in O as [O _]; auto].
  unfold under. rewrite !flat_map_app. cbn [flat_map]. now rewrite !app_nil_r, <- !app_assoc.
Qed.
Theorem C79_no_sharing : forall d ns ms, plain d -> ns <> [] -> ms <> [] -> Forall name_ok ns -> Forall name_ok ms ->
  lyrics_path d (join (T "/") ns) = lyrics_path d (join (T "/") ms) -> ns = ms.
Proof.
  intros d ns ms P N1 N2 O1 O2 H.
  destruct (C79_beside_the_song d ns P N1 O1) as (_ & _ & L1). destruct (C79_beside_the_song d ms P N2 O2) as (_ & _ & L2).
  rewrite L1, L2 in H. apply app_inv_tail in H. unfold under in H. apply app_inv_head in H.
  rewrite !flat_map_join in H by auto. apply app_inv_head in H. apply join_slash_inj in H; auto using ok_no_slash.
Qed.
Example C79_nonvacuous : lyrics_path (T "audio") (T "sub/b.mp3") = T "audio/sub/b.mp3.json".
Proof. reflexivity. Qed.

Print Assumptions C61_ls_partial.
Print Assumptions C61_queue_partial.
Print Assumptions C61_dot_slash_refuted.
Print Assumptions C61_up_refuted.
Print Assumptions C61_hidden_refuted.
Print Assumptions C62_songs.
Print Assumptions C76_ls_complete_partial.
Print Assumptions C76_ls_once.
Print Assumptions C76_unreadable_refuted.
Print Assumptions C77_offered_is_queued_partial.
Print Assumptions C77_brackets_refuted.
Print Assumptions C78_ls_completion.
Print Assumptions C78_later_arguments.
Print Assumptions C78_ls_offered.
Print Assumptions C79_beside_the_song.
Print Assumptions C79_no_sharing.
