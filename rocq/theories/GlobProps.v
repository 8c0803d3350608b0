(** C98: wildcards in queue. *)
From Verif Require Import GoBase GoBaseFacts GoFmt FilesModel FilesSpec FilesProofs FilesProps PlaylistModel CommandsModel CommandsProps GlobSpec GlobProofs.
Local Open Scope N_scope.

(** A pattern, written in any way, finds exactly the files whose path fits it element by
    element, in the order of the directory listings ... *)
Theorem C98_in_order : forall w d n pss ts l,
  plain d -> has_meta d = false -> tree_ok n -> tree_distinct n -> exactly w d n ->
  ts <> [] -> Forall2 written pss ts -> Forall name_ok ts -> expansion pss n l ->
  list_glob_files w d (join (T "/") ts) =
  Some (map (fun q => join (T "/") (fst q)) (filter (fun q => is_file w (under d (fst q))) l)).
Proof.
  intros w d n pss ts l P M Ok Di X N W On H. apply expand_expansion in H; [|exact Ok]. subst l.
  apply list_glob_expand; auto.
Qed.
Print Assumptions C98_in_order.

(** ... which always exists ... *)
Theorem C98_expansion_exists : forall pss n, tree_ok n -> exists l, expansion pss n l.
Proof. intros pss n Ok. eexists. apply expand_expansion; [exact Ok|reflexivity]. Qed.
Print Assumptions C98_expansion_exists.

(** ... each file once and no other. *)
Theorem C98_exactly : forall w d n pss ts,
  plain d -> has_meta d = false -> tree_ok n -> tree_distinct n -> exactly w d n ->
  ts <> [] -> Forall2 written pss ts -> Forall name_ok ts ->
  exists found, list_glob_files w d (join (T "/") ts) = Some found /\ NoDup found /\
    forall name, In name found <->
      exists ns m, entry n ns m /\ Forall2 fits pss ns /\ is_file w (under d ns) = true /\ name = join (T "/") ns.
Proof.
  intros w d n pss ts P M Ok Di X N W On. destruct (C98_expansion_exists pss n Ok) as [l Hl].
  eexists. split; [eapply C98_in_order; eauto|]. split.
  - assert (D : NoDup (map fst l)).
    { apply expand_expansion in Hl; [|exact Ok]. subst l. clear - Ok Di. revert n Ok Di.
      induction pss as [|p pss IH]; intros n Ok Di; [repeat constructor; intros []|]. cbn [map expand].
      destruct n as [| |[es|]|]; try constructor.
      inversion Ok as [| | | |es' Hn Ht]; subst es'. inversion Di as [| | | |es' Hd Hr]; subst es'. clear Ok Di.
      induction es as [|[name k] es IHe]; [constructor|].
      inversion Ht as [|? ? T1 T2]; subst. inversion Hr as [|? ? R1 R2]; subst. inversion Hn as [|? ? N1 N2]; subst.
      cbn [map fst snd] in *. inversion Hd as [|? ? D1 D2]; subst.
      cbn [expand_children]. rewrite map_app. apply NoDup_app_intro.
      - destruct (matches (map term_of p) name); [|constructor]. rewrite map_map. cbn [fst].
        specialize (IH k T1 R1). revert IH. generalize (expand (map (map term_of) pss) k). intros l0 H0.
        induction l0 as [|q l0 IHl]; [constructor|]. cbn [map] in *. inversion H0 as [|? ? A1 A2]; subst. constructor; [|apply IHl; auto].
        intros I. apply in_map_iff in I as (q' & [= E] & I). apply A1. rewrite <- E. apply in_map. exact I.
      - apply IHe; auto.
      - intros x I1 I2. destruct (matches (map term_of p) name); [|destruct I1]. rewrite map_map in I1. cbn [fst] in I1.
        apply in_map_iff in I1 as (q & <- & _). apply D1. clear - I2. induction es as [|[a b] es IHe]; [destruct I2|].
        cbn [expand_children map] in *. rewrite map_app in I2. apply in_app_or in I2 as [I|I]; [|right; auto].
        destruct (matches (map term_of p) a); [|destruct I]. rewrite map_map in I. apply in_map_iff in I as (q' & [= E _] & _). left. exact E. }
    assert (On' : forall q, In q l -> fst q <> [] /\ Forall name_ok (fst q)).
    { intros [ns m] I. apply (expansion_in _ _ _ Hl Ok) in I as [E F]. cbn. split; [|eapply entry_ok; eauto].
      intros ->. inversion F; subst. inversion W; subst. contradiction. }
    clear - D On'. induction l as [|q l IH]; [constructor|]. cbn [map filter] in *. inversion D as [|? ? D1 D2]; subst.
    assert (On2 : forall q, In q l -> fst q <> [] /\ Forall name_ok (fst q)) by (intros q' I; apply On'; right; exact I).
    specialize (IH D2 On2). destruct (is_file w (under d (fst q))); cbn [map]; [|exact IH]. constructor; [|exact IH].
    intros I. apply in_map_iff in I as (q' & E & I). apply filter_In in I as [I _]. apply D1.
    destruct (On' q (or_introl eq_refl)) as [A B]. destruct (On2 q' I) as [A' B'].
    apply join_slash_inj in E; auto using ok_no_slash. rewrite <- E. apply in_map. exact I.
  - intros name. rewrite in_map_iff. split.
    + intros ([ns m] & <- & I). apply filter_In in I as [I F]. apply (expansion_in _ _ _ Hl Ok) in I as [E Fs]. exists ns, m. auto.
    + intros (ns & m & E & Fs & F & ->). exists (ns, m). split; [reflexivity|]. apply filter_In. split; [|exact F].
      apply (expansion_in _ _ _ Hl Ok). auto.
Qed.
Print Assumptions C98_exactly.

(** The command: the .mp3 files among them are appended to the playlist in that order, and
    the playlist is unchanged if there is none. *)
Theorem C98_queue : forall w d n pss ts l st err,
  plain d -> has_meta d = false -> tree_ok n -> tree_distinct n -> exactly w d n ->
  ts <> [] -> Forall2 written pss ts -> Forall name_ok ts -> expansion pss n l ->
  let glob p := match list_glob_files w d p with Some found => inr found | None => inl (err p) end in
  exists songs reply,
    songs_of (map (fun q => join (T "/") (fst q)) (filter (fun q => is_file w (under d (fst q))) l)) songs /\
    queue_exec glob [join (T "/") ts] st = Ok (reply, true, with_songs st (st_songs st ++ songs)).
Proof.
  intros w d n pss ts l st err P M Ok Di X N W On H glob.
  pose proof (C98_in_order w d n pss ts l P M Ok Di X N W On H) as E.
  set (found := map _ (filter _ l)) in *. exists (FilesModel.filter_songs found).
  assert (G : glob (join (T "/") ts) = inr found) by (unfold glob; rewrite E; reflexivity).
  destruct (filter mp3 found) as [|f fs] eqn:F.
  - exists (T "no song matches the glob pattern " ++ join (T "/") ts). split; [apply C62_songs; reflexivity|].
    assert (Z : FilesModel.filter_songs found = []) by exact F. rewrite Z, app_nil_r.
    unfold queue_exec. cbn [parse_string_param nth_error]. rewrite G. change (CommandsModel.filter_songs found) with (filter mp3 found). rewrite F.
    destruct st; reflexivity.
  - eexists. split; [apply C62_songs; reflexivity|]. rewrite (C40_appended glob _ [] found st G); [reflexivity|rewrite F; discriminate|left; reflexivity].
Qed.
Print Assumptions C98_queue.

Definition ex_tree : node := Dir (Some [(T "a", Dir (Some [(T "1.mp3", File); (T "2.mp3", File); (T "x.txt", File)]));
  (T "b", Dir (Some [(T "1.mp3", File)])); (T "c.mp3", File)]).
Example C98_nonvacuous :
  exactly (fs_of (T "audio") ex_tree) (T "audio") ex_tree /\ plain (T "audio") /\
  written [AnyText] (T "*") /\ written [NoneOf [(50, 57)]; AnyText; Char 51] (T "[^2-9]*\3") /\
  list_glob_files (fs_of (T "audio") ex_tree) (T "audio") (T "*/[^2-9]*3") = Some [T "a/1.mp3"; T "b/1.mp3"] /\
  list_glob_files (fs_of (T "audio") ex_tree) (T "audio") (T "a/?.*") = Some [T "a/1.mp3"; T "a/2.mp3"; T "a/x.txt"].
Proof.
  assert (NK : forall s, (match s with [] => false | _ => true end && negb (existsb (N.eqb 47) s) && negb (text_eqb s (T ".")) && negb (text_eqb s (T "..")))%bool = true -> name_ok s).
  { intros s H. repeat (apply andb_prop in H as [H ?]). repeat split.
    - intros ->. discriminate.
    - intros I. apply Bool.negb_true_iff in H2. assert (existsb (N.eqb 47) s = true); [|congruence]. apply existsb_exists. exists 47. split; [exact I|reflexivity].
    - apply Bool.negb_true_iff in H1. apply text_eqb_neq. exact H1.
    - apply Bool.negb_true_iff in H0. apply text_eqb_neq. exact H0. }
  split; [|split; [|split; [|split]]].
  - apply fs_of_exactly.
    + repeat (constructor; try (apply NK; reflexivity)).
    + repeat (constructor; cbn; try (intros [H|H]; [discriminate H|]); try (intros [])); intuition discriminate.
  - apply (PlainRel 0 [T "audio"]); [cbn; lia|]. repeat constructor; apply NK; reflexivity.
  - apply (WrittenText [] []). constructor.
  - apply (WrittenNoneOf [(50, 57)] (T "2-9") [AnyText; Char 51] (T "*\3")).
    + apply (BracketRange 50 57 (T "2") (T "9") [] []); constructor; discriminate.
    + apply (WrittenText [Char 51] (T "\3")). apply (WrittenEscaped 51 [] []). constructor.
  - split; vm_compute; reflexivity.
Qed.
