(** The lexer's table, and the lines of Shell.g4 as texts (C114). *)
From Verif Require Import GoBase GoBaseFacts GoUtf8 ParserModel GrammarModel GrammarSpec GrammarProofs.
Local Open Scope N_scope.

Notation L := lexer_table (only parsing).
Transparent eps_succ closure is_stop mem closed.

Lemma rule_starts r : rule_start r = match r with 0%nat => Some 1 | 1%nat => Some 3 | 2%nat => Some 5 | _ => None end.
Proof.
  unfold rule_start. assert (E : map e_dst (edges_from L lexer_start) = [1; 3; 5]) by (vm_compute; reflexivity).
  destruct (edges_from L lexer_start) as [|a [|b [|c [|]]]]; try discriminate E. injection E as <- <- <-.
  destruct r as [|[|[|r]]]; try reflexivity. cbn. now destruct r.
Qed.
Lemma token_types : token_type 0 = 1 /\ token_type 1 = 2 /\ token_type 2 = 3.
Proof. vm_compute. auto. Qed.

(** What the rule starting at [s] reads first. *)
Definition reading (s d t : N) : Prop := (s = 1 /\ t = 92 /\ d = 8) \/ (s = 3 /\ t = 32 /\ d = 10) \/ (s = 5 /\ t <= 0x10FFFF /\ d = 12).
Lemma reads_7 t : tok_succ L t (7, []) = if 92 =? t then [(8, [])] else [].
Proof.
  unfold tok_succ. assert (E : edges_from L 7 = [{| e_src := 7; e_dst := 8; e_type := 5; e_arg1 := 92; e_arg2 := 0 |}]) by (vm_compute; reflexivity).
  rewrite E. unfold reads. cbn [filter e_type e_arg1 tr_atom tr_wildcard]. change (5 =? tr_atom) with true. change (5 =? tr_wildcard) with false.
  cbn [andb]. rewrite Bool.orb_false_r. now destruct (92 =? t).
Qed.
Lemma reads_9 t : tok_succ L t (9, []) = if 32 =? t then [(10, [])] else [].
Proof.
  unfold tok_succ. assert (E : edges_from L 9 = [{| e_src := 9; e_dst := 10; e_type := 5; e_arg1 := 32; e_arg2 := 0 |}]) by (vm_compute; reflexivity).
  rewrite E. unfold reads. cbn [filter e_type e_arg1]. change (5 =? tr_atom) with true. change (5 =? tr_wildcard) with false.
  cbn [andb]. rewrite Bool.orb_false_r. now destruct (32 =? t).
Qed.
Lemma reads_11 t : tok_succ L t (11, []) = if t <=? 0x10FFFF then [(12, [])] else [].
Proof.
  unfold tok_succ. assert (E : edges_from L 11 = [{| e_src := 11; e_dst := 12; e_type := 9; e_arg1 := 0; e_arg2 := 0 |}]) by (vm_compute; reflexivity).
  rewrite E. unfold reads. cbn [filter e_type e_arg1]. change (9 =? tr_atom) with false. change (9 =? tr_wildcard) with true.
  cbn [andb orb]. now destruct (t <=? 0x10FFFF).
Qed.
Lemma reads_none s t : In s [1; 3; 5; 8; 10; 12; 2; 4; 6] -> tok_succ L t (s, []) = [].
Proof.
  intros I. unfold tok_succ. assert (E : forallb (fun s => forallb (fun e => (e_type e =? tr_epsilon)) (edges_from L s)) [1; 3; 5; 8; 10; 12; 2; 4; 6] = true)
    by (vm_compute; reflexivity).
  rewrite forallb_forall in E. specialize (E _ I). induction (edges_from L s) as [|e l IH]; [reflexivity|].
  cbn [forallb] in E. apply andb_prop in E as [E1 E2]. apply N.eqb_eq in E1. cbn [filter]. unfold reads. rewrite E1. cbn. apply IH, E2.
Qed.

Lemma closures : closure L false 30 (1, []) = [(1, []); (7, [])] /\ closure L false 30 (3, []) = [(3, []); (9, [])] /\ closure L false 30 (5, []) = [(5, []); (11, [])] /\
  closure L false 30 (8, []) = [(8, []); (2, [])] /\ closure L false 30 (10, []) = [(10, []); (4, [])] /\ closure L false 30 (12, []) = [(12, []); (6, [])].
Proof. vm_compute. auto 10. Qed.
Lemma all_closed : forallb (fun s => closed L false (closure L false 30 (s, []))) [1; 3; 5; 8; 10; 12] = true.
Proof. vm_compute. reflexivity. Qed.
Opaque eps_succ closure is_stop mem closed tok_succ.

Lemma first_read s t u c : In s [1; 3; 5] -> walks L false (s, []) (t :: u) c -> exists d, reading s d t /\ walks L false (d, []) u c.
Proof.
  intros I W. pose proof all_closed as Cl. rewrite forallb_forall in Cl.
  assert (I' : In s [1; 3; 5; 8; 10; 12]) by (cbn in *; tauto). specialize (Cl _ I'). cbn beta in Cl.
  apply (after_complete _ _ _ _ _ _ Cl) in W as (e & Ie & W). apply in_flat_map in Ie as (x & Ix & Ix').
  destruct closures as (C1 & C3 & C5 & _).
  destruct I as [<-|[<-|[<-|[]]]]; [rewrite C1 in Ix|rewrite C3 in Ix|rewrite C5 in Ix]; destruct Ix as [<-|[<-|[]]];
  try (rewrite reads_none in Ix' by (cbn; auto); destruct Ix').
  - rewrite reads_7 in Ix'. destruct (N.eqb_spec 92 t); [destruct Ix' as [<-|[]]|destruct Ix']. exists 8. split; [left; auto|exact W].
  - rewrite reads_9 in Ix'. destruct (N.eqb_spec 32 t); [destruct Ix' as [<-|[]]|destruct Ix']. exists 10. split; [right; left; auto|exact W].
  - rewrite reads_11 in Ix'. destruct (N.leb_spec t 0x10FFFF); [destruct Ix' as [<-|[]]|destruct Ix']. exists 12. split; [right; right; auto|exact W].
Qed.
Lemma no_second d t u c : In d [8; 10; 12] -> ~ walks L false (d, []) (t :: u) c.
Proof.
  intros I W. pose proof all_closed as Cl. rewrite forallb_forall in Cl.
  assert (I' : In d [1; 3; 5; 8; 10; 12]) by (cbn in *; tauto). specialize (Cl _ I'). cbn beta in Cl.
  apply (after_complete _ _ _ _ _ _ Cl) in W as (e & Ie & W). apply in_flat_map in Ie as (x & Ix & Ix').
  destruct closures as (_ & _ & _ & C1 & C3 & C5).
  destruct I as [<-|[<-|[<-|[]]]]; [rewrite C1 in Ix|rewrite C3 in Ix|rewrite C5 in Ix]; destruct Ix as [<-|[<-|[]]];
  rewrite reads_none in Ix' by (cbn; tauto); destruct Ix'.
Qed.
Lemma no_empty s e : In s [1; 3; 5] -> walks L false (s, []) [] (e, []) -> is_stop L e = false.
Proof.
  intros I W. pose proof all_closed as Cl. rewrite forallb_forall in Cl.
  assert (I' : In s [1; 3; 5; 8; 10; 12]) by (cbn in *; tauto). specialize (Cl _ I'). cbn beta in Cl.
  apply (closed_walks _ _ _ Cl) in W; [|apply closure_self].
  assert (S : forallb (fun e => negb (is_stop L e)) [1; 7; 3; 9; 5; 11] = true) by (vm_compute; reflexivity). rewrite forallb_forall in S.
  apply Bool.negb_true_iff. apply S. destruct closures as (C1 & C3 & C5 & _).
  destruct I as [<-|[<-|[<-|[]]]]; [rewrite C1 in W|rewrite C3 in W|rewrite C5 in W]; destruct W as [W|[W|[]]]; injection W as <-; cbn; tauto.
Qed.

(** The rules of the lexer: a backslash, a space, any code point. *)
Lemma rule_matches_spec r w : rule_matches r w <->
  (r = 0%nat /\ w = [92]) \/ (r = 1%nat /\ w = [32]) \/ (r = 2%nat /\ exists c, w = [c] /\ c <= 0x10FFFF).
Proof.
  split.
  - intros (s & e & E & W & St & _). rewrite rule_starts in E.
    assert (I : In s [1; 3; 5]) by (destruct r as [|[|[|r]]]; try discriminate E; injection E as <-; cbn; auto).
    destruct w as [|t u]; [rewrite (no_empty s e I W) in St; discriminate St|].
    apply first_read in W as (d & R & W); [|exact I].
    assert (Id : In d [8; 10; 12]) by (unfold reading in R; cbn; intuition auto).
    destruct u as [|t' u]; [|elim (no_second _ _ _ _ Id W)].
    unfold reading in R. destruct R as [(-> & -> & _)|[(-> & -> & _)|(-> & Le & _)]];
    destruct r as [|[|[|r]]]; try discriminate E; [left; auto|right; left; auto|right; right; split; [reflexivity|exists t; auto]].
  - destruct closures as (C1 & C3 & C5 & C8 & C10 & C12).
    assert (K : forall s x t d f, In (x, []) (closure L false 30 (s, [])) -> In (d, []) (tok_succ L t (x, [])) -> In (f, []) (closure L false 30 (d, [])) ->
      walks L false (s, []) [t] (f, [])).
    { intros s x t d f I1 I2 I3. apply after_sound. apply in_flat_map. exists (d, []). split; [|exact I3]. apply in_flat_map. exists (x, []). auto. }
    intros [(-> & ->)|[(-> & ->)|(-> & c & -> & Le)]].
    + exists 1, 2. split; [apply rule_starts|]. split; [|vm_compute; auto]. apply (K 1 7 92 8 2); [rewrite C1; cbn; auto|rewrite reads_7; cbn; auto|rewrite C8; cbn; auto].
    + exists 3, 4. split; [apply rule_starts|]. split; [|vm_compute; auto]. apply (K 3 9 32 10 4); [rewrite C3; cbn; auto|rewrite reads_9; cbn; auto|rewrite C10; cbn; auto].
    + exists 5, 6. split; [apply rule_starts|]. split; [|vm_compute; auto]. apply (K 5 11 c 12 6); [rewrite C5; cbn; auto| |rewrite C12; cbn; auto].
      rewrite reads_11. destruct (N.leb_spec c 0x10FFFF); [cbn; auto|lia].
Qed.

Lemma next_token_spec c s ty n : c <= 0x10FFFF -> next_token (c :: s) ty n <-> n = 1%nat /\ as_token ty [c] = Some (lex_rune c).
Proof.
  intros Hc. destruct token_types as (T0 & T1 & T2). split.
  - intros (Hn & r & -> & M & _ & First). rewrite rule_matches_spec in M.
    assert (L1 : length (firstn n (c :: s)) = 1%nat).
    { destruct M as [(_ & ->)|[(_ & ->)|(_ & x & -> & _)]]; reflexivity. }
    rewrite firstn_length in L1. assert (n = 1%nat) as -> by (cbn [length] in *; lia). split; [reflexivity|]. clear L1.
    cbn [firstn] in *. unfold lex_rune. destruct M as [(-> & E)|[(-> & E)|(-> & _)]].
    + injection E as ->. rewrite T0. reflexivity.
    + injection E as ->. rewrite T1. reflexivity.
    + rewrite T2. destruct (N.eqb_spec c 92) as [->|N1].
      { elim (First 0%nat); [lia|]. apply rule_matches_spec. auto. }
      destruct (N.eqb_spec c 32) as [->|N2]; [|reflexivity].
      elim (First 1%nat); [lia|]. apply rule_matches_spec. auto.
  - intros (-> & A). split; [cbn; lia|]. cbn [firstn].
    assert (Long : forall r' m, (1 < m <= length (c :: s))%nat -> ~ rule_matches r' (firstn m (c :: s))).
    { intros r' m Hm M. apply rule_matches_spec in M. assert (L1 : length (firstn m (c :: s)) = 1%nat).
      { destruct M as [(_ & ->)|[(_ & ->)|(_ & x & -> & _)]]; reflexivity. }
      rewrite firstn_length in L1. cbn [length] in *. lia. }
    unfold as_token in A. unfold lex_rune in A. destruct (N.eqb_spec c 92) as [->|N1].
    { exists 0%nat. rewrite T0. split; [|split; [apply rule_matches_spec; auto|split; [exact Long|lia]]].
      destruct (N.eqb_spec ty 1); [auto|]. destruct (ty =? 2); [discriminate A|]. destruct (ty =? 3); discriminate A. }
    destruct (N.eqb_spec c 32) as [->|N2].
    { exists 1%nat. rewrite T1. split; [|split; [apply rule_matches_spec; auto|split; [exact Long|]]].
      - destruct (ty =? 1); [discriminate A|]. destruct (N.eqb_spec ty 2); [auto|]. destruct (ty =? 3); discriminate A.
      - intros r' Hr. assert (r' = 0%nat) as -> by lia. intros M. apply rule_matches_spec in M. destruct M as [(_ & E)|[(E & _)|(E & _)]]; discriminate E. }
    exists 2%nat. rewrite T2. split; [|split; [apply rule_matches_spec; right; right; split; [reflexivity|exists c; auto]|split; [exact Long|]]].
    + destruct (ty =? 1); [discriminate A|]. destruct (ty =? 2); [discriminate A|]. destruct (N.eqb_spec ty 3); [auto|discriminate A].
    + intros r' Hr M. apply rule_matches_spec in M. destruct M as [(_ & E)|[(_ & E)|(-> & _)]]; [congruence|congruence|lia].
Qed.


Lemma lexes_sound s ts : lexes s ts -> code_points s -> ts = map lex_rune s.
Proof.
  induction 1 as [|s ty n t ts N A _ IH]; intros F; [reflexivity|]. destruct s as [|c s]; [destruct N as (Hn & _); cbn in Hn; lia|].
  inversion F as [|? ? Hc F']; subst. apply next_token_spec in N as (-> & E); [|exact Hc]. cbn [firstn skipn] in *. cbn [map].
  rewrite E in A. injection A as <-. f_equal. now apply IH.
Qed.
Lemma lexes_complete s : code_points s -> lexes s (map lex_rune s).
Proof.
  induction 1 as [|c s Hc F IH]; [constructor|]. cbn [map].
  assert (T : exists ty, as_token ty [c] = Some (lex_rune c)).
  { unfold lex_rune, as_token. destruct (c =? 92); [exists 1; reflexivity|]. destruct (c =? 32); [exists 2; reflexivity|exists 3; reflexivity]. }
  destruct T as (ty & T). apply (Lex_token (c :: s) ty 1); [apply next_token_spec; auto|exact T|exact IH].
Qed.

(** * Shell.g4 *)

Lemma rune_lex c : tok_rune (lex_rune c) = c.
Proof. unfold lex_rune. destruct (N.eqb_spec c 92); [auto|]. destruct (N.eqb_spec c 32); auto. Qed.
Definition text_of (ts : list tok) : text := map tok_rune ts.
(** a normal token holds neither a backslash nor a space *)
Definition proper (t : tok) : Prop := match t with NORMAL r => r <> 92 /\ r <> 32 | _ => True end.
Lemma lex_proper s : Forall proper (map lex_rune s).
Proof.
  apply Forall_map, Forall_forall. intros c _. unfold lex_rune. destruct (N.eqb_spec c 92); [exact I|]. destruct (N.eqb_spec c 32); [exact I|]. cbn. auto.
Qed.

Lemma fits_first ts i : Forall proper ts -> fits i (text_of ts) -> look ts = Some 1 \/ look ts = Some 3.
Proof.
  intros P (w & tail & F & E). destruct ts as [|t ts]; [destruct F; discriminate E|]. inversion P as [|? ? Pt _]; subst.
  destruct t; cbn in *; auto. destruct F as [r N1 N2| | |]; injection E as E _; congruence.
Qed.

Lemma raw_tree : forall n ts, (length ts <= n)%nat -> Forall proper ts ->
  raw (text_of ts) (map text_of (fst (raw_string ts))) (text_of (snd (raw_string ts))) /\ Forall proper (snd (raw_string ts)).
Proof.
  induction n as [|n IH]; intros ts Hn P.
  - destruct ts; [|cbn in Hn; lia]. split; [|constructor]. apply raw_end. intros i F. apply (fits_first [] i (Forall_nil _)) in F. destruct F; discriminate.
  - assert (D : (look ts = Some 1 \/ look ts = Some 3) \/ (look ts <> Some 1 /\ look ts <> Some 3)).
    { destruct ts as [|[| |] ?]; cbn; auto; right; split; discriminate. }
    destruct D as [Lk|[A B]]; [|rewrite raw_stop by assumption; split; [|exact P]; apply raw_end; intros i F; apply (fits_first ts i P) in F; tauto].
    pose proof (first_char_shorter ts Lk) as Sh. assert (P' : Forall proper (snd (first_char ts))).
    { destruct ts as [|[| |r] [|[| |r'] ts]]; inversion P as [|? ? ? P1]; subst; cbn; auto; inversion P1; auto. }
    destruct (IH (snd (first_char ts)) ltac:(lia) P') as (R & Pr). rewrite (raw_unfold ts Lk).
    destruct (raw_string (snd (first_char ts))) as [cs rest]. cbn [fst snd] in *. split; [|exact Pr].
    assert (E : text_of ts = text_of (fst (first_char ts)) ++ text_of (snd (first_char ts))).
    { unfold text_of. rewrite <- map_app. f_equal. destruct ts as [|[| |r] [|[| |r'] ts]]; cbn in Lk; try (destruct Lk; discriminate); reflexivity. }
    rewrite E. cbn [map].
    assert (F : exists i, form i (text_of (fst (first_char ts))) /\ forall j, (j < i)%nat -> ~ fits j (text_of ts)).
    { destruct ts as [|[| |r] ts]; cbn in Lk; try (destruct Lk; discriminate).
      - destruct ts as [|[| |r'] ts]; inversion P as [|? ? _ P1]; subst.
        + exists 4%nat. split; [exact form_lone|]. intros j Hj (w & tail & Fj & Ej). cbn in Ej. destruct Fj as [x N1 N2| | |]; try (injection Ej; congruence); try discriminate Ej; lia.
        + exists 3%nat. split; [exact form_escape|]. intros j Hj (w & tail & Fj & Ej). cbn in Ej. destruct Fj as [x N1 N2| | |]; try (injection Ej; congruence); lia.
        + exists 2%nat. split; [exact form_space|]. intros j Hj (w & tail & Fj & Ej). cbn in Ej. destruct Fj as [x N1 N2| | |]; try (injection Ej; congruence); lia.
        + inversion P1 as [|? ? Pr0 _]; subst; destruct Pr0 as (Pr1 & Pr2). exists 4%nat. split; [exact form_lone|].
          intros j Hj (w & tail & Fj & Ej). cbn in Ej. destruct Fj as [x N1 N2| | |]; try (injection Ej; congruence); lia.
      - inversion P as [|? ? Pr0 _]; subst; destruct Pr0 as (Pr1 & Pr2). exists 1%nat. assert (FE : fst (first_char (NORMAL r :: ts)) = [NORMAL r]) by (destruct ts as [|[| |] ?]; reflexivity).
        rewrite FE. split; [now constructor|]. intros j Hj (w & tail & Fj & Ej). destruct Fj; lia. }
    destruct F as (i & Fi & Fj). eapply raw_character; [exact Fi|rewrite <- E; exact Fj|exact R].
Qed.

Lemma parameters_tree : forall n ts, (length ts <= n)%nat -> Forall proper ts -> at_param ts ->
  parameters (text_of ts) (map (map text_of) (parameters_loop (length ts) ts)).
Proof.
  induction n as [|n IH]; intros ts Hn P At.
  - destruct ts; [|cbn in Hn; lia]. constructor.
  - destruct At as [->|(t & ->)]; [constructor|]. rewrite parameters_unfold. cbn [map]. inversion P as [|? ? _ P']; subst.
    destruct (raw_tree _ t (le_n _) P') as (R & Pr). pose proof (raw_rest_length t). cbn [length] in Hn.
    apply (parameters_more _ _ _ _ R). apply IH; [lia|exact Pr|apply raw_rest].
Qed.

Lemma parse_line_eq ts : parse_line ts =
  {| t_command := fst (raw_string ts); t_parameters := parameters_loop (length (snd (raw_string ts))) (snd (raw_string ts)) |}.
Proof. unfold parse_line. pose proof (raw_rest_length ts). destruct (raw_string ts) as [c rest]. cbn [fst snd] in *. f_equal. now apply parameters_fuel. Qed.

Lemma line_tree_spec s : shell_line s (map text_of (t_command (parse_line (map lex_rune s))))
  (map (map text_of) (t_parameters (parse_line (map lex_rune s)))).
Proof.
  rewrite parse_line_eq. cbn [t_command t_parameters]. destruct (raw_tree _ (map lex_rune s) (le_n _) (lex_proper s)) as (R & Pr).
  assert (E : text_of (map lex_rune s) = s). { unfold text_of. rewrite map_map. rewrite <- (map_id s) at 2. apply map_ext. apply rune_lex. }
  rewrite E in R. eexists. split; [exact R|]. eapply parameters_tree; [apply le_n|exact Pr|apply raw_rest].
Qed.

(** Shell.g4 leaves no choice. *)
Lemma form_fits i w s : form i w -> fits i (w ++ s).
Proof. intros F. exists w, s. auto. Qed.
Lemma form_unique i w w' s s' : form i w -> form i w' -> w ++ s = w' ++ s' -> w = w' /\ s = s'.
Proof. intros F F' E. destruct F; inversion F'; subst; cbn in E; injection E; intros; subst; auto. Qed.
Lemma raw_unique s cs rest : raw s cs rest -> forall cs' rest', raw s cs' rest' -> cs' = cs /\ rest' = rest.
Proof.
  induction 1 as [s NF|i w s cs rest F M R IH]; intros cs' rest' R'.
  - inversion R' as [? NF'|i' w' s' cs1 ? F' M' R1]; subst; [auto|]. elim (NF i'). now apply form_fits.
  - remember (w ++ s) as x eqn:E. destruct R' as [? NF'|i' w' s' cs1 ? F' M' R1].
    + elim (NF' i). subst. now apply form_fits.
    + assert (i = i') as <-.
      { destruct (Nat.lt_trichotomy i i') as [Lt|[Eq|Lt]]; [|exact Eq|].
        - elim (M' i Lt). rewrite E. now apply form_fits.
        - elim (M i' Lt). exists w', s'. auto. }
      symmetry in E. destruct (form_unique i w w' s s' F F' E) as [-> ->]. destruct (IH _ _ R1) as [-> ->]. auto.
Qed.
Lemma parameters_unique s ps : parameters s ps -> forall ps', parameters s ps' -> ps' = ps.
Proof.
  induction 1 as [|s p rest ps R P IH]; intros ps' P'; inversion P' as [|? p' rest' ps1 R' P1]; subst; [reflexivity|].
  destruct (raw_unique _ _ _ R _ _ R') as [-> ->]. f_equal. now apply IH.
Qed.
Lemma shell_line_unique s c ps c' ps' : shell_line s c ps -> shell_line s c' ps' -> c' = c /\ ps' = ps.
Proof. intros (r & R & P) (r' & R' & P'). destruct (raw_unique _ _ _ R _ _ R') as [-> ->]. split; [reflexivity|]. eapply parameters_unique; eauto. Qed.

(** Nothing of the line is lost. *)
Lemma raw_whole s cs rest : raw s cs rest -> s = concat cs ++ rest.
Proof. induction 1 as [|i w s cs rest _ _ _ IH]; [reflexivity|]. cbn [concat]. rewrite <- app_assoc. now f_equal. Qed.
Lemma parameters_whole s ps : parameters s ps -> s = concat (map (fun p => 32 :: concat p) ps).
Proof. induction 1 as [|s p rest ps R _ IH]; [reflexivity|]. cbn [map concat app]. f_equal. rewrite <- IH. now apply raw_whole. Qed.
Lemma shell_line_whole s c ps : shell_line s c ps -> s = concat c ++ concat (map (fun p => 32 :: concat p) ps).
Proof. intros (rest & R & P). rewrite <- (parameters_whole _ _ P). now apply raw_whole. Qed.
