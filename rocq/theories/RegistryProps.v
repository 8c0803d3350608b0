(** C125: commands while the server registers them. *)
From Verif Require Import GoBase GoBaseFacts CommandsModel CommandsSpec RegistryModel RegistrySpec RegistryProofs.
From Coq Require Import Sorting.Sorted Sorting.Permutation Lia.
Local Open Scope nat_scope.

Section C125.
Variable B : Type.
Variable zero : B.
Variable grow : nat -> nat.

(** Whatever sort.Sort does inside (as long as it sorts by swapping), and whatever sessions have done so far:
    between two registrations every lookup a session begins and every listing gets the right
    answer, if no further registration comes before it ends.  The commands registered so far are
    the first of the list. *)
Theorem C125_between_partial swaps (HS : sorts swaps) cs acts s es acts' s' es' g :
  rrun B zero swaps grow (rinit cs) acts = Some (s, es) -> wr s = WNext -> ls s g = LIdle ->
  rrun B zero swaps grow s acts' = Some (s', es') -> forallb (fun a => negb (registers a)) acts' = true ->
  known s ++ todo s = cs /\ Forall (fun e => asker e = g -> right_answer (known s) e) es'.
Proof.
  intros R W L R' Q. destruct (rrun_inv B zero swaps grow HS _ _ _ _ _ (rinit_inv B zero grow cs) R) as (I & _ & _).
  destruct I as (H1 & H2 & H3 & H4 & H5 & H6). unfold wr_ok in H4. rewrite W in H4. destruct H4 as [P O].
  split; [exact H3|].
  destruct (quiet_run B zero swaps grow g acts' s s' es' H2 R' Q) as [_ F]; [rewrite L; exact Logic.I|].
  eapply Forall_impl; [|exact F]. intros e He Ha. specialize (He Ha). destruct e as [g' name c|g' name|g' l]; cbn in *.
  - destruct He as [He N]. split; [|exact N]. eapply Permutation_in; [symmetry; exact P|exact He].
  - intros c Hc. apply He. eapply Permutation_in; [exact P|exact Hc].
  - now subst l.
Qed.

(** Sessions cannot hold the registrations up: wherever they stand, the registering goroutine comes
    to its end by its own steps, and then all commands are registered. *)
Theorem C125_startup_ends swaps (HS : sorts swaps) cs acts s es :
  rrun B zero swaps grow (rinit cs) acts = Some (s, es) ->
  exists k s', rrun B zero swaps grow s (repeat AReg k) = Some (s', []) /\ wr s' = WNext /\ known s' = cs.
Proof.
  intros R. destruct (rrun_inv B zero swaps grow HS _ _ _ _ _ (rinit_inv B zero grow cs) R) as (I & _ & _).
  destruct (all_run B zero swaps grow (todo s) s eq_refl) as (k & s' & R' & W & T). exists k, s'. split; [exact R'|]. split; [exact W|].
  destruct (rrun_inv B zero swaps grow HS _ _ _ _ _ I R') as ((_ & _ & H3 & _) & _). rewrite T, app_nil_r in H3. exact H3.
Qed.

(** At any time, also during a registration: a lookup only finds a command under the name that was
    asked for, that name is one of the names that are registered, and what is
    found there belongs to a registered command (but see below). *)
Theorem C125_any_time_partial swaps (HS : sorts swaps) cs acts s es g name c :
  rrun B zero swaps grow (rinit cs) acts = Some (s, es) -> In (Found g name c) es ->
  fst c = name /\ In name (map fst cs) /\ In (snd c) (map snd cs).
Proof.
  intros R H. destruct (rrun_inv B zero swaps grow HS _ _ _ _ _ (rinit_inv B zero grow cs) R) as (I & _ & F).
  rewrite Forall_forall in F. destruct (F _ H) as (N & G1 & G2). destruct I as (_ & _ & H3 & _).
  split; [exact N|]. rewrite <- N, <- H3, !map_app. split; apply in_or_app; auto.
Qed.

Lemma last_of_view s last others : wr_ok B s -> wr s = WNext -> Permutation (known s) (last :: others) ->
  (forall e, In e others -> dict_before (fst e) (fst last)) ->
  exists front, view s = front ++ [last] /\ forall e, In e front -> fst e <> fst last.
Proof.
  intros H W P D. unfold wr_ok in H. rewrite W in H. destruct H as [PV O].
  assert (P2 : Permutation (last :: others) (view s)) by (now rewrite <- P).
  assert (NE : view s <> []) by (intros E; rewrite E in P2; apply Permutation_sym, Permutation_nil in P2; discriminate).
  destruct (exists_last NE) as (v0 & e0 & V0). rewrite V0 in *. clear NE.
  assert (Irr : forall a, ~ dict_before a a). { intros a Ha. apply ltb_dict in Ha. rewrite ltb_irrefl in Ha. discriminate. }
  assert (X : e0 = last).
  { assert (In e0 (last :: others)) as [E|E]; [eapply Permutation_in; [symmetry; exact P2|apply in_or_app; right; now left]|now symmetry|].
    exfalso. assert (In last (v0 ++ [e0])) as HL by (eapply Permutation_in; [exact P2|now left]).
    apply in_app_or in HL as [HL|[HL|[]]].
    - apply in_split in HL as (p & r & ->). rewrite <- app_assoc in O. cbn [app] in O.
      assert (Hio : in_order (fst last) (fst e0)).
      { clear - O. induction p as [|x p IH]; cbn in O; inversion O as [|? ? Hs Hf]; subst; [|auto].
        rewrite Forall_forall in Hf. apply Hf. apply in_or_app. right. now left. }
      apply Hio. now apply D.
    - subst e0. exact (Irr _ (D _ E)). }
  subst e0. exists v0. split; [reflexivity|]. intros e He E.
  assert (P3 : Permutation others v0). { apply (Permutation_cons_inv (a := last)). rewrite P2. symmetry. apply Permutation_cons_append. }
  apply (Irr (fst last)). rewrite <- E at 1. apply D. eapply Permutation_in; [symmetry; exact P3|exact He].
Qed.

(** Violated during a registration (1).  Whenever the next command comes before the last one of those registered
    in the alphabet, there is a schedule in which a session that asks for that
    last command gets the functions of the new one: its name is copied, then the swap of the sort
    overwrites the element, then the rest is copied. *)
Theorem C125_other_command_refuted cs acts s es c rest last others g :
  rrun B zero insertion_swaps grow (rinit cs) acts = Some (s, es) -> wr s = WNext -> todo s = c :: rest ->
  Permutation (known s) (last :: others) -> (forall e, In e others -> dict_before (fst e) (fst last)) ->
  dict_before (fst c) (fst last) -> ls s g = LIdle ->
  exists acts' s', rrun B zero insertion_swaps grow s acts' = Some (s', [Found g (fst last) (fst last, snd c)]).
Proof.
  intros R W T P D Dc Hg. pose proof insertion_sorts as HS.
  destruct (rrun_inv B zero insertion_swaps grow HS _ _ _ _ _ (rinit_inv B zero grow cs) R) as (I & _ & _).
  destruct (last_of_view s last others) as (front & V & NF); [apply I|exact W|exact P|exact D|].
  destruct (append_state B zero grow cs s c rest front last I W T V Dc) as (s1 & ops & R1 & W1 & L1 & N1 & C1 & A1 & V1 & _).
  assert (Hg1 : ls s1 g = LIdle) by (now rewrite L1).
  destruct (ask_run B zero insertion_swaps grow g (Find (fst last)) s1 Hg1) as (s2 & R2 & L2 & (a2 & b2 & c2 & d2 & f2) & _).
  assert (CV : forall t, t < len s1 -> nth t (array s1 (cur s1)) ([], zero) = nth t (view s1) ([], zero)).
  { intros t Ht. unfold view. now rewrite nth_firstn'. }
  destruct (scan_run B zero insertion_swaps grow g (fst last) (cur s1) (len s1) (length front) (length front) 0 s2 [] L2) as (seen & s3 & R3 & L3 & (a3 & b3 & c3 & d3 & f3) & _); [lia|lia|lia| |].
  { intros t _ Ht. unfold array. rewrite a2. fold (array s1 (cur s1)). rewrite CV by lia. rewrite V1, app_nth1 by exact Ht.
    apply NF. now apply nth_In. }
  assert (Nl : nth (length front) (array s3 (cur s1)) ([], zero) = last).
  { unfold array. rewrite a3, a2. fold (array s1 (cur s1)). rewrite CV by lia. rewrite V1, app_nth2, Nat.sub_diag by lia. reflexivity. }
  set (s4 := set_ls s3 g (LHalf (Find (fst last)) (cur s1) (len s1) (length front) seen (fst last))).
  assert (R4 : rrun B zero insertion_swaps grow s3 [ALook g] = Some (s4, [])).
  { cbn [RegistryModel.rrun RegistryModel.rstep]. unfold RegistryModel.look. rewrite L3.
    destruct (Nat.ltb_spec (length front) (len s1)); [|lia]. rewrite Nl. reflexivity. }
  destruct (swap_state B zero grow s4 ops (length front)) as (s5 & R5 & L5 & N5 & _); [| | |].
  { unfold s4; cbn [set_ls wr]. now rewrite f3, f2. }
  { unfold s4; cbn [set_ls arrays cur]. rewrite a3, a2, b3, b2. exact C1. }
  { unfold s4, array; cbn [set_ls arrays cur]. rewrite a3, a2, b3, b2. fold (array s1 (cur s1)). lia. }
  assert (Cs4 : cur s4 = cur s1) by (unfold s4; cbn [set_ls cur]; congruence).
  assert (N4 : nth (S (length front)) (array s4 (cur s4)) ([], zero) = c).
  { unfold s4, array; cbn [set_ls arrays cur]. rewrite a3, a2, b3, b2. fold (array s1 (cur s1)). rewrite CV by lia.
    rewrite V1, app_nth2 by lia. replace (S (length front) - length front) with 1 by lia. reflexivity. }
  exists ([AReg] ++ ([AAsk g (Find (fst last)); ALook g] ++ (repeat (ALook g) (2 * length front) ++ ([ALook g] ++ (repeat AReg 5 ++ [ALook g]))))).
  eexists. change [Found g (fst last) (fst last, snd c)] with (@nil (revent B) ++ ([] ++ ([] ++ ([] ++ ([] ++ [Found g (fst last) (fst last, snd c)]))))).
  eapply rrun_app; [exact R1|]. eapply rrun_app; [exact R2|]. eapply rrun_app; [exact R3|]. eapply rrun_app; [exact R4|].
  eapply rrun_app; [exact R5|]. cbn [RegistryModel.rrun RegistryModel.rstep]. unfold RegistryModel.look. rewrite L5. unfold s4 at 1; cbn [set_ls ls].
  rewrite Nat.eqb_refl, text_eqb_refl. rewrite <- Cs4, N5, N4. reflexivity.
Qed.

(** Violated during a registration (2).  If append finds room in the array, a session that has begun before
    may not find that last command at all, which has been registered all the time. *)
Theorem C125_registered_unknown_refuted cs acts s es c rest last others g :
  rrun B zero insertion_swaps grow (rinit cs) acts = Some (s, es) -> wr s = WNext -> todo s = c :: rest ->
  len s < length (array s (cur s)) ->
  Permutation (known s) (last :: others) -> (forall e, In e others -> dict_before (fst e) (fst last)) ->
  dict_before (fst c) (fst last) -> ls s g = LIdle ->
  exists acts' s', rrun B zero insertion_swaps grow s acts' = Some (s', [Unknown g (fst last)]).
Proof.
  intros R W T Room P D Dc Hg. pose proof insertion_sorts as HS.
  destruct (rrun_inv B zero insertion_swaps grow HS _ _ _ _ _ (rinit_inv B zero grow cs) R) as (I & _ & _).
  destruct (last_of_view s last others) as (front & V & NF); [apply I|exact W|exact P|exact D|].
  assert (Ln : len s = S (length front)). { rewrite <- (view_len B s (proj1 (proj2 I))), V, app_length. cbn. lia. }
  destruct (ask_run B zero insertion_swaps grow g (Find (fst last)) s Hg) as (s1 & R1 & L1 & Q1 & T1).
  assert (CV : forall t, t < len s -> nth t (array s (cur s)) ([], zero) = nth t (view s) ([], zero)).
  { intros t Ht. unfold view. now rewrite nth_firstn'. }
  pose proof Q1 as (a1 & b1 & c1 & d1 & f1).
  destruct (scan_run B zero insertion_swaps grow g (fst last) (cur s) (len s) (length front) (length front) 0 s1 [] L1) as (seen & s2 & R2 & L2 & Q2 & T2); [lia|lia|lia| |].
  { intros t _ Ht. unfold array. rewrite a1. fold (array s (cur s)). rewrite CV by lia. rewrite V, app_nth1 by exact Ht. apply NF. now apply nth_In. }
  pose proof Q2 as (a2 & b2 & c2 & d2 & f2).
  destruct (rrun_inv B zero insertion_swaps grow HS _ _ _ _ _ I R1) as (I1 & _ & _).
  destruct (rrun_inv B zero insertion_swaps grow HS _ _ _ _ _ I1 R2) as (I2 & _ & _).
  assert (V2 : view s2 = front ++ [last]) by (rewrite (same_view B _ _ Q2), (same_view B _ _ Q1); exact V).
  destruct (append_state B zero grow cs s2 c rest front last I2) as (s3 & ops & R3 & W3 & L3 & N3 & C3 & A3 & V3 & K3); [congruence|congruence|exact V2|exact Dc|].
  assert (E3 : cur s3 = cur s). { rewrite K3; [congruence|]. rewrite b2, b1, c2, c1. unfold array. rewrite a2, a1. exact Room. }
  destruct (swap_state B zero grow s3 ops (length front) W3 C3) as (s4 & R4 & L4 & N4 & _); [lia|].
  assert (X : nth (length front) (array s4 (cur s)) ([], zero) = c).
  { rewrite <- E3, N4. transitivity (nth (S (length front)) (view s3) ([], zero)); [unfold view; rewrite nth_firstn' by lia; reflexivity|].
    rewrite V3, app_nth2 by lia. replace (S (length front) - length front) with 1 by lia. reflexivity. }
  assert (L4g : ls s4 g = LScan (Find (fst last)) (cur s) (len s) (length front) seen) by (now rewrite L4, L3).
  destruct (scan_run B zero insertion_swaps grow g (fst last) (cur s) (len s) 1 (S (length front)) (length front) s4 seen L4g) as (seen' & s5 & R5 & L5 & _ & _); [lia|lia|lia| |].
  { intros t Ht1 Ht2. replace t with (length front) by lia. rewrite X. intros E. rewrite E in Dc. apply ltb_dict in Dc. rewrite ltb_irrefl in Dc. discriminate. }
  exists ([AAsk g (Find (fst last)); ALook g] ++ (repeat (ALook g) (2 * length front) ++ ([AReg] ++ (repeat AReg 5 ++ (repeat (ALook g) 2 ++ [ALook g]))))).
  eexists. change [Unknown (B := B) g (fst last)] with (@nil (revent B) ++ ([] ++ ([] ++ ([] ++ ([] ++ [Unknown g (fst last)]))))).
  eapply rrun_app; [exact R1|]. eapply rrun_app; [exact R2|]. eapply rrun_app; [exact R3|]. eapply rrun_app; [exact R4|].
  eapply rrun_app; [exact R5|]. cbn [RegistryModel.rrun RegistryModel.rstep]. unfold RegistryModel.look. rewrite L5.
  destruct (Nat.ltb_spec (S (length front)) (len s)); [lia|]. reflexivity.
Qed.
End C125.
Lemma registered_of_sorted : forall l reg, Permutation l reg -> StronglySorted name_le reg -> registered l reg.
Proof.
  induction l as [|c l IH] using rev_ind; intros reg P S.
  - apply Permutation_nil in P. subst. constructor.
  - assert (H : In c reg) by (eapply Permutation_in; [exact P|apply in_or_app; right; now left]).
    apply in_split in H as (a & b & ->).
    assert (P0 : Permutation l (a ++ b)). { apply (Permutation_cons_inv (a := c)). rewrite Permutation_cons_append, P. symmetry. apply Permutation_middle. }
    assert (S0 : StronglySorted name_le (a ++ b)).
    { clear - S. induction a as [|x a IHa]; cbn in *; inversion S as [|? ? Hs Hf]; subst; [assumption|]. constructor; [auto|].
      apply Forall_app in Hf as [F1 F2]. inversion F2; subst. now apply Forall_app. }
    apply (Reg_add l (a ++ b)); [now apply IH| |exact S]. rewrite <- (Permutation_middle a b c). symmetry. apply Permutation_cons_append.
Qed.
(** Between two registrations the table is one that CommandsModel and the theorems about sessions there speak of. *)
Theorem C125_sessions_after (grow : nat -> nat) (zero : command) swaps (HS : sorts swaps) l acts s es :
  rrun command zero swaps grow (rinit (map (fun c => (cmd_name c, c)) l)) acts = Some (s, es) -> wr s = WNext -> todo s = [] ->
  registered l (map snd (view s)).
Proof.
  intros R W T. destruct (rrun_inv command zero swaps grow HS _ _ _ _ _ (rinit_inv command zero grow _) R) as (I & _ & _).
  destruct I as (H1 & H2 & H3 & H4 & H5 & H6). unfold wr_ok in H4. rewrite W in H4. destruct H4 as [P O].
  rewrite T, app_nil_r in H3. rewrite H3 in P.
  assert (N : Forall (fun e => fst e = cmd_name (snd e)) (view s)).
  { eapply Permutation_Forall; [exact P|]. rewrite Forall_map. apply Forall_forall. reflexivity. }
  apply registered_of_sorted.
  - apply (Permutation_map snd) in P. now rewrite map_map, map_id in P.
  - clear - O N. induction O as [|e v Hs IH Hf]; cbn; [constructor|]. inversion N; subst. constructor; [now apply IH|].
    rewrite Forall_map. rewrite Forall_forall in Hf |- *. intros x Hx. specialize (Hf x Hx). apply in_order_ltb in Hf.
    unfold name_le. inversion N; subst. rewrite Forall_forall in H2. rewrite <- (H2 x Hx), <- H1. exact Hf.
Qed.
Print Assumptions C125_between_partial.
Print Assumptions C125_startup_ends.
Print Assumptions C125_any_time_partial.
Print Assumptions C125_other_command_refuted.
Print Assumptions C125_registered_unknown_refuted.
Print Assumptions C125_sessions_after.

(** sort.Sort's insertion sort does sort. *)
Theorem C125_insertion_sorts : sorts insertion_swaps.
Proof. exact insertion_sorts. Qed.
Print Assumptions C125_insertion_sorts.

(* ------------------------------------------------------------------ *)
(** ** The commands of this program *)

(** The commands in the order of their registration (command.go 156-157, schedule/server.go 33-39),
    each with its own name as the rest. *)
Definition this_program : list (text * text) :=
  map (fun n => (n, n)) [T "help"; T "ls"; T "queue"; T "playlist"; T "remove"; T "jump"; T "volume"; T "pause"; T "resume"].
(** Capacities of the runtime: 1, 2, 4, 8, 16 *)
Definition doubled (n : nat) : nat := if n <=? 1 then 1 else if n <=? 2 then 2 else if n <=? 4 then 4 else if n <=? 8 then 8 else 2 * n.
Notation run acts := (rrun text (T "") insertion_swaps doubled (rinit this_program) acts) (only parsing).

(** All nine get registered, and a session then finds each. *)
Example C125_nonvacuous :
  exists s es, run (repeat AReg 68 ++ [AAsk 0 All] ++ repeat (ALook 0) 20 ++ [AAsk 1 (Find (T "jump"))] ++ repeat (ALook 1) 5) = Some (s, es) /\
    known s = this_program /\
    es = [Listed 0 (map (fun n => (n, n)) [T "help"; T "jump"; T "ls"; T "pause"; T "playlist"; T "queue"; T "remove"; T "resume"; T "volume"]);
          Found 1 (T "jump") (T "jump", T "jump")].
Proof.
  eexists; eexists. split; [vm_compute; reflexivity|]. split; vm_compute; reflexivity.
Qed.

(** While `pause` is being registered, a session that types `volume 0.5` can pause the music instead. *)
Example C125_volume_pauses : exists s es acts' s',
  run (repeat AReg 39) = Some (s, es) /\ wr s = WNext /\ todo s = [(T "pause", T "pause"); (T "resume", T "resume")] /\
  Permutation (known s) ((T "volume", T "volume") :: map (fun n => (n, n)) [T "help"; T "ls"; T "queue"; T "playlist"; T "remove"; T "jump"]) /\
  rrun text (T "") insertion_swaps doubled s acts' = Some (s', [Found 0 (T "volume") (T "volume", T "pause")]).
Proof.
  destruct (run (repeat AReg 39)) as [[s es]|] eqn:E; [|vm_compute in E; discriminate].
  assert (H : wr s = WNext /\ todo s = [(T "pause", T "pause"); (T "resume", T "resume")] /\
              known s = map (fun n => (n, n)) [T "help"; T "ls"; T "queue"; T "playlist"; T "remove"; T "jump"; T "volume"] /\ ls s 0 = LIdle).
  { vm_compute in E. injection E as <- <-. now repeat split. }
  destruct H as (W & TD & K & L).
  assert (P : Permutation (known s) ((T "volume", T "volume") :: map (fun n => (n, n)) [T "help"; T "ls"; T "queue"; T "playlist"; T "remove"; T "jump"])).
  { rewrite K. symmetry. apply (Permutation_cons_append (map (fun n => (n, n)) [T "help"; T "ls"; T "queue"; T "playlist"; T "remove"; T "jump"]) (T "volume", T "volume")). }
  destruct (C125_other_command_refuted text (T "") doubled this_program (repeat AReg 39) s es _ _ _ _ 0 E W TD P) as (acts' & s' & R); [| |exact L|].
  - intros e He. cbn [map] in He. apply ltb_dict. repeat (destruct He as [<-|He]; [vm_compute; reflexivity|]). destruct He.
  - apply ltb_dict. vm_compute. reflexivity.
  - exists s, es, acts', s'. split; [reflexivity|]. split; [exact W|]. split; [exact TD|]. split; [exact P|exact R].
Qed.
(** While `playlist` is being registered (the first time append finds room), `queue` can be an unknown command. *)
Example C125_queue_unknown : exists s es acts' s',
  run (repeat AReg 6) = Some (s, es) /\ wr s = WNext /\ len s < length (array s (cur s)) /\
  known s = [(T "help", T "help"); (T "ls", T "ls"); (T "queue", T "queue")] /\
  rrun text (T "") insertion_swaps doubled s acts' = Some (s', [Unknown 0 (T "queue")]).
Proof.
  destruct (run (repeat AReg 6)) as [[s es]|] eqn:E; [|vm_compute in E; discriminate].
  assert (H : wr s = WNext /\ exists rest, todo s = (T "playlist", T "playlist") :: rest).
  { vm_compute in E. injection E as <- <-. split; [reflexivity|eexists; reflexivity]. }
  assert (H2 : known s = [(T "help", T "help"); (T "ls", T "ls"); (T "queue", T "queue")] /\ ls s 0 = LIdle /\ len s < length (array s (cur s))).
  { vm_compute in E. injection E as <- <-. split; [reflexivity|]. split; [reflexivity|]. vm_compute. lia. }
  destruct H as (W & rest & TD), H2 as (K & L & Rm).
  destruct (C125_registered_unknown_refuted text (T "") doubled this_program (repeat AReg 6) s es _ _ (T "queue", T "queue") [(T "help", T "help"); (T "ls", T "ls")] 0 E W TD Rm) as (acts' & s' & R); [| | |exact L|].
  - rewrite K. symmetry. apply (Permutation_cons_append [(T "help", T "help"); (T "ls", T "ls")] (T "queue", T "queue")).
  - intros e [<-|[<-|[]]]; apply ltb_dict; vm_compute; reflexivity.
  - apply ltb_dict. vm_compute. reflexivity.
  - exists s, es, acts', s'. split; [reflexivity|]. split; [exact W|]. split; [exact Rm|]. split; [exact K|exact R].
Qed.
