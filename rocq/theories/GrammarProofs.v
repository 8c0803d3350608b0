(** Walking through the tables of the generated parser (C114). *)
From Verif Require Import GoBase GoBaseFacts GoUtf8 ParserModel GrammarModel GrammarSpec.
Local Open Scope N_scope.

(** * Walks, computed *)

Fixpoint closure (a : atn) (wild : bool) (fuel : nat) (c : config) : list config :=
  match fuel with
  | O => [c]
  | S f => c :: flat_map (closure a wild f) (eps_succ a wild c)
  end.

Definition config_eqb (c d : config) : bool := (fst c =? fst d) && text_eqb (snd c) (snd d).
Lemma config_eqb_eq c d : config_eqb c d = true <-> c = d.
Proof.
  destruct c as [s k], d as [s' k']. unfold config_eqb. cbn [fst snd]. rewrite Bool.andb_true_iff, N.eqb_eq, text_eqb_eq.
  split; [intros [-> ->]; reflexivity|intros H; inversion H; auto].
Qed.
Definition mem (c : config) (l : list config) : bool := existsb (config_eqb c) l.
Lemma mem_In c l : mem c l = true <-> In c l.
Proof.
  unfold mem. rewrite existsb_exists. split.
  - intros (d & I & E). apply config_eqb_eq in E. now subst.
  - intros I. exists c. split; [exact I|now apply config_eqb_eq].
Qed.

Lemma closure_sound a wild fuel : forall c d, In d (closure a wild fuel c) -> walks a wild c [] d.
Proof.
  induction fuel as [|f IH]; intros c d I; cbn [closure] in I.
  - destruct I as [<-|[]]. constructor.
  - destruct I as [<-|I]; [constructor|]. apply in_flat_map in I as (e & Ie & Id). eapply W_eps; eauto.
Qed.

Lemma walks_app a wild c u d : walks a wild c u d -> forall v e, walks a wild d v e -> walks a wild c (u ++ v) e.
Proof. induction 1; intros v e W; cbn; auto; [eapply W_eps|eapply W_tok]; eauto. Qed.

Lemma walks_cons_inv a wild c t u d : walks a wild c (t :: u) d ->
  exists c1 c2, walks a wild c [] c1 /\ In c2 (tok_succ a t c1) /\ walks a wild c2 u d.
Proof.
  remember (t :: u) as v eqn:E. induction 1 as [| c c1 v c' I W IH | c t' c1 v c' I W IH]; [discriminate E| |].
  - destruct (IH E) as (x & y & A & B & C). exists x, y. split; [eapply W_eps; eauto|auto].
  - injection E as <- <-. exists c, c1. split; [constructor|auto].
Qed.

(** A set closed under silent steps contains what silent walks reach. *)
Definition closed (a : atn) (wild : bool) (l : list config) : bool :=
  forallb (fun c => forallb (fun d => mem d l) (eps_succ a wild c)) l.
Lemma closed_walks a wild l : closed a wild l = true -> forall c d, walks a wild c [] d -> In c l -> In d l.
Proof.
  intros Cl c d W. remember [] as u eqn:E. induction W as [| c c1 u c' I W IH |]; intros Ic; [exact Ic| |discriminate E].
  apply IH; [exact E|]. unfold closed in Cl. rewrite forallb_forall in Cl. specialize (Cl _ Ic). rewrite forallb_forall in Cl.
  apply mem_In. now apply Cl.
Qed.

(** The configurations after reading [t] from one of [l]. *)
Definition after (a : atn) (wild : bool) (t : N) (l : list config) : list config :=
  flat_map (closure a wild 30) (flat_map (tok_succ a t) l).

Lemma after_complete a wild c t u d : closed a wild (closure a wild 30 c) = true -> walks a wild c (t :: u) d ->
  exists e, In e (flat_map (tok_succ a t) (closure a wild 30 c)) /\ walks a wild e u d.
Proof.
  intros Cl W. apply walks_cons_inv in W as (c1 & c2 & W1 & I & W2). exists c2. split; [|exact W2].
  apply in_flat_map. exists c1. split; [|exact I]. eapply closed_walks; eauto. cbn. now left.
Qed.
Lemma after_sound a wild c t d : In d (after a wild t (closure a wild 30 c)) -> walks a wild c [t] d.
Proof.
  intros I. apply in_flat_map in I as (e & Ie & Id). apply in_flat_map in Ie as (c1 & I1 & I2).
  apply closure_sound in I1. apply closure_sound in Id. change [t] with ([] ++ [t]).
  eapply walks_app; [exact I1|]. eapply W_tok; eauto.
Qed.

(** * The parser's table *)

Notation G := parser_table (only parsing).

(** The calls below a character of the command, of a parameter. *)
Definition k_command : list N := called_at 26 (called_at 24 (called_at 20 (called_at 12 []))).
Definition k_parameter : list N := called_at 26 (called_at 24 (called_at 22 (called_at 14 []))).


Definition setting (wild : bool) (b : list N) : Prop := (wild = true /\ b = []) \/ (wild = false /\ (b = k_command \/ b = k_parameter)).
Definition settings : list (bool * list N) := [(true, []); (false, k_command); (false, k_parameter)].
Lemma settings_all (f : bool -> list N -> bool) : forallb (fun x => f (fst x) (snd x)) settings = true ->
  forall wild b, setting wild b -> f wild b = true.
Proof. rewrite forallb_forall. intros H wild b [[-> ->]|[-> [-> | ->]]]; [apply (H (true, []))|apply (H (false, k_command))|apply (H (false, k_parameter))]; cbn; auto. Qed.

(** From [hubs] everything can be read, and the line can end everywhere. *)
Definition final (wild : bool) (c : config) : bool :=
  is_stop G (fst c) && match eps_succ G wild c with [] => true | _ => false end.
Definition all_hubs (wild : bool) : list config :=
  [(29, [25; 23; 16]); (39, k_parameter)] ++ if wild then [(39, []); (39, [28])] else [(39, k_command)].

Lemma hub_check wild : forallb (fun c => existsb (final wild) (closure G wild 30 c) &&
  forallb (fun t => existsb (fun d => mem d (all_hubs wild)) (after G wild t (closure G wild 30 c))) [1; 2; 3]) (all_hubs wild) = true.
Proof. destruct wild; vm_compute; reflexivity. Qed.

Definition symbol (t : N) : Prop := t = 1 \/ t = 2 \/ t = 3.
Lemma tok_symbol t : symbol (tok_type t).
Proof. destruct t; unfold symbol; cbn; auto. Qed.
Lemma symbols ts : Forall symbol (map tok_type ts).
Proof. apply Forall_map. apply Forall_forall. intros t _. apply tok_symbol. Qed.

Lemma anything wild : forall u, Forall symbol u -> forall c, In c (all_hubs wild) -> exists d, walks G wild c u d /\ final wild d = true.
Proof.
  pose proof (hub_check wild) as H. rewrite forallb_forall in H. induction 1 as [|t u St Su IH]; intros c Ic.
  - specialize (H _ Ic). apply andb_prop in H as [H _]. apply existsb_exists in H as (d & Id & Fd). exists d. split; [|exact Fd].
    eapply closure_sound; eauto.
  - pose proof (H _ Ic) as Hc. apply andb_prop in Hc as [_ Hc]. rewrite forallb_forall in Hc.
    assert (It : In t [1; 2; 3]) by (destruct St as [->|[->| ->]]; cbn; auto).
    specialize (Hc _ It). apply existsb_exists in Hc as (e & Ie & Me). apply mem_In in Me.
    destruct (IH _ Me) as (d & W & F). exists d. split; [|exact F]. change (t :: u) with ([t] ++ u).
    eapply walks_app; [eapply after_sound; exact Ie|exact W].
Qed.

Lemma base_hub wild b : setting wild b -> In (39, b) (all_hubs wild).
Proof. intros [[-> ->]|[-> [-> | ->]]]; cbn; auto. Qed.

Lemma alternatives i : alternative 2 i = match i with 1%nat => Some 32 | 2%nat => Some 33 | 3%nat => Some 35 | 4%nat => Some 37 | _ => None end.
Proof.
  unfold alternative. assert (E : edges_from parser_table (nth 2 (a_decisions parser_table) 65535) =
    [{| e_src := 38; e_dst := 32; e_type := 1; e_arg1 := 0; e_arg2 := 0 |}; {| e_src := 38; e_dst := 33; e_type := 1; e_arg1 := 0; e_arg2 := 0 |};
     {| e_src := 38; e_dst := 35; e_type := 1; e_arg1 := 0; e_arg2 := 0 |}; {| e_src := 38; e_dst := 37; e_type := 1; e_arg1 := 0; e_arg2 := 0 |}])
    by (vm_compute; reflexivity).
  rewrite E. do 5 (destruct i as [|i]; [reflexivity|]). cbn. now destruct i.
Qed.

(** What is read from a state: silent steps lead nowhere else for these. *)
Definition reads_only (a : atn) (wild : bool) (b : list N) (s t : N) : list config := flat_map (tok_succ a t) (closure a wild 30 (s, b)).
Definition one (a : atn) (wild : bool) (b : list N) (s t d : N) : bool :=
  closed a wild (closure a wild 30 (s, b)) &&
  forallb (fun x => match reads_only a wild b s x with [] => negb (x =? t) | [e] => (x =? t) && config_eqb e (d, b) | _ => false end) [1; 2; 3].
Lemma one_spec a wild b s t d : one a wild b s t d = true -> forall x u c, symbol x -> walks a wild (s, b) (x :: u) c ->
  x = t /\ walks a wild (d, b) u c.
Proof.
  unfold one. intros H x u c Sx W. apply andb_prop in H as [Cl H]. rewrite forallb_forall in H.
  assert (Ix : In x [1; 2; 3]) by (destruct Sx as [->|[->| ->]]; cbn; auto). specialize (H _ Ix).
  apply (after_complete _ _ _ _ _ _ Cl) in W as (e & Ie & W). unfold reads_only in H.
  set (l := flat_map _ _) in H, Ie. clearbody l.
  destruct l as [|e1 [|]]; [destruct Ie| |discriminate H]. destruct Ie as [->|[]].
  apply andb_prop in H as [H1 H2]. apply N.eqb_eq in H1. apply config_eqb_eq in H2. now subst.
Qed.
Lemma one_here a wild b s t d : one a wild b s t d = true -> symbol t -> walks a wild (s, b) [t] (d, b).
Proof.
  unfold one. intros H St. apply andb_prop in H as [Cl H]. rewrite forallb_forall in H.
  assert (Ix : In t [1; 2; 3]) by (destruct St as [->|[->| ->]]; cbn; auto). specialize (H _ Ix).
  apply after_sound. unfold after. unfold reads_only in H. set (l := flat_map (tok_succ _ _) _) in H |- *. clearbody l. destruct l as [|e1 [|]]; [|..|discriminate H].
  - rewrite N.eqb_refl in H. discriminate H.
  - apply andb_prop in H as [_ H]. apply config_eqb_eq in H. subst. apply in_flat_map. exists (d, b). split; cbn; auto.
Qed.

Lemma alt1 wild b : setting wild b -> one G wild b 32 3 39 = true.
Proof. apply (settings_all (fun w b => one G w b 32 3 39)). vm_compute. reflexivity. Qed.
Lemma alt2 wild b : setting wild b -> one G wild b 33 1 34 = true.
Proof. apply (settings_all (fun w b => one G w b 33 1 34)). vm_compute. reflexivity. Qed.
Lemma alt2' wild b : setting wild b -> one G wild b 34 2 39 = true.
Proof. apply (settings_all (fun w b => one G w b 34 2 39)). vm_compute. reflexivity. Qed.
Lemma alt3 wild b : setting wild b -> one G wild b 35 1 36 = true.
Proof. apply (settings_all (fun w b => one G w b 35 1 36)). vm_compute. reflexivity. Qed.
Lemma alt3' wild b : setting wild b -> one G wild b 36 1 39 = true.
Proof. apply (settings_all (fun w b => one G w b 36 1 39)). vm_compute. reflexivity. Qed.
Lemma alt4 wild b : setting wild b -> one G wild b 37 1 39 = true.
Proof. apply (settings_all (fun w b => one G w b 37 1 39)). vm_compute. reflexivity. Qed.

Arguments one : simpl never.
Opaque one.

Definition bottom (wild : bool) (k : list N) : list N := if wild then [] else k.
Definition calls (k : list N) : Prop := k = k_command \/ k = k_parameter.
Lemma calls_setting wild k : calls k -> setting wild (bottom wild k).
Proof. intros C. destruct wild; [left; auto|right]. split; [reflexivity|exact C]. Qed.

Lemma along_inv wild k i u c : along wild k 2 i u c ->
  let b := bottom wild k in
  (i = 1%nat /\ walks G wild (32, b) u c) \/ (i = 2%nat /\ walks G wild (33, b) u c) \/
  (i = 3%nat /\ walks G wild (35, b) u c) \/ (i = 4%nat /\ walks G wild (37, b) u c).
Proof.
  intros (s & A & W). rewrite alternatives in A. cbn zeta. unfold bottom.
  destruct i as [|[|[|[|[|i]]]]]; try discriminate A; injection A as <-; auto.
Qed.
Lemma along_make wild k i s u c : alternative 2 i = Some s -> walks G wild (s, bottom wild k) u c -> along wild k 2 i u c.
Proof. intros A W. exists s. split; [exact A|exact W]. Qed.

Lemma along_normal wild k i u c : calls k -> along wild k 2 i (3 :: u) c -> i = 1%nat.
Proof.
  intros C A. pose proof (calls_setting wild k C) as S. apply along_inv in A. cbn zeta in A.
  assert (S3 : symbol 3) by (unfold symbol; auto).
  destruct A as [(-> & W)|[(-> & W)|[(-> & W)|(-> & W)]]]; [reflexivity|..].
  - apply (one_spec _ _ _ _ _ _ (alt2 _ _ S) _ _ _ S3) in W as (E & _). discriminate E.
  - apply (one_spec _ _ _ _ _ _ (alt3 _ _ S) _ _ _ S3) in W as (E & _). discriminate E.
  - apply (one_spec _ _ _ _ _ _ (alt4 _ _ S) _ _ _ S3) in W as (E & _). discriminate E.
Qed.
Lemma along_escape wild k i u c : calls k -> along wild k 2 i (1 :: u) c ->
  let b := bottom wild k in
  (i = 2%nat /\ walks G wild (34, b) u c) \/ (i = 3%nat /\ walks G wild (36, b) u c) \/ (i = 4%nat /\ walks G wild (39, b) u c).
Proof.
  intros C A. pose proof (calls_setting wild k C) as S. apply along_inv in A. cbn zeta in *.
  assert (S1 : symbol 1) by (unfold symbol; auto).
  destruct A as [(-> & W)|[(-> & W)|[(-> & W)|(-> & W)]]].
  - apply (one_spec _ _ _ _ _ _ (alt1 _ _ S) _ _ _ S1) in W as (E & _). discriminate E.
  - apply (one_spec _ _ _ _ _ _ (alt2 _ _ S) _ _ _ S1) in W as (_ & W). auto.
  - apply (one_spec _ _ _ _ _ _ (alt3 _ _ S) _ _ _ S1) in W as (_ & W). auto.
  - apply (one_spec _ _ _ _ _ _ (alt4 _ _ S) _ _ _ S1) in W as (_ & W). auto.
Qed.
Lemma along_escape_next wild k i t u c : calls k -> symbol t -> along wild k 2 i (1 :: t :: u) c ->
  (i = 2%nat /\ t = 2) \/ (i = 3%nat /\ t = 1) \/ i = 4%nat.
Proof.
  intros C St A. pose proof (calls_setting wild k C) as S. apply along_escape in A; [|exact C]. cbn zeta in A.
  destruct A as [(-> & W)|[(-> & W)|(-> & W)]]; [left|right; left|right; right; reflexivity].
  - apply (one_spec _ _ _ _ _ _ (alt2' _ _ S) _ _ _ St) in W as (-> & _). auto.
  - apply (one_spec _ _ _ _ _ _ (alt3' _ _ S) _ _ _ St) in W as (-> & _). auto.
Qed.

(** Each alternative that matches can go on with everything. *)
Lemma ends wild k i u : calls k -> Forall symbol u -> forall v, match i with
  | 1%nat => v = [3] | 2%nat => v = [1; 2] | 3%nat => v = [1; 1] | 4%nat => v = [1] | _ => False end ->
  may_end wild k 2 i (v ++ u).
Proof.
  intros C Su v Hv. pose proof (calls_setting wild k C) as S.
  destruct (anything wild u Su _ (base_hub _ _ S)) as (d & W & F).
  apply andb_prop in F as [F1 F2]. assert (F3 : eps_succ G wild d = []) by (destruct (eps_succ G wild d); [reflexivity|discriminate F2]).
  exists d. split; [|auto]. clear F1 F2 F3.
  assert (S1 : symbol 1) by (unfold symbol; auto). assert (S2 : symbol 2) by (unfold symbol; auto). assert (S3 : symbol 3) by (unfold symbol; auto).
  destruct i as [|[|[|[|[|i]]]]]; try contradiction; subst v.
  - apply (along_make _ _ _ 32); [apply alternatives|]. eapply walks_app; [apply (one_here _ _ _ _ _ _ (alt1 _ _ S) S3)|exact W].
  - apply (along_make _ _ _ 33); [apply alternatives|]. change ([1; 2] ++ u) with ([1] ++ [2] ++ u).
    eapply walks_app; [apply (one_here _ _ _ _ _ _ (alt2 _ _ S) S1)|].
    eapply walks_app; [apply (one_here _ _ _ _ _ _ (alt2' _ _ S) S2)|exact W].
  - apply (along_make _ _ _ 35); [apply alternatives|]. change ([1; 1] ++ u) with ([1] ++ [1] ++ u).
    eapply walks_app; [apply (one_here _ _ _ _ _ _ (alt3 _ _ S) S1)|].
    eapply walks_app; [apply (one_here _ _ _ _ _ _ (alt3' _ _ S) S1)|exact W].
  - apply (along_make _ _ _ 37); [apply alternatives|]. eapply walks_app; [apply (one_here _ _ _ _ _ _ (alt4 _ _ S) S1)|exact W].
Qed.
Lemma end_viable wild k d i u : may_end wild k d i u -> viable wild k d i u.
Proof. intros (c & A & _). exists c. exact A. Qed.

(** After one backslash the three alternatives are all possible and all in different places. *)
Lemma still_check a wild c : eps_succ a wild c = [] -> forall d, walks a wild c [] d -> d = c.
Proof.
  intros E d W. inversion W as [| ? c1 ? ? I W'|]; subst; [reflexivity|]. rewrite E in I. destruct I.
Qed.
Lemma closure_self a wild n c : In c (closure a wild n c).
Proof. destruct n; cbn [closure]; now left. Qed.
Definition apart (wild : bool) (b : list N) : bool :=
  let l := closure G wild 30 (39, b) in
  closed G wild l && negb (mem (34, b) l) && negb (mem (36, b) l) &&
  (match eps_succ G wild (34, b), eps_succ G wild (36, b) with [], [] => true | _, _ => false end) &&
  negb (is_stop G 34) && negb (is_stop G 36).
Lemma apart_ok wild b : setting wild b -> apart wild b = true.
Proof. apply (settings_all apart). vm_compute. reflexivity. Qed.
Opaque eps_succ closure is_stop mem closed.
Lemma apart_spec wild b : setting wild b ->
  (forall c, walks G wild (34, b) [] c -> c = (34, b)) /\ (forall c, walks G wild (36, b) [] c -> c = (36, b)) /\
  ~ walks G wild (39, b) [] (34, b) /\ ~ walks G wild (39, b) [] (36, b) /\ is_stop G 34 = false /\ is_stop G 36 = false.
Proof.
  intros S. pose proof (apart_ok _ _ S) as H. unfold apart in H.
  set (l := closure G wild 30 (39, b)) in H. assert (I : In (39, b) l) by (subst l; apply closure_self). clearbody l.
  apply andb_prop in H as [H H36]. apply andb_prop in H as [H H34]. apply andb_prop in H as [H He].
  apply andb_prop in H as [H M36]. apply andb_prop in H as [H M34].
  assert (E34 : eps_succ G wild (34, b) = [] /\ eps_succ G wild (36, b) = []).
  { destruct (eps_succ G wild (34, b)); [|discriminate He]. destruct (eps_succ G wild (36, b)); [|discriminate He]. auto. }
  destruct E34 as [E1 E2].
  split; [intros c; apply still_check, E1|]. split; [intros c; apply still_check, E2|].
  split; [intros W; apply (closed_walks _ _ _ H) in W; [|exact I]; apply mem_In in W; rewrite W in M34; discriminate M34|].
  split; [intros W; apply (closed_walks _ _ _ H) in W; [|exact I]; apply mem_In in W; rewrite W in M36; discriminate M36|].
  split; [now apply Bool.negb_true_iff in H34|now apply Bool.negb_true_iff in H36].
Qed.

Lemma not_alone wild k i : calls k -> ~ (forall j, viable wild k 2 j [1] -> j = i).
Proof.
  intros C H. pose proof (end_viable _ _ _ _ _ (ends wild k 4 [] C (Forall_nil _) [1] eq_refl)) as V4.
  assert (V2 : viable wild k 2 2 [1]).
  { pose proof (calls_setting wild k C) as S. exists (34, bottom wild k). apply (along_make _ _ _ 33); [apply alternatives|].
    apply (one_here _ _ _ _ _ _ (alt2 _ _ S)). unfold symbol; auto. }
  pose proof (H _ V2). pose proof (H _ V4). congruence.
Qed.
Lemma not_same wild k j1 j2 c : calls k -> along wild k 2 j1 [1] c -> along wild k 2 j2 [1] c -> j1 = j2.
Proof.
  intros C A1 A2. pose proof (calls_setting wild k C) as S. destruct (apart_spec _ _ S) as (P34 & P36 & N34 & N36 & _).
  apply along_escape in A1; [|exact C]. apply along_escape in A2; [|exact C]. cbn zeta in *. set (b := bottom wild k) in *.
  destruct A1 as [(-> & W1)|[(-> & W1)|(-> & W1)]], A2 as [(-> & W2)|[(-> & W2)|(-> & W2)]]; auto; exfalso;
  try apply P34 in W1; try apply P34 in W2; try apply P36 in W1; try apply P36 in W2; subst; auto; try (now inversion W1); try now inversion W2.
Qed.

(** * The decision *)

Definition right_alt (ts : list tok) (i : nat) : Prop :=
  match ts with
  | NORMAL _ :: _ => i = 1%nat
  | ESC :: SPACE :: _ => i = 2%nat
  | ESC :: ESC :: _ => i = 3%nat
  | ESC :: _ => i = 4%nat
  | _ => True
  end.

Lemma firstn_symbols n ts : Forall symbol (firstn n (map tok_type ts)).
Proof. apply Forall_forall. intros t I. pose proof (symbols ts) as F. rewrite Forall_forall in F. apply F. rewrite <- (firstn_skipn n). apply in_or_app. now left. Qed.

Lemma right_viable wild k ts i n : calls k -> right_alt ts i -> look ts = Some 1 \/ look ts = Some 3 -> (2 <= n)%nat ->
  viable wild k 2 i (firstn n (map tok_type ts)).
Proof.
  intros C R L Hn. destruct n as [|[|n]]; [lia|lia|]. apply end_viable. destruct ts as [|[| |r] ts]; cbn in L; try (destruct L; discriminate).
  - destruct ts as [|[| |r'] ts]; cbn [right_alt] in R; subst i.
    + cbn [map firstn tok_type]. apply (ends wild k 4 [] C (Forall_nil _) [1] eq_refl).
    + cbn [map firstn tok_type]. apply (ends wild k 3 _ C (firstn_symbols n ts) [1; 1] eq_refl).
    + cbn [map firstn tok_type]. apply (ends wild k 2 _ C (firstn_symbols n ts) [1; 2] eq_refl).
    + cbn [map firstn tok_type]. apply (ends wild k 4 (3 :: firstn n (map tok_type ts)) C) with (v := [1]); [|reflexivity].
      constructor; [unfold symbol; auto|apply firstn_symbols].
  - cbn [right_alt] in R; subst i. change (map tok_type (NORMAL r :: ts)) with (3 :: map tok_type ts). rewrite firstn_cons.
    apply (ends wild k 1 _ C (firstn_symbols (S n) ts) [3] eq_refl).
Qed.
Lemma right_end wild k ts i : calls k -> right_alt ts i -> look ts = Some 1 \/ look ts = Some 3 -> may_end wild k 2 i (map tok_type ts).
Proof.
  intros C R L. destruct ts as [|[| |r] ts]; cbn in L; try (destruct L; discriminate).
  - destruct ts as [|[| |r'] ts]; cbn [right_alt] in R; subst i.
    + apply (ends wild k 4 [] C (Forall_nil _) [1] eq_refl).
    + apply (ends wild k 3 _ C (symbols ts) [1; 1] eq_refl).
    + apply (ends wild k 2 _ C (symbols ts) [1; 2] eq_refl).
    + apply (ends wild k 4 _ C (symbols (NORMAL r' :: ts)) [1] eq_refl).
  - cbn [right_alt] in R; subst i. apply (ends wild k 1 _ C (symbols ts) [3] eq_refl).
Qed.

(** Longer looks leave nothing smaller than the right alternative. *)
Lemma least_viable wild k ts i j n : calls k -> right_alt ts i -> look ts = Some 1 \/ look ts = Some 3 -> (2 <= n)%nat -> (2 <= length ts)%nat ->
  viable wild k 2 j (firstn n (map tok_type ts)) -> (i <= j)%nat.
Proof.
  intros C R L Hn Hl (c & A). destruct n as [|[|n]]; [lia|lia|]. destruct ts as [|[| |r] ts]; cbn in L; try (destruct L; discriminate).
  - destruct ts as [|t ts]; [cbn in Hl; lia|]. cbn [map firstn] in A. apply along_escape_next in A; [|exact C|apply tok_symbol].
    destruct t; cbn [right_alt tok_type] in *; subst i; destruct A as [(-> & E)|[(-> & E)|E]]; try discriminate E; lia.
  - cbn [map firstn tok_type] in A. apply along_normal in A; [|exact C]. cbn [right_alt] in R. lia.
Qed.

Lemma right_exists ts : exists i, right_alt ts i.
Proof. destruct ts as [|[| |r] [|[| |r'] ts]]; cbn; eauto; exists 0%nat; exact I. Qed.
Lemma right_unique ts i j : look ts = Some 1 \/ look ts = Some 3 -> right_alt ts i -> right_alt ts j -> i = j.
Proof. destruct ts as [|[| |r] [|[| |r'] ts]]; cbn; intros [L|L]; try discriminate L; congruence. Qed.

Lemma predicts_right wild k ts i : calls k -> look ts = Some 1 \/ look ts = Some 3 -> predicts wild k 2 ts i -> right_alt ts i.
Proof.
  intros C L P. destruct (right_exists ts) as (i0 & R).
  assert (First : forall n, (0 < n)%nat -> n = 1%nat \/ (2 <= n)%nat) by (intros; lia).
  destruct (Nat.le_gt_cases 2 (length ts)) as [Len|Len].
  - enough (i = i0) by (subst; exact R). destruct P as [n Hn V U|n j1 j2 c Hn V M NE A1 A2|V M].
    + destruct (First n) as [->|N2]; [lia| |].
      * destruct ts as [|[| |r] ts]; cbn in L; try (destruct L; discriminate); cbn [map firstn tok_type] in *.
        -- elim (not_alone wild k i C U).
        -- destruct V as (c & A). apply along_normal in A; [|exact C]. cbn in R. congruence.
      * symmetry. apply U. apply right_viable; auto.
    + destruct (First n) as [->|N2]; [lia| |].
      * destruct ts as [|[| |r] ts]; cbn in L; try (destruct L; discriminate); cbn [map firstn tok_type] in *.
        -- elim NE. exact (not_same wild k j1 j2 c C A1 A2).
        -- destruct V as (c' & A). apply along_normal in A; [|exact C]. cbn in R. congruence.
      * apply Nat.le_antisymm; [apply M; apply right_viable; auto|]. eapply least_viable; eauto.
    + apply Nat.le_antisymm; [apply M; apply right_end; auto|]. apply end_viable in V.
      rewrite <- (firstn_all (map tok_type ts)), map_length in V. eapply least_viable; eauto.
  - destruct ts as [|t [|? ?]]; cbn in Len; try lia; [cbn in L; destruct L; discriminate|]. cbn [length] in P.
    destruct t; cbn in L; try (destruct L; discriminate); cbn [right_alt].
    + destruct P as [n Hn V U|n j1 j2 c Hn V M NE A1 A2|V M]; [| |].
      * assert (n = 1%nat) as -> by (cbn in Hn; lia). elim (not_alone wild k i C U).
      * assert (n = 1%nat) as -> by (cbn in Hn; lia). elim NE. exact (not_same wild k j1 j2 c C A1 A2).
      * destruct V as (c & A & St & _). pose proof (calls_setting wild k C) as S. destruct (apart_spec _ _ S) as (P34 & P36 & _ & _ & S34 & S36).
        apply along_escape in A; [|exact C]. cbn zeta in A.
        destruct A as [(-> & W)|[(-> & W)|(-> & W)]]; [apply P34 in W|apply P36 in W|reflexivity]; subst c; cbn [fst] in St; congruence.
    + destruct P as [n Hn V U|n j1 j2 c Hn V M NE A1 A2|V M].
      * assert (n = 1%nat) as -> by (cbn in Hn; lia). destruct V as (c & A). exact (along_normal wild k i [] c C A).
      * assert (n = 1%nat) as -> by (cbn in Hn; lia). destruct V as (c' & A). exact (along_normal wild k i [] c' C A).
      * apply end_viable in V. destruct V as (c & A). exact (along_normal wild k i [] c C A).
Qed.

Lemma predicts_some wild k ts i : calls k -> look ts = Some 1 \/ look ts = Some 3 -> right_alt ts i -> predicts wild k 2 ts i.
Proof.
  intros C L R. apply P_end; [apply right_end; auto|]. intros j V. apply end_viable in V as V'.
  destruct (Nat.le_gt_cases 2 (length ts)) as [Len|Len].
  - rewrite <- (firstn_all (map tok_type ts)), map_length in V'. eapply least_viable; eauto.
  - enough (right_alt ts j) by (rewrite (right_unique ts i j L R H); lia).
    destruct ts as [|t [|? ?]]; cbn in Len; try lia; [cbn in L; destruct L; discriminate|].
    destruct t; cbn in L; try (destruct L; discriminate); cbn [right_alt].
    + destruct V as (c & A & St & _). pose proof (calls_setting wild k C) as S. destruct (apart_spec _ _ S) as (P34 & P36 & _ & _ & S34 & S36).
      apply along_escape in A; [|exact C]. cbn zeta in A.
      destruct A as [(-> & W)|[(-> & W)|(-> & W)]]; [apply P34 in W|apply P36 in W|reflexivity]; subst c; cbn [fst] in St; congruence.
    + destruct V' as (c & A). exact (along_normal wild k j [] c C A).
Qed.

Lemma always_viable wild k ts : calls k -> look ts = Some 1 \/ look ts = Some 3 -> ~ no_viable wild k 2 ts.
Proof.
  intros C L. destruct (right_exists ts) as (i & R). intros [(n & Hn & NV)|NE].
  - destruct n as [|n]; [lia|]. destruct ts as [|t ts]; [cbn in Hn; lia|]. destruct t; cbn in L; try (destruct L; discriminate).
    + apply (NV 4%nat). cbn [map firstn tok_type]. apply end_viable. apply (ends wild k 4 _ C (firstn_symbols n ts) [1] eq_refl).
    + apply (NV 1%nat). cbn [map firstn tok_type]. apply end_viable. apply (ends wild k 1 _ C (firstn_symbols n ts) [3] eq_refl).
  - exact (NE i (right_end wild k ts i C R L)).
Qed.

(** * Synchronisation *)

Transparent eps_succ closure is_stop mem closed.
Lemma sync_end s e : mem (e, []) (closure G false 30 (s, [])) && is_stop G e && (rule_at G e =? rule_at G s) = true -> forall ts, in_sync s ts.
Proof.
  intros H ts. apply andb_prop in H as [H E]. apply andb_prop in H as [M S]. apply mem_In in M. apply closure_sound in M. apply N.eqb_eq in E.
  left. exists e. auto.
Qed.
Lemma sync_17 ts : in_sync 17 ts.
Proof. apply (sync_end 17 1). vm_compute. reflexivity. Qed.
Lemma sync_19 ts : in_sync 19 ts.
Proof. apply (sync_end 19 1). vm_compute. reflexivity. Qed.
Lemma sync_29 ts : in_sync 29 ts.
Proof. apply (sync_end 29 9). vm_compute. reflexivity. Qed.
Lemma sync_31 ts : in_sync 31 ts.
Proof. apply (sync_end 31 9). vm_compute. reflexivity. Qed.
Lemma sync_38 ts : look ts = Some 1 \/ look ts = Some 3 -> in_sync 38 ts.
Proof.
  intros L. right.
  assert (H : forall t d, mem (d, []) (closure G false 30 (38, [])) = true -> (exists c, tok_succ G t (d, []) = [c]) -> look ts = Some t ->
    exists t c, look ts = Some t /\ walks G false (38, []) [] c /\ tok_succ G t c <> []).
  { intros t d M (c & E) Lt. exists t, (d, []). split; [exact Lt|]. split; [apply (closure_sound _ _ 30); now apply mem_In|]. rewrite E. discriminate. }
  destruct L as [L|L]; [apply (H 1 37)|apply (H 3 32)]; auto; try (vm_compute; reflexivity); eexists; vm_compute; reflexivity.
Qed.
Opaque eps_succ closure is_stop mem closed.

(** * The rule functions *)

Lemma calls_cmd : calls (called_at 26 (called_at 24 (called_at 20 (called_at 12 [])))).
Proof. left. reflexivity. Qed.
Lemma calls_par : calls (called_at 26 (called_at 24 (called_at 22 (called_at 14 [])))).
Proof. right. reflexivity. Qed.

(** Character takes what the model of parser.go's grammar takes. *)
Definition first_char (ts : list tok) : list tok * list tok :=
  match ts with
  | ESC :: SPACE :: t => ([ESC; SPACE], t)
  | ESC :: ESC :: t => ([ESC; ESC], t)
  | c :: t => ([c], t)
  | [] => ([], [])
  end.
Lemma character_spec k ts r : calls k -> look ts = Some 1 \/ look ts = Some 3 ->
  character_run k ts r <-> r = Parsed (fst (first_char ts)) (snd (first_char ts)).
Proof.
  intros C L. assert (A : forall i, right_alt ts i -> character_alt i ts = Parsed (fst (first_char ts)) (snd (first_char ts))).
  { intros i R. destruct ts as [|[| |r'] [|[| |r''] ts]]; cbn in L; try (destruct L; discriminate); cbn [right_alt] in R; subst i; reflexivity. }
  split.
  - intros H. destruct H as [NS|wild S NV|wild i S P].
    + elim NS. now apply sync_38.
    + elim (always_viable wild k ts C L NV).
    + apply A. eapply predicts_right; eauto.
  - intros ->. destruct (right_exists ts) as (i & R). rewrite <- (A i R). apply (Chr_alt k ts false); [now apply sync_38|]. now apply predicts_some.
Qed.

Lemma raw_unfold ts : look ts = Some 1 \/ look ts = Some 3 ->
  raw_string ts = (let '(cs, rest) := raw_string (snd (first_char ts)) in (fst (first_char ts) :: cs, rest)).
Proof. intros L. destruct ts as [|[| |r'] [|[| |r''] ts]]; cbn in L; try (destruct L; discriminate); reflexivity. Qed.
Lemma raw_stop ts : look ts <> Some 1 -> look ts <> Some 3 -> raw_string ts = ([], ts).
Proof. intros A B. destruct ts as [|[| |r'] ts]; cbn in *; try congruence; reflexivity. Qed.
Lemma first_char_shorter ts : look ts = Some 1 \/ look ts = Some 3 -> (length (snd (first_char ts)) < length ts)%nat.
Proof. intros L. destruct ts as [|[| |r'] [|[| |r''] ts]]; cbn in L; try (destruct L; discriminate); cbn; lia. Qed.

Definition looping (s : N) : Prop := s = 29 \/ s = 31.
Lemma sync_loop s ts : looping s -> in_sync s ts.
Proof. intros [->| ->]; [apply sync_29|apply sync_31]. Qed.

Lemma raw_sound k s ts r : calls (called_at 26 k) -> looping s -> raw_run k s ts r ->
  r = Parsed (fst (raw_string ts)) (snd (raw_string ts)).
Proof.
  intros C Ls H. induction H as [s ts NS|s ts S A B|s ts S L H|s ts c rest r S L H W IH].
  - elim NS. now apply sync_loop.
  - rewrite raw_stop by assumption. reflexivity.
  - apply character_spec in H; [discriminate H|exact C|exact L].
  - apply character_spec in H; [|exact C|exact L]. injection H as -> ->. rewrite IH by (right; reflexivity).
    rewrite (raw_unfold ts L). destruct (raw_string (snd (first_char ts))). reflexivity.
Qed.
Lemma raw_complete k : calls (called_at 26 k) -> forall n ts s, (length ts <= n)%nat -> looping s ->
  raw_run k s ts (Parsed (fst (raw_string ts)) (snd (raw_string ts))).
Proof.
  intros C. induction n as [|n IH]; intros ts s Hn Ls.
  - destruct ts; [|cbn in Hn; lia]. apply Raw_stop; [now apply sync_loop|discriminate|discriminate].
  - assert (D : (look ts = Some 1 \/ look ts = Some 3) \/ (look ts <> Some 1 /\ look ts <> Some 3)).
    { destruct ts as [|[| |] ?]; cbn; auto; right; split; discriminate. }
    destruct D as [L|[A B]]; [|rewrite raw_stop by assumption; apply Raw_stop; auto using sync_loop].
    pose proof (first_char_shorter ts L).
    pose proof (Raw_more k s ts (fst (first_char ts)) (snd (first_char ts)) _ (sync_loop s ts Ls) L
      (proj2 (character_spec _ ts _ C L) eq_refl) (IH (snd (first_char ts)) 31 ltac:(lia) (or_intror eq_refl))) as W.
    rewrite (raw_unfold ts L). destruct (raw_string (snd (first_char ts))). exact W.
Qed.

Lemma raw_rest_length ts : (length (snd (raw_string ts)) <= length ts)%nat.
Proof.
  remember (length ts) as n eqn:E. revert ts E. induction n as [n IH] using lt_wf_ind; intros ts ->.
  destruct ts as [|t ts']; [cbn; lia|]. set (ts := t :: ts') in *.
  assert (D : (look ts = Some 1 \/ look ts = Some 3) \/ (look ts <> Some 1 /\ look ts <> Some 3)).
  { destruct t; cbn; auto; right; split; discriminate. }
  destruct D as [L|[A B]]; [|rewrite raw_stop by assumption; cbn; lia].
  rewrite (raw_unfold ts L). pose proof (first_char_shorter ts L) as Sh. specialize (IH _ Sh (snd (first_char ts)) eq_refl).
  destruct (raw_string (snd (first_char ts))). cbn [snd] in *. lia.
Qed.
Lemma raw_rest ts : snd (raw_string ts) = [] \/ exists t, snd (raw_string ts) = SPACE :: t.
Proof.
  remember (length ts) as n eqn:E. revert ts E. induction n as [n IH] using lt_wf_ind; intros ts ->.
  assert (D : (look ts = Some 1 \/ look ts = Some 3) \/ (look ts <> Some 1 /\ look ts <> Some 3)).
  { destruct ts as [|[| |] ?]; cbn; auto; right; split; discriminate. }
  destruct D as [L|[A B]].
  - rewrite (raw_unfold ts L). pose proof (first_char_shorter ts L) as Sh. specialize (IH _ Sh (snd (first_char ts)) eq_refl).
    destruct (raw_string (snd (first_char ts))). exact IH.
  - rewrite raw_stop by assumption. destruct ts as [|[| |] ts]; cbn in *; try congruence; eauto.
Qed.

Definition looping2 (s : N) : Prop := s = 17 \/ s = 19.
Lemma sync_loop2 s ts : looping2 s -> in_sync s ts.
Proof. intros [->| ->]; [apply sync_17|apply sync_19]. Qed.

Lemma parameters_fuel : forall f ts, (length ts <= f)%nat -> parameters_loop f ts = parameters_loop (length ts) ts.
Proof.
  assert (H : forall n f g ts, (length ts <= n)%nat -> (length ts <= f)%nat -> (length ts <= g)%nat -> parameters_loop f ts = parameters_loop g ts).
  { induction n as [|n IH]; intros f g ts Hn Hf Hg.
    - destruct ts; [|cbn in Hn; lia]. destruct f, g; reflexivity.
    - destruct ts as [|t ts]; [destruct f, g; reflexivity|]. cbn [length] in *. destruct f as [|f]; [lia|]. destruct g as [|g]; [lia|].
      cbn [parameters_loop]. destruct t; try reflexivity. pose proof (raw_rest_length ts). destruct (raw_string ts) as [p rest]. cbn [snd] in *.
      f_equal. apply IH; lia. }
  intros f ts Hf. eapply H; eauto.
Qed.
Lemma parameters_unfold ts : parameters_loop (length (SPACE :: ts)) (SPACE :: ts) =
  fst (raw_string ts) :: parameters_loop (length (snd (raw_string ts))) (snd (raw_string ts)).
Proof.
  cbn [length parameters_loop]. pose proof (raw_rest_length ts). destruct (raw_string ts) as [p rest]. cbn [fst snd] in *. f_equal. now apply parameters_fuel.
Qed.

(** Only ends and spaces come up in the loop of Line. *)
Definition at_param (ts : list tok) : Prop := ts = [] \/ exists t, ts = SPACE :: t.
Lemma parameters_sound s ts r : looping2 s -> at_param ts -> parameters_run s ts r -> r = Parsed (parameters_loop (length ts) ts) [].
Proof.
  intros Ls At H. induction H as [s ts NS|s ts S A|s ts S L M|s ts t ts1 S L M B|s ts t ts1 p rest r S L M B W IH].
  - elim NS. now apply sync_loop2.
  - destruct At as [->|(t & ->)]; [reflexivity|elim A; reflexivity].
  - destruct At as [->|(t & ->)]; [discriminate L|discriminate M].
  - destruct At as [->|(t' & ->)]; [discriminate L|]. cbn in M. injection M as <- <-.
    apply raw_sound in B; [discriminate B|exact calls_par|left; reflexivity].
  - destruct At as [->|(t' & ->)]; [discriminate L|]. cbn in M. injection M as <- <-.
    apply raw_sound in B; [|exact calls_par|left; reflexivity]. injection B as -> ->.
    rewrite IH; [|right; reflexivity|apply raw_rest]. rewrite parameters_unfold. reflexivity.
Qed.
Lemma parameters_complete : forall n ts s, (length ts <= n)%nat -> looping2 s -> at_param ts ->
  parameters_run s ts (Parsed (parameters_loop (length ts) ts) []).
Proof.
  induction n as [|n IH]; intros ts s Hn Ls At.
  - destruct ts; [|cbn in Hn; lia]. apply Par_stop; [now apply sync_loop2|discriminate].
  - destruct At as [->|(t & ->)]; [apply Par_stop; [now apply sync_loop2|discriminate]|].
    pose proof (raw_rest_length t) as Sh. cbn [length] in Hn.
    pose proof (Par_more s (SPACE :: t) SPACE t _ _ _ (sync_loop2 s _ Ls) eq_refl eq_refl
      (raw_complete _ calls_par _ t 29 (le_n _) (or_introl eq_refl))
      (IH (snd (raw_string t)) 19 ltac:(lia) (or_intror eq_refl) (raw_rest t))) as W.
    rewrite parameters_unfold. exact W.
Qed.

Lemma line_spec ts r : line_run ts r <-> r = Parsed (parse_line ts) [].
Proof.
  assert (E : parse_line ts = {| t_command := fst (raw_string ts); t_parameters := parameters_loop (length (snd (raw_string ts))) (snd (raw_string ts)) |}).
  { unfold parse_line. pose proof (raw_rest_length ts). destruct (raw_string ts) as [c rest]. cbn [fst snd] in *. f_equal. now apply parameters_fuel. }
  split.
  - intros H. destruct H as [B|c rest r B W].
    + apply raw_sound in B; [discriminate B|exact calls_cmd|left; reflexivity].
    + apply raw_sound in B; [|exact calls_cmd|left; reflexivity]. injection B as -> ->.
      apply parameters_sound in W; [|left; reflexivity|apply raw_rest]. subst r. rewrite E. reflexivity.
  - intros ->. rewrite E.
    exact (Line_tree ts _ _ _ (raw_complete _ calls_cmd _ ts 29 (le_n _) (or_introl eq_refl))
      (parameters_complete _ _ 17 (le_n _) (or_introl eq_refl) (raw_rest ts))).
Qed.
