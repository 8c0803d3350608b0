From Verif Require Import GoBase GoBaseFacts GoFmt PlaylistModel PlaylistSpec PlaylistProofs.
From Verif Require Import ParserModel ParserSpec CommandsModel CommandsSpec.
From Coq Require Import Sorting.Sorted Sorting.Permutation.
Local Open Scope Z_scope.

(* ------------------------------------------------------------------ *)
(** ** queue *)

Lemma insert_at_end_of b a s i : 0 <= i -> (zlen b = i \/ (a = [] /\ zlen b <= i)) ->
  insert_song (b ++ a) s i = Ok ((b ++ [s]) ++ a).
Proof.
  intros Hi Hb.
  destruct (insert_song_spec (b ++ a) s i) as (l' & E & (b' & a' & Ea & Eb & ->)).
  rewrite E. f_equal.
  assert (zlen b' = zlen b).
  { rewrite Eb. unfold clip. rewrite zlen_app. pose proof (zlen_nonneg a). pose proof (zlen_nonneg b).
    destruct Hb as [Hb|[-> Hb]]; [lia|]. unfold zlen in *. cbn [length] in *. lia. }
  destruct (app_split_eq b b' a a' Ea) as [-> ->]; [unfold zlen in *; lia|].
  now rewrite <- app_assoc.
Qed.

Lemma insert_each_spec l : forall pos i b a,
  0 <= pos + i -> (zlen b = pos + i \/ (a = [] /\ zlen b <= pos + i)) -> pos + i + zlen l <= 2 ^ 63 ->
  insert_each (b ++ a) l pos i = Ok (b ++ l ++ a).
Proof.
  induction l as [|s l IH]; intros pos i b a H0 Hb Hl; [reflexivity|].
  rewrite zlen_cons in Hl. pose proof (zlen_nonneg l).
  cbn [insert_each]. rewrite wrap64_id by (unfold in_int64; lia).
  rewrite insert_at_end_of by assumption. cbn [obind].
  rewrite IH.
  - rewrite <- app_assoc. reflexivity.
  - lia.
  - rewrite zlen_app, zlen_cons, zlen_nil. destruct Hb as [Hb|[-> Hb]]; [left; lia|right; split; [reflexivity|lia]].
  - lia.
Qed.

Lemma insert_each_neg l : forall songs pos i,
  pos + i <= 0 -> - 2 ^ 63 <= pos + i -> zlen l < 2 ^ 62 ->
  insert_each songs l pos i =
    Ok (skipn (Z.to_nat (- (pos + i))) l ++ rev (firstn (Z.to_nat (- (pos + i))) l) ++ songs).
Proof.
  induction l as [|s l IH]; intros songs pos i H0 H1 Hl.
  - cbn [insert_each]. now rewrite skipn_nil, firstn_nil.
  - rewrite zlen_cons in Hl. pose proof (zlen_nonneg l).
    destruct (Z.eq_dec (pos + i) 0) as [E|E].
    + pose proof (insert_each_spec (s :: l) pos i [] songs) as P. cbn [app] in P. rewrite P.
      * rewrite E. reflexivity.
      * lia.
      * left. rewrite zlen_nil. lia.
      * rewrite zlen_cons. lia.
    + cbn [insert_each]. rewrite wrap64_id by (unfold in_int64; lia).
      assert (I : insert_song songs s (pos + i) = Ok (s :: songs)).
      { destruct (insert_song_spec songs s (pos + i)) as (l' & El & (b' & a' & Ea & Eb & ->)).
        rewrite El. f_equal. assert (zlen b' = 0) by (rewrite Eb; unfold clip; pose proof (zlen_nonneg songs); lia).
        destruct b'; [|rewrite zlen_cons in *; pose proof (zlen_nonneg b'); lia]. cbn in *. now subst. }
      rewrite I. cbn [obind]. rewrite IH by lia.
      replace (Z.to_nat (- (pos + i))) with (S (Z.to_nat (- (pos + (i + 1))))) by lia.
      cbn [skipn firstn rev]. rewrite <- !app_assoc. reflexivity.
Qed.

Lemma fold_add_song l : forall songs, fold_left add_song l songs = songs ++ l.
Proof.
  induction l as [|s l IH]; intro songs; cbn [fold_left]; [now rewrite app_nil_r|].
  rewrite IH. unfold add_song. now rewrite <- app_assoc.
Qed.

Lemma insert_each_ok l : forall songs pos i, exists r, insert_each songs l pos i = Ok r /\ zlen r = zlen songs + zlen l.
Proof.
  induction l as [|s l IH]; intros songs pos i; cbn [insert_each].
  - exists songs. rewrite zlen_nil. split; [reflexivity|lia].
  - destruct (insert_song_spec songs s (wrap64 (pos + i))) as (l' & E & I). rewrite E. cbn [obind].
    destruct (IH l' pos (i + 1)) as (r & R & L). exists r. split; [exact R|].
    rewrite L, (inserted_at_len _ _ _ _ I), zlen_cons. lia.
Qed.

(* ------------------------------------------------------------------ *)
(** ** The registry *)

Lemma registered_perm cs reg : registered cs reg -> Permutation cs reg /\ StronglySorted name_le reg.
Proof.
  induction 1 as [|cs reg c reg' H [P _] Q S].
  - split; [constructor|constructor].
  - split; [|exact S]. rewrite <- Q. now apply Permutation_app_tail.
Qed.

Lemma command_named_some reg name c : command_named reg name = Some c -> In c reg /\ cmd_name c = name.
Proof.
  unfold command_named. intro H. apply find_some in H as [A B]. now apply text_eqb_eq in B.
Qed.

Lemma command_named_none reg name : command_named reg name = None -> forall c, In c reg -> cmd_name c <> name.
Proof.
  unfold command_named. intros H c Hc E. pose proof (find_none _ _ H c Hc) as N. cbv beta in N.
  apply text_eqb_neq in N. congruence.
Qed.

Lemma in_name_unique reg c d : NoDup (map cmd_name reg) -> In c reg -> In d reg -> cmd_name c = cmd_name d -> c = d.
Proof.
  induction reg as [|x reg IH]; intros N Hc Hd E; [contradiction|].
  cbn in N. inversion N as [|? ? N1 N2]; subst.
  destruct Hc as [->|Hc], Hd as [->|Hd]; auto.
  - exfalso. apply N1. rewrite E. now apply in_map.
  - exfalso. apply N1. rewrite <- E. now apply in_map.
Qed.

(* ------------------------------------------------------------------ *)
(** ** The session *)

Lemma chomp_printed msg : printed msg (chomp msg ++ [10%N]).
Proof.
  unfold chomp, printed. destruct (has_suffix msg [10%N]) eqn:E.
  - apply has_suffix_spec in E as [r ->]. left. exists r. rewrite removelast_last. auto.
  - right. split; [|reflexivity]. intros m ->.
    assert (has_suffix (m ++ [10%N]) [10%N] = true) by (apply has_suffix_spec; eauto). congruence.
Qed.

Definition parsed_as (line name : text) (args : list text) : Prop :=
  parse_command line = {| p_command := name; p_params := args |}.

Lemma handle_line_does reg line st go st' out :
  handle_line reg line st = Ok (go, st', out) ->
  exists name args, parsed_as line name args /\ line_does reg name args st go st' out.
Proof.
  intro H. exists (p_command (parse_command line)), (p_params (parse_command line)).
  split; [unfold parsed_as; now destruct (parse_command line)|].
  unfold handle_line in H. set (name := p_command (parse_command line)) in *. set (args := p_params (parse_command line)) in *.
  destruct (command_named reg name) as [c|] eqn:E.
  - apply command_named_some in E as [Hi Hn]. unfold exec_command in H.
    destruct (cmd_exec c args st) as [[[msg ok] st1]|] eqn:X; cbn [obind] in H; [|discriminate].
    destruct ok; cbn [obind] in H; injection H as <- <- <-.
    + eapply L_run; eauto. apply chomp_printed.
    + eapply L_usage; eauto.
  - pose proof (command_named_none _ _ E) as N.
    destruct (text_eqb name (T "clear")) eqn:C1.
    { apply text_eqb_eq in C1. injection H as <- <- <-. rewrite C1 in *. now apply L_clear. }
    destruct (text_eqb name (T "exit")) eqn:C2.
    { apply text_eqb_eq in C2. injection H as <- <- <-. rewrite C2 in *. now apply L_exit. }
    injection H as <- <- <-. apply text_eqb_neq in C1, C2. now apply L_unknown.
Qed.

Lemma read_loop_session reg ins : forall st e st' out, no_interrupt ins ->
  read_loop reg ins st = Ok (e, st', out) ->
  session reg parsed_as ins st e st' out.
Proof.
  induction ins as [|i ins IH]; intros st e st' out N H.
  - cbn in H. injection H as <- <- <-. constructor.
  - inversion N as [|? ? N1 N2]; subst. destruct i as [l|l| |]; cbn [read_loop] in H.
    + destruct (handle_line reg l st) as [[[go st1] out1]|] eqn:E; cbn [obind] in H; [|discriminate].
      destruct (handle_line_does _ _ _ _ _ _ E) as (name & args & M & D).
      destruct go.
      * destruct (read_loop reg ins st1) as [[[e2 st2] out2]|] eqn:R; cbn [obind] in H; [|discriminate].
        injection H as <- <- <-. eapply Se_line; eauto.
      * injection H as <- <- <-. eapply Se_exit; eauto.
    + exfalso. now apply (N1 l).
    + injection H as <- <- <-. constructor.
    + injection H as <- <- <-. constructor.
Qed.

Lemma read_loop_interrupt reg ins : forall st, read_loop reg ins st = read_loop reg (map entered ins) st.
Proof.
  induction ins as [|i ins IH]; intro st; [reflexivity|].
  destruct i as [l|l| |]; cbn [map entered read_loop]; try reflexivity;
    destruct (handle_line reg l st) as [[[go st1] out1]|]; cbn [obind]; try reflexivity;
    destruct go; try reflexivity; now rewrite IH.
Qed.

(* ------------------------------------------------------------------ *)
(** ** playlist *)

Lemma playlist_entries_nth w l : forall i k s, nth_error l k = Some s ->
  nth_error (playlist_entries w i l) k = Some (playlist_entry w (i + Z.of_nat k) s).
Proof.
  induction l as [|x l IH]; intros i k s H; [destruct k; discriminate|].
  destruct k as [|k]; cbn [nth_error playlist_entries] in H |- *.
  - injection H as ->. now rewrite Z.add_0_r.
  - rewrite (IH (i + 1) k s H). do 2 f_equal. lia.
Qed.

Lemma playlist_entries_len w l : forall i, length (playlist_entries w i l) = length l.
Proof. induction l as [|x l IH]; intro i; cbn; [reflexivity|now rewrite IH]. Qed.
