(** Proofs about the streaming loop together with its channels. *)
From Verif Require Import GoBase GoBaseFacts PlaylistModel PlaylistSpec PlaylistProofs PlaylistLoopProofs ChanModel ChanSpec ChanProofs
  LatencyModel LatencySpec.
From Coq Require Import ZifyBool ZifyNat.
Local Open Scope Z_scope.

Lemma to_push_stream es : to_push es = stream_of es.
Proof. unfold to_push, stream_of. induction es as [|[] es IH]; cbn [flat_map samples_of_event]; rewrite ?IH; reflexivity. Qed.

Lemma no_sound_nans n : Forall no_sound (repeat nan_sample n).
Proof. induction n; constructor; [split; reflexivity|assumption]. Qed.

Section L.
Variable decode : song -> option (list sample).
Variable nb : Z.

(** What one step of the loop pushes: at most 512 samples, or silence. *)
Lemma step_pushes s a s' es : pstep decode nb s a = Some (s', es) ->
  (of_loop a = false -> es = []) /\ ((length (stream_of es) <= 512)%nat \/ Forall no_sound (stream_of es)).
Proof.
  intros H. apply pstep_stepped in H. destruct H; (split; [try discriminate; reflexivity|]);
    cbn [stream_of flat_map samples_of_event app length]; try (left; lia); rewrite ?app_nil_r; unfold nan_samples;
    try (right; apply no_sound_nans).
  left. subst blk. rewrite firstn_length. unfold streamer_buffer_size. lia.
Qed.

(** The block being pushed. *)
Definition bounded (s : source) : Prop :=
  (length (so_push s) + length (todo_low (so_chan s)) <= 512)%nat \/ Forall no_sound (so_push s).

(** What a step keeps. *)
Lemma sstep_keeps s a s' es : Inv (so_chan s) -> bounded s -> sstep decode nb s a = Some (s', es) ->
  prun decode nb (so_loop s) (loop_part [a]) = Some (so_loop s', es) /\
  Inv (so_chan s') /\ cap (so_chan s') = cap (so_chan s) /\ bounded s' /\
  hist (so_chan s') ++ so_push s' = hist (so_chan s) ++ so_push s ++ stream_of es.
Proof.
  intros I B H. unfold sstep in H.
  assert (Hc : match a with
    | SoLoop a0 => (of_loop a0 && negb (pushed_all s))%bool = false /\
        exists p, pstep decode nb (so_loop s) a0 = Some (p, es) /\ s' = {| so_loop := p; so_push := so_push s ++ to_push es; so_chan := so_chan s |}
    | SoPush => es = [] /\ exists x r c, so_push s = x :: r /\ cstep (so_chan s) (CPush x) = Some c /\ s' = {| so_loop := so_loop s; so_push := r; so_chan := c |}
    | SoChan a0 => es = [] /\ (forall x, a0 <> CPush x) /\ exists c, cstep (so_chan s) a0 = Some c /\ s' = {| so_loop := so_loop s; so_push := so_push s; so_chan := c |}
    end).
  { destruct (at_pc (so_loop s)); try discriminate H; destruct a as [a0| |a0];
      try (destruct (of_loop a0 && negb (pushed_all s))%bool; [discriminate H|]; split; [reflexivity|];
           destruct (pstep decode nb (so_loop s) a0) as [[p e]|] eqn:E; [|discriminate H]; injection H as <- <-; exists p; split; reflexivity);
      try (destruct (so_push s) as [|x r]; [discriminate H|]; destruct (cstep (so_chan s) (CPush x)) as [c|] eqn:E; [|discriminate H];
           injection H as <- <-; split; [reflexivity|]; exists x, r, c; split; [reflexivity|]; split; [exact E|reflexivity]);
      (destruct a0 as [x| | | |k| | |]; [discriminate H|..];
        (match type of H with match ?c with _ => _ end = _ => destruct c as [c1|] eqn:E; [|discriminate H] end;
         injection H as <- <-; split; [reflexivity|]; split; [intros y Q; discriminate Q|]; exists c1; split; [first [exact E|reflexivity]|reflexivity])). }
  clear H. destruct a as [a0| |a0].
  - destruct Hc as (G & p & E & ->). cbn [so_loop so_chan so_push loop_part]. rewrite to_push_stream.
    split; [cbn [prun]; now rewrite E, app_nil_r|]. split; [exact I|]. split; [reflexivity|].
    split; [|now rewrite app_assoc].
    destruct (step_pushes _ _ _ _ E) as [N L]. unfold bounded in *. cbn [so_push so_chan].
    destruct (of_loop a0) eqn:Ol.
    + cbn [andb] in G. unfold pushed_all in G. destruct (so_push s); [|discriminate G]. cbn [app]. unfold todo_low.
      destruct (prod (so_chan s)); try discriminate G. cbn [length]. destruct L as [L|L]; [left; lia|now right].
    + rewrite (N eq_refl). cbn [stream_of flat_map]. rewrite app_nil_r. exact B.
  - destruct Hc as (-> & x & r & c & Pu & E & ->). cbn [so_loop so_chan so_push loop_part prun stream_of flat_map].
    split; [reflexivity|]. split; [exact (inv_step _ _ _ I E)|]. split; [exact (cap_step _ _ _ E)|].
    cbn [cstep] in E. destruct x as [l h]. destruct (prod (so_chan s)) eqn:Pr; try discriminate E. injection E as <-.
    split.
    + unfold bounded in *. cbn [so_push so_chan]. rewrite Pu in B. unfold todo_low in *. cbn [prod length] in *. rewrite Pr in B.
      destruct B as [B|B]; [left; cbn [length] in B; lia|right; now inversion B].
    + cbn [hist]. rewrite Pu, app_nil_r, <- app_assoc. reflexivity.
  - destruct Hc as (-> & Np & c & E & ->). cbn [so_loop so_chan so_push loop_part prun stream_of flat_map].
    split; [reflexivity|]. split; [exact (inv_step _ _ _ I E)|]. split; [exact (cap_step _ _ _ E)|].
    rewrite app_nil_r. unfold bounded in *. cbn [so_push so_chan].
    assert (K : hist c = hist (so_chan s) /\ (length (todo_low c) <= length (todo_low (so_chan s)))%nat).
    { unfold todo_low. destruct a0 as [x| | | |k| | |]; [now elim (Np x)|..]; cbn [cstep] in E;
        repeat match type of E with context [match ?t with _ => _ end] => destruct t eqn:?; try discriminate E end;
        injection E as <-; cbn [hist prod length] in *; repeat match goal with Q : prod _ = _ |- _ => rewrite ?Q; clear Q end; cbn [length]; split; try reflexivity; lia. }
    destruct K as [K1 K2]. split; [destruct B as [B|B]; [left; lia|now right]|]. now rewrite K1.
Qed.

Lemma loop_part_cons a r : loop_part (a :: r) = loop_part [a] ++ loop_part r.
Proof. now destruct a. Qed.

Lemma srun_keeps acts : forall s s' es, Inv (so_chan s) -> bounded s -> srun decode nb s acts = Some (s', es) ->
  prun decode nb (so_loop s) (loop_part acts) = Some (so_loop s', es) /\
  Inv (so_chan s') /\ cap (so_chan s') = cap (so_chan s) /\ bounded s' /\
  hist (so_chan s') ++ so_push s' = hist (so_chan s) ++ so_push s ++ stream_of es.
Proof.
  induction acts as [|a acts IH]; intros s s' es I B R; cbn [srun] in R.
  - injection R as <- <-. cbn [loop_part prun stream_of flat_map]. rewrite app_nil_r. auto.
  - destruct (sstep decode nb s a) as [[s1 e1]|] eqn:E; [|discriminate].
    destruct (srun decode nb s1 acts) as [[s2 e2]|] eqn:R2; [|discriminate]. injection R as <- <-.
    destruct (sstep_keeps _ _ _ _ I B E) as (P1 & I1 & C1 & B1 & H1).
    destruct (IH _ _ _ I1 B1 R2) as (P2 & I2 & C2 & B2 & H2).
    split; [rewrite loop_part_cons, (prun_app decode nb), P1, P2; reflexivity|]. split; [exact I2|]. split; [congruence|]. split; [exact B2|].
    rewrite H2, app_assoc, H1, stream_of_app, <- !app_assoc. reflexivity.
Qed.

Lemma new_ok l c : Inv (so_chan (new_source l c)) /\ bounded (new_source l c).
Proof. split; [apply inv_init|left; cbn; lia]. Qed.

Lemma heard_length s : Inv (so_chan s) -> length (heard_so_far s) = length (lows (returned (so_chan s))).
Proof.
  intros I. unfold heard_so_far. destruct (handed_out_combine _ (i_ret _ I)) as [-> Hl]. rewrite combine_length. lia.
Qed.

(** The part of the stream that is settled. *)
Lemma settled_split s : Inv (so_chan s) -> bounded s ->
  exists a b, hist (so_chan s) ++ so_push s = a ++ b /\ (length a <= settled s (cap (so_chan s)))%nat /\ Forall no_sound b /\
    is_prefix (heard_so_far s) a /\ (b = [] \/ b = so_push s).
Proof.
  intros I B. destruct (inv_prefix _ I) as [rest Hr]. destruct (inv_counts _ I) as [C _]. pose proof (i_capl _ I) as Q. pose proof (i_fill _ I) as F.
  assert (G : (length (got_low (so_chan s)) <= asked_for s)%nat).
  { unfold got_low, asked_for. destruct (fill (so_chan s)); [cbn; lia|lia]. }
  assert (T : (length (todo_low (so_chan s)) <= 1)%nat). { unfold todo_low. destruct (prod (so_chan s)); cbn; lia. }
  unfold settled. rewrite (heard_length _ I). destruct B as [B|B].
  - exists (hist (so_chan s) ++ so_push s), []. split; [now rewrite app_nil_r|]. split; [rewrite app_length; lia|]. split; [constructor|]. split; [|now left]. exists (rest ++ so_push s). rewrite Hr, <- app_assoc. reflexivity.
  - exists (hist (so_chan s)), (so_push s). split; [reflexivity|]. split; [lia|]. split; [exact B|]. split; [|now right]. exists rest. exact Hr.
Qed.

(** Letting through what the loop pushes, one sample at a time. *)
Definition empty_chan (c : cstate) : Prop := lowq c = [] /\ highq c = [] /\ prod c = PIdle /\ fill c = FIdle.
Definition let_through : list saction :=
  [SoPush; SoChan CSendLow; SoChan CSendHigh; SoChan CIncr; SoChan (CFill 1); SoChan CRecvLow; SoChan CRecvHigh; SoChan CReturn].

Lemma srun_app a : forall s b, srun decode nb s (a ++ b) =
  match srun decode nb s a with None => None | Some (s1, e1) => match srun decode nb s1 b with None => None | Some (s2, e2) => Some (s2, e1 ++ e2) end end.
Proof.
  induction a as [|x a IH]; intros s b; cbn [app srun].
  - destruct (srun decode nb s b) as [[s2 e2]|]; reflexivity.
  - destruct (sstep decode nb s x) as [[s1 e1]|]; [|reflexivity]. rewrite IH.
    destruct (srun decode nb s1 a) as [[s2 e2]|]; [|reflexivity]. destruct (srun decode nb s2 b) as [[s3 e3]|]; [|reflexivity].
    now rewrite app_assoc.
Qed.

Lemma sstep_push s x r c : at_pc (so_loop s) <> Crashed -> so_push s = x :: r -> cstep (so_chan s) (CPush x) = Some c ->
  sstep decode nb s SoPush = Some ({| so_loop := so_loop s; so_push := r; so_chan := c |}, []).
Proof. intros Nc P C. unfold sstep. rewrite P, C. destruct (at_pc (so_loop s)); congruence. Qed.
Lemma sstep_chan s a c : at_pc (so_loop s) <> Crashed -> (forall x, a <> CPush x) -> cstep (so_chan s) a = Some c ->
  sstep decode nb s (SoChan a) = Some ({| so_loop := so_loop s; so_push := so_push s; so_chan := c |}, []).
Proof.
  intros Nc N C. unfold sstep. destruct a; [now elim (N x)|..]; rewrite C; destruct (at_pc (so_loop s)); congruence.
Qed.
Lemma srun_cons_eq s a r s1 e1 : sstep decode nb s a = Some (s1, e1) ->
  srun decode nb s (a :: r) = match srun decode nb s1 r with None => None | Some (s2, e2) => Some (s2, e1 ++ e2) end.
Proof. intros E. cbn [srun]. now rewrite E. Qed.

Lemma let_one s x r : at_pc (so_loop s) <> Crashed -> empty_chan (so_chan s) -> (1 <= cap (so_chan s))%nat -> so_push s = x :: r ->
  exists c', srun decode nb s let_through = Some ({| so_loop := so_loop s; so_push := r; so_chan := c' |}, []) /\ empty_chan c' /\
    cap c' = cap (so_chan s) /\ handed_out (returned c') = handed_out (returned (so_chan s)) ++ [x].
Proof.
  intros Nc (E1 & E2 & E3 & E4) Cp Pu. destruct s as [lp pu [cp lq hq pr fl iw ir hi re]]. cbn [so_loop so_push so_chan lowq highq prod fill cap returned] in *. subst lq hq pr fl pu.
  destruct x as [l h]. eexists. split; [|split; [|split]].
  - assert (Lt : (0 <? cp)%nat = true) by (apply Nat.ltb_lt; lia).
    unfold let_through.
    erewrite srun_cons_eq; [|eapply sstep_push; [exact Nc|reflexivity|reflexivity]].
    do 6 (erewrite srun_cons_eq; [|eapply sstep_chan; [exact Nc|discriminate|
      cbn [cstep prod fill cap lowq highq length app so_loop so_push so_chan hist returned idx_w idx_r]; rewrite ?Lt; reflexivity]]).
    erewrite srun_cons_eq; [|eapply sstep_chan; [exact Nc|discriminate|reflexivity]]. reflexivity.
  - split; [reflexivity|]. split; [reflexivity|]. split; reflexivity.
  - reflexivity.
  - cbn [returned]. unfold handed_out. rewrite map_app, concat_app. reflexivity.
Qed.

Lemma let_all : forall pu s, at_pc (so_loop s) <> Crashed -> empty_chan (so_chan s) -> (1 <= cap (so_chan s))%nat -> so_push s = pu ->
  exists acts c', loop_part acts = [] /\ srun decode nb s acts = Some ({| so_loop := so_loop s; so_push := []; so_chan := c' |}, []) /\ empty_chan c' /\
    cap c' = cap (so_chan s) /\ handed_out (returned c') = handed_out (returned (so_chan s)) ++ pu.
Proof.
  induction pu as [|x r IH]; intros s Nc Em Cp Pu.
  - exists [], (so_chan s). split; [reflexivity|]. split; [destruct s; cbn in *; subst; reflexivity|]. rewrite app_nil_r. auto.
  - destruct (let_one s x r Nc Em Cp Pu) as (c1 & R1 & E1 & C1 & H1).
    destruct (IH {| so_loop := so_loop s; so_push := r; so_chan := c1 |} Nc E1 ltac:(cbn; lia) eq_refl) as (acts & c2 & L & R2 & E2 & C2 & H2).
    cbn [so_loop so_chan] in *.
    exists (let_through ++ acts), c2. split; [exact L|]. split; [rewrite srun_app, R1, R2; reflexivity|]. split; [exact E2|]. split; [congruence|].
    rewrite H2, H1, <- app_assoc. reflexivity.
Qed.

(** Every run of the loop alone is one of the loop with its channels. *)
Lemma let_run acts : forall s p es, so_push s = [] -> empty_chan (so_chan s) -> (1 <= cap (so_chan s))%nat ->
  prun decode nb (so_loop s) acts = Some (p, es) ->
  exists sacts s', loop_part sacts = acts /\ srun decode nb s sacts = Some (s', es) /\ so_loop s' = p /\
    (at_pc p <> Crashed -> heard_so_far s' = heard_so_far s ++ stream_of es).
Proof.
  induction acts as [|a acts IH]; intros s p es Pu Em Cp R; cbn [prun] in R.
  - injection R as <- <-. exists [], s. cbn [stream_of flat_map]. rewrite app_nil_r. repeat split; reflexivity.
  - destruct (pstep decode nb (so_loop s) a) as [[p1 e1]|] eqn:E; [|discriminate].
    destruct (prun decode nb p1 acts) as [[p2 e2]|] eqn:R2; [|discriminate]. injection R as <- <-.
    set (s1 := {| so_loop := p1; so_push := to_push e1; so_chan := so_chan s |}).
    assert (S1 : sstep decode nb s (SoLoop a) = Some (s1, e1)).
    { unfold sstep. assert (pushed_all s = true) as ->. { unfold pushed_all. rewrite Pu. destruct Em as (_ & _ & -> & _). reflexivity. }
      rewrite andb_false_r, E. unfold s1. rewrite Pu. cbn [app].
      destruct (at_pc (so_loop s)) eqn:Pc; try reflexivity. exfalso. destruct a; cbn [pstep] in E; rewrite Pc in E; discriminate E. }
    assert (D : at_pc p1 = Crashed \/ at_pc p1 <> Crashed) by (destruct (at_pc p1); auto; right; discriminate).
    destruct D as [D|D].
    + destruct acts as [|a2 acts].
      * cbn [prun] in R2. injection R2 as <- <-. exists [SoLoop a], s1. split; [reflexivity|]. split; [cbn [srun]; now rewrite S1|].
        split; [reflexivity|]. intros Q; congruence.
      * cbn [prun] in R2. destruct (pstep decode nb p1 a2) as [[p3 e3]|] eqn:E2; [|discriminate]. exfalso. destruct a2; cbn [pstep] in E2; rewrite D in E2; discriminate E2.
    + destruct (let_all (to_push e1) s1 D Em Cp eq_refl) as (la & c2 & L & Rl & E2 & C2 & H2). cbn [so_loop so_chan s1] in *.
      destruct (IH {| so_loop := p1; so_push := []; so_chan := c2 |} p2 e2 eq_refl E2 ltac:(cbn; lia) R2) as (sa & s2 & L2 & Rs & Lp & H).
      exists (SoLoop a :: la ++ sa), s2. split.
      { cbn [loop_part]. f_equal. rewrite <- L2. clear -L. induction la as [|[] la IHl]; cbn in *; auto; discriminate. }
      split; [cbn [srun]; rewrite S1, srun_app, Rl, Rs; reflexivity|]. split; [exact Lp|].
      intros N. rewrite (H N). unfold heard_so_far. cbn [so_chan]. rewrite H2, stream_of_app, to_push_stream, <- app_assoc. reflexivity.
Qed.
End L.
