From Verif Require Import GoBase GoBaseFacts GoUtf8 WireModel InfoerModel InfoerSpec InfoerProofs InfoerRunProofs.
From Coq Require Import Permutation Sorted ZifyBool ZifyNat ZifyN.
Local Open Scope Z_scope.
Ltac Zify.zify_post_hook ::= Z.div_mod_to_equations.

(** * Sample position *)

Lemma chunk_length_bound sr c : 0 < sr -> chunk_ok c -> 0 <= chunk_end sr c - c_startTime c
  /\ (chunk_end sr c - c_startTime c) * sr <= c_size c * second.
Proof.
  intros Hsr (H1 & H2 & H3 & H4). unfold chunk_end, second in *. split.
  - pose proof (Z.div_pos (c_size c * 1000000000) sr). lia.
  - pose proof (Z.mul_div_le (c_size c * 1000000000) sr Hsr). nia.
Qed.

Lemma covered_near sr now c : 0 < sr -> chunk_ok c -> c_startTime c <= now -> near sr now c.
Proof.
  intros Hsr Hok Hn He. pose proof (chunk_length_bound sr c Hsr Hok) as [B1 B2]. destruct Hok as (H1 & H2 & H3 & H4).
  rewrite Z.abs_eq by lia. nia.
Qed.

Lemma position_covered sr now c : 0 < sr -> chunk_ok c -> c_startTime c <= now ->
  position sr now c = c_startIndex c + (now - c_startTime c) * sr / second.
Proof. intros Hsr Hok Hn. unfold position. rewrite Z.quot_div_nonneg; [reflexivity|nia|unfold second; lia]. Qed.

Lemma position_covered_le sr now c : 0 < sr -> chunk_ok c -> c_startTime c <= now <= chunk_end sr c ->
  c_startIndex c <= position sr now c <= c_startIndex c + c_size c.
Proof.
  intros Hsr Hok Hn. rewrite position_covered by (auto; lia).
  pose proof (chunk_length_bound sr c Hsr Hok) as [B1 B2].
  assert ((now - c_startTime c) * sr <= c_size c * second) by nia.
  assert (0 <= (now - c_startTime c) * sr) by nia. unfold second in *.
  split.
  - assert (0 <= (now - c_startTime c) * sr / 1000000000) by (apply Z.div_pos; lia). lia.
  - assert ((now - c_startTime c) * sr / 1000000000 <= c_size c); [|lia]. apply Z.div_le_upper_bound; lia.
Qed.

Lemma remove_old_chunks_twice sr n1 n2 l : n1 <= n2 -> forall p l', l = p ++ l' -> Forall (fun c => end_time sr c < n1) p ->
  remove_old_chunks sr n2 l = remove_old_chunks sr n2 l'.
Proof.
  intros H p. revert l. induction p as [|c p IH]; intros l l' -> F; [reflexivity|]. inversion F; subst.
  cbn. destruct (n2 <=? end_time sr c) eqn:E; [lia|]. now apply IH.
Qed.

Lemma remove_old_chunks_app sr now l more : remove_old_chunks sr now l <> [] ->
  remove_old_chunks sr now (l ++ more) = remove_old_chunks sr now l ++ more.
Proof.
  induction l as [|c l IH]; [intros H; now elim H|]. cbn. destruct (now <=? end_time sr c); auto.
Qed.

Lemma continuous_tail sr c l : continuous sr (c :: l) -> continuous sr l.
Proof. destruct l; cbn; tauto. Qed.
Lemma continuous_app_r sr p l : continuous sr (p ++ l) -> continuous sr l.
Proof. induction p as [|c p IH]; [auto|]. intros H. apply IH. now apply continuous_tail in H. Qed.

Lemma continuous_le sr c l : 0 < sr -> continuous sr (c :: l) -> Forall chunk_ok (c :: l) ->
  forall x, In x l -> chunk_end sr c <= c_startTime x /\ c_startIndex c + c_size c <= c_startIndex x.
Proof.
  intros Hsr. revert c. induction l as [|d l IH]; intros c H Hok x Hx; [destruct Hx|].
  destruct H as (H1 & H2 & H3). inversion Hok as [|? ? O1 O2]; subst. destruct Hx as [<-|Hx]; [lia|].
  specialize (IH d H3 O2 x Hx). inversion O2 as [|? ? O3 O4]; subst.
  pose proof (chunk_length_bound sr d Hsr O3) as [B _]. destruct O3 as (A1 & A2 & _). lia.
Qed.

(** on a continuous list, what is shown is the covering chunk *)
Lemma continuous_read sr now l c0 : 0 < sr -> Forall chunk_ok (c0 :: l) -> continuous sr (c0 :: l) ->
  c_startTime c0 <= now -> (exists c, In c (c0 :: l) /\ now <= chunk_end sr c) ->
  exists c, In c (c0 :: l) /\ c_startTime c <= now <= chunk_end sr c
    /\ sample_at sr now (remove_old_chunks sr now (c0 :: l)) = position sr now c
    /\ (c = c0 \/ exists p, In p (c0 :: l) /\ chunk_end sr p < now /\ c_startTime c = chunk_end sr p).
Proof.
  intros Hsr. revert c0. induction l as [|d l IH]; intros c0 Hok Hc Hs (c & Hin & He); cbn [remove_old_chunks];
    inversion Hok as [|? ? O1 O2]; subst; rewrite end_time_right by auto; destruct (now <=? chunk_end sr c0) eqn:E.
  - exists c0. split; [now left|]. split; [lia|]. split; [|now left]. apply sample_at_right; auto; [|lia]. now apply covered_near.
  - destruct Hin as [->|[]]. lia.
  - exists c0. split; [now left|]. split; [lia|]. split; [|now left]. apply sample_at_right; auto; [|lia]. now apply covered_near.
  - destruct Hc as (C1 & C2 & C3). destruct (IH d O2 C3) as (x & X1 & X2 & X3 & X4); [lia| |].
    + exists c. split; [|auto]. destruct Hin as [<-|Hin]; [lia|auto].
    + exists x. split; [now right|]. split; [auto|]. split; [exact X3|]. right.
      destruct X4 as [->|(p & P1 & P2 & P3)]; [exists c0|exists p]; (split; [cbn; auto|]; split; [lia|auto]).
Qed.

Lemma position_mono sr n1 n2 c : 0 < sr -> n1 <= n2 -> position sr n1 c <= position sr n2 c.
Proof.
  intros Hsr H. unfold position. apply Zplus_le_compat_l. apply Z.quot_le_mono; [unfold second; lia|]. nia.
Qed.

Lemma continuous_mono sr n1 n2 l : 0 < sr -> n1 <= n2 -> forall c0, Forall chunk_ok (c0 :: l) -> continuous sr (c0 :: l) ->
  c_startTime c0 <= n1 -> (exists c, In c (c0 :: l) /\ n2 <= chunk_end sr c) ->
  sample_at sr n1 (remove_old_chunks sr n1 (c0 :: l)) <= sample_at sr n2 (remove_old_chunks sr n2 (c0 :: l)).
Proof.
  intros Hsr Hn. induction l as [|d l IH]; intros c0 Hok Hc Hs Hcov; inversion Hok as [|? ? O1 O2]; subst;
    cbn [remove_old_chunks]; rewrite !end_time_right by auto.
  - destruct Hcov as (c & [<-|[]] & He).
    assert (n1 <=? chunk_end sr c0 = true) as -> by lia. assert (n2 <=? chunk_end sr c0 = true) as -> by lia.
    rewrite !sample_at_right by (try apply covered_near; auto; lia). now apply position_mono.
  - destruct (n1 <=? chunk_end sr c0) eqn:E1; destruct (n2 <=? chunk_end sr c0) eqn:E2.
    + rewrite !sample_at_right by (try apply covered_near; auto; lia). now apply position_mono.
    + rewrite sample_at_right by (try apply covered_near; auto; lia).
      pose proof (position_covered_le sr n1 c0 Hsr O1 ltac:(lia)) as B1.
      destruct Hcov as (c & Hin & He). destruct Hin as [<-|Hin]; [lia|].
      pose proof Hc as (C1 & C2 & C3).
      destruct (continuous_read sr n2 l d Hsr O2 C3 ltac:(lia)) as (x & X1 & X2 & X3 & _); [exists c; auto|].
      cbn [remove_old_chunks] in X3. rewrite X3.
      inversion O2 as [|? ? O3 O4]; subst.
      assert (Ox : chunk_ok x) by (destruct X1 as [<-|X1]; [auto|]; rewrite Forall_forall in O4; auto).
      pose proof (position_covered_le sr n2 x Hsr Ox ltac:(lia)) as B2.
      pose proof (continuous_le sr c0 (d :: l) Hsr Hc Hok x X1). lia.
    + lia.
    + destruct Hc as (C1 & C2 & C3). apply IH; auto; [lia|]. destruct Hcov as (c & [<-|Hin] & He); [lia|]. eauto.
Qed.

(** * Lyrics *)

Lemma next_line_spec ly t i : exists n, lyrics_next_line ly t i = i + Z.of_nat n /\ (n <= length ly)%nat
  /\ Forall (line_due (go_div t millisecond)) (firstn n ly)
  /\ (n = length ly \/ exists l, nth_error ly n = Some l /\ ~ line_due (go_div t millisecond) l).
Proof.
  revert i. induction ly as [|l ly IH]; intros i.
  - exists O. cbn. repeat split; auto; try lia.
  - cbn [lyrics_next_line]. destruct l as [|[ts w] l].
    + destruct (IH (i + 1)) as (n & E & L & F & G). exists (S n). cbn. repeat split; try lia.
      * constructor; cbn; auto.
      * destruct G as [->|G]; auto.
    + destruct (go_div t millisecond <? ts) eqn:E.
      * exists O. cbn. repeat split; try lia; [constructor|]. right. exists ((ts, w) :: l). split; [auto|]. cbn. lia.
      * destruct (IH (i + 1)) as (n & En & L & F & G). exists (S n). cbn [firstn length]. repeat split; try lia.
        -- constructor; cbn; auto. lia.
        -- destruct G as [->|G]; auto.
Qed.

Lemma build_line_spec ly t j : (j < length ly)%nat -> - 2 ^ 62 <= t < 2 ^ 62 ->
  lyrics_build_line (Z.of_nat j) ly t = due_words (go_div t millisecond) (nth j ly []).
Proof.
  intros Hj Ht. unfold lyrics_build_line. assert (E : (Z.of_nat j <? 0) || (zlen ly <=? Z.of_nat j) = false) by (unfold zlen; lia).
  rewrite E, Nat2Z.id. unfold due_words.
  assert (B : - 2 ^ 62 <= go_div t millisecond <= 2 ^ 62).
  { unfold go_div, millisecond. pose proof (Z.quot_rem' t 1000000). 
    assert (Z.abs (Z.quot t 1000000) <= Z.abs t); [|lia].
    rewrite <- Z.quot_abs by lia. rewrite Z.quot_div_nonneg by lia. apply Z.div_le_upper_bound; lia. }
  rewrite w64 by lia.
  induction (nth j ly []) as [|[ts w] l IH]; [reflexivity|]. cbn. destruct (ts <? go_div t millisecond + 100); cbn; rewrite IH; reflexivity.
Qed.

Lemma build_line_before ly t j : j < 0 -> lyrics_build_line j ly t = [].
Proof. intros. unfold lyrics_build_line. assert (E : j <? 0 = true) by lia. now rewrite E. Qed.

Lemma history_length h ly t : length (lyrics_history h ly t) = h.
Proof. destruct ly; cbn [lyrics_history]; [now rewrite repeat_length|]. rewrite map_length. now rewrite seq_length. Qed.

Lemma next_line_mono ly t1 t2 i : t1 <= t2 -> lyrics_next_line ly t1 i <= lyrics_next_line ly t2 i.
Proof.
  intros H. revert i. induction ly as [|[|[ts w] l] ly IH]; intros i; cbn [lyrics_next_line]; [lia|apply IH|].
  assert (go_div t1 millisecond <= go_div t2 millisecond) by (apply Z.quot_le_mono; [unfold millisecond; lia|auto]).
  assert (L : forall i, i <= lyrics_next_line ly t2 i).
  { intros k. destruct (next_line_spec ly t2 k) as (n & -> & _). lia. }
  destruct (go_div t1 millisecond <? ts) eqn:E1; destruct (go_div t2 millisecond <? ts) eqn:E2; try lia.
  - specialize (L (i + 1)). lia.
  - apply IH.
Qed.

(** * Durations *)

Definition clock_step (st : Z * Z) (c : N) : Z * Z :=
  if (c =? 58)%N then ((fst st + snd st) * 60, 0) else (fst st, snd st * 10 + (Z.of_N c - 48)).

Lemma decimal_spec fuel : forall z, 0 <= z < 10 ^ Z.of_nat fuel -> (0 < fuel)%nat ->
  Forall is_digit (decimal fuel z) /\ decimal fuel z <> [] /\
  (forall total, fold_left clock_step (decimal fuel z) (total, 0) = (total, z)) /\
  (z < 10 -> length (decimal fuel z) = 1%nat) /\ (10 <= z < 100 -> length (decimal fuel z) = 2%nat) /\
  (0 < z -> hd 0%N (decimal fuel z) <> 48%N).
Proof.
  induction fuel as [|fuel IH]; intros z Hz Hf; [lia|]. cbn [decimal]. destruct (z <? 10) eqn:E.
  - assert (D : is_digit (Z.to_N (48 + z))) by (unfold is_digit; lia).
    repeat split; try lia; try discriminate.
    + repeat constructor; auto; unfold is_digit in *; lia.
    + intros total. cbn [fold_left]. unfold clock_step. cbn [fst snd]. unfold is_digit in D.
      destruct (N.eqb_spec (Z.to_N (48 + z)) 58); [lia|]. f_equal. lia.
    + intros Hpos; cbn [hd]; lia.
  - assert (Hfu : (0 < fuel)%nat). { destruct fuel; [cbn in Hz; lia|lia]. }
    assert (P : 10 ^ Z.of_nat (S fuel) = 10 * 10 ^ Z.of_nat fuel) by (rewrite Nat2Z.inj_succ, Z.pow_succ_r; lia).
    assert (Hz' : 0 <= z / 10 < 10 ^ Z.of_nat fuel).
    { split; [apply Z.div_pos; lia|]. apply Z.div_lt_upper_bound; lia. }
    destruct (IH (z / 10) Hz' Hfu) as (A & B & C & D1 & D2 & F).
    assert (Dg : (48 <= Z.to_N (48 + z mod 10) <= 57)%N) by lia.
    repeat split.
    + apply Forall_app. split; [auto|]. repeat constructor; unfold is_digit; lia.
    + intros X. apply app_eq_nil in X as [X _]. auto.
    + intros total. rewrite fold_left_app, C. cbn [fold_left]. unfold clock_step. cbn [fst snd].
      destruct (N.eqb_spec (Z.to_N (48 + z mod 10)) 58); [lia|]. f_equal. lia.
    + lia.
    + intros Hr. rewrite app_length. cbn. rewrite D1 by lia. reflexivity.
    + intros _. destruct (decimal fuel (z / 10)) as [|x l]; [now elim B|]. cbn in *. apply F. lia.
Qed.

Lemma fmt_d_spec z : 0 <= z < 2 ^ 63 ->
  Forall is_digit (fmt_d z) /\ fmt_d z <> [] /\
  (forall total, fold_left clock_step (fmt_d z) (total, 0) = (total, z)) /\
  (z < 10 -> length (fmt_d z) = 1%nat) /\ (10 <= z < 100 -> length (fmt_d z) = 2%nat) /\ (0 < z -> hd 0%N (fmt_d z) <> 48%N).
Proof. intros H. unfold fmt_d. destruct (Z.ltb_spec z 0); [lia|]. apply decimal_spec; [|lia]. split; [lia|]. eapply Z.lt_trans; [apply H|]. reflexivity. Qed.

Lemma fmt_02d_spec z : 0 <= z < 60 ->
  Forall is_digit (fmt_02d z) /\ length (fmt_02d z) = 2%nat /\
  (forall total, fold_left clock_step (fmt_02d z) (total, 0) = (total, z)).
Proof.
  intros H. unfold fmt_02d. destruct (fmt_d_spec z ltac:(lia)) as (A & B & C & D1 & D2 & _).
  destruct (Z.leb_spec 0 z); [|lia]. cbn [andb]. destruct (z <? 10) eqn:E.
  - split; [|split].
    + constructor; [vm_compute; split; discriminate|auto].
    + rewrite app_length, D1 by lia; reflexivity.
    + intros total. cbn [T map String.list_ascii_of_string app fold_left]. rewrite <- C. reflexivity.
  - split; [auto|]. split; [rewrite D2; lia|auto].
Qed.

Lemma clock_value_fold t : clock_value t = let '(a, b) := fold_left clock_step t (0, 0) in a + b.
Proof. reflexivity. Qed.

(** * Displays of an in-order schedule *)

Lemma continuous_split sr a c b : 0 < sr -> Forall chunk_ok (a ++ c :: b) -> continuous sr (a ++ c :: b) ->
  Forall (fun x => 0 < c_size x) (a ++ c :: b) ->
  (forall x, In x a -> c_startIndex x + c_size x <= c_startIndex c /\ chunk_end sr x <= c_startTime c)
  /\ (forall x, In x b -> c_startIndex c < c_startIndex x).
Proof.
  intros Hsr Hok Hc Hp. split.
  - intros x Hx. apply in_split in Hx as (a1 & a2 & ->). rewrite <- app_assoc in Hc, Hok.
    apply continuous_app_r in Hc. apply Forall_app in Hok as [_ Hok]. cbn in Hc, Hok.
    destruct (continuous_le sr x (a2 ++ c :: b) Hsr Hc Hok c); [apply in_or_app; right; now left|]. lia.
  - intros x Hx. apply continuous_app_r in Hc. apply Forall_app in Hok as [_ Hok]. apply Forall_app in Hp as [_ Hp].
    destruct (continuous_le sr c b Hsr Hc Hok x Hx). inversion Hp; subst. lia.
Qed.

Lemma position_upper sr n c : 0 < sr -> chunk_ok c -> n <= chunk_end sr c -> position sr n c <= c_startIndex c + c_size c.
Proof.
  intros Hsr Hok Hn. destruct (Z.le_gt_cases (c_startTime c) n).
  - apply position_covered_le; auto.
  - destruct Hok as (A & B & _). unfold position.
    assert (Z.quot ((n - c_startTime c) * sr) second <= Z.quot 0 second) by (apply Z.quot_le_mono; [unfold second; lia|nia]).
    rewrite Z.quot_0_l in * by (unfold second; lia). lia.
Qed.

Lemma right_sample_mono sr n1 n2 l1 more s1 s2 : 0 < sr -> n1 <= n2 ->
  Forall chunk_ok (l1 ++ more) -> continuous sr (l1 ++ more) -> Forall (fun x => 0 < c_size x) (l1 ++ more) ->
  right_sample sr n1 l1 s1 -> right_sample sr n2 (l1 ++ more) s2 -> 0 <= s2 -> s2 = 0 \/ s1 <= s2.
Proof.
  intros Hsr Hn Hok Hc Hp [(-> & _)|(c1 & I1 & E1 & -> & M1)] [(-> & _)|(c2 & I2 & E2 & -> & M2)] H0; auto.
  right. pose proof I2 as I2'. apply in_split in I2' as (a & b & E). rewrite E in Hok, Hc, Hp.
  destruct (continuous_split sr a c2 b Hsr Hok Hc Hp) as [Ha Hb].
  assert (J1 : In c1 (a ++ c2 :: b)) by (rewrite <- E; apply in_or_app; auto).
  assert (Ok1 : chunk_ok c1) by (rewrite Forall_forall in Hok; auto).
  assert (Ok2 : chunk_ok c2) by (rewrite Forall_forall in Hok; apply Hok; apply in_or_app; right; now left).
  apply in_app_iff in J1 as [J1|[->|J1]].
  - destruct (Ha c1 J1) as [D1 D2].
    assert (St : c_startTime c2 <= n2).
    { (* the predecessor of c2 has ended *)
      assert (Na : a <> []) by (intros ->; destruct J1). destruct (exists_last Na) as (a' & p & ->).
      destruct (Ha p) as [P1 P2]; [apply in_or_app; right; now left|].
      assert (Pin : In p (l1 ++ more)) by (rewrite E, <- app_assoc; apply in_or_app; right; now left).
      assert (Pp : 0 < c_size p) by (rewrite Forall_forall in Hp; apply Hp; rewrite <- app_assoc; apply in_or_app; right; now left).
      assert (chunk_end sr p < n2). { destruct (Z.lt_ge_cases (chunk_end sr p) n2) as [|G]; [auto|]. specialize (M2 p Pin G). lia. }
      rewrite <- app_assoc in Hc. apply continuous_app_r in Hc. destruct Hc as (C1 & _). lia. }
    pose proof (position_upper sr n1 c1 Hsr Ok1 E1) as U. pose proof (position_covered_le sr n2 c2 Hsr Ok2 ltac:(lia)) as V. lia.
  - now apply position_mono.
  - exfalso. specialize (Hb c1 J1). apply in_app_iff in I2 as [I2|I2].
    + specialize (M1 c2 I2 ltac:(lia)). lia.
    + apply in_split in I1 as (x & y & ->). apply in_split in I2 as (u & v & ->).
      rewrite <- E in Hok, Hc, Hp. rewrite <- app_assoc in Hok, Hc, Hp. cbn in Hok, Hc, Hp.
      destruct (continuous_split sr x c1 (y ++ u ++ c2 :: v) Hsr Hok Hc Hp) as [_ Q].
      specialize (Q c2). lapply Q; [lia|]. apply in_or_app; right; apply in_or_app; right; now left.
Qed.

(** No chunk information is handled between removing old chunks and reading the first one. *)
Definition quiet (tr : list event) : Prop :=
  forall a now h b, tr = a ++ PruneChunks now :: map Handled h ++ ReadSample :: b -> received_chunks h = [].

Lemma quiet_prefix tr e : quiet (tr ++ [e]) -> quiet tr.
Proof. intros H a now h b ->. apply (H a now h (b ++ [e])). rewrite <- app_assoc. cbn. rewrite <- app_assoc. reflexivity. Qed.

Lemma pruned_trace sr tr s now out : client_run sr tr s (ChunksPruned now) out ->
  exists a h s0, tr = a ++ PruneChunks now :: map Handled h /\ client_run sr a s0 Idle out
   /\ (received_chunks h = [] -> chunks s = remove_old_chunks sr now (chunks s0)).
Proof.
  intros H. remember (ChunksPruned now) as d eqn:Ed. revert Ed.
  induction H as [|tr s d out m s' H IH Hh|tr s out now' H IH|tr s now' out H IH|tr s now' sample out H IH
                  |tr s now' sample cur out H IH|tr s now' sample cur out H IH]; intros Ed; try discriminate.
  - destruct (IH Ed) as (a & h & s0 & -> & R & C). exists a, (h ++ [m]), s0. split.
    + rewrite map_app, <- app_assoc. reflexivity.
    + split; [auto|]. rewrite rc_app. intros E. apply app_eq_nil in E as [E1 E2].
      destruct (handled_chunks _ _ _ Hh) as (_ & _ & C3). rewrite C3 by auto. auto.
  - injection Ed as ->. exists tr, [], s. split; [reflexivity|]. split; [auto|]. reflexivity.
Qed.

Definition witnessed (sr : Z) (tr : list event) (x : Z) : Prop :=
  exists n l more, In n (clocks tr) /\ received_chunks (messages tr) = l ++ more /\ right_sample sr n l x.

Lemma witnessed_more sr tr e x : witnessed sr tr x -> witnessed sr (tr ++ [e]) x.
Proof.
  intros (n & l & more & H1 & H2 & H3). exists n, l, (more ++ received_chunks (messages [e])).
  split; [unfold clocks; rewrite flat_map_app; apply in_or_app; auto|]. split; [|auto].
  rewrite messages_app, rc_app, H2, <- app_assoc. reflexivity.
Qed.

Lemma clocks_app a b : clocks (a ++ b) = clocks a ++ clocks b.
Proof. apply flat_map_app. Qed.

Lemma all_witnessed sr tr s d out : 0 < sr -> client_run sr tr s d out -> Forall msg_ok (messages tr) ->
  StronglySorted Z.le (clocks tr) -> quiet tr ->
  (forall n, In n (clocks tr) -> Forall (near sr n) (received_chunks (messages tr))) ->
  Forall (fun i => witnessed sr tr (i_sample i)) out
  /\ match d with HasSample _ x | HasSong _ x _ | PausesPruned _ x _ => witnessed sr tr x | _ => True end.
Proof.
  intros Hsr H.
  assert (Step : forall tr e, Forall msg_ok (messages (tr ++ [e])) -> StronglySorted Z.le (clocks (tr ++ [e])) -> quiet (tr ++ [e]) ->
     (forall n, In n (clocks (tr ++ [e])) -> Forall (near sr n) (received_chunks (messages (tr ++ [e])))) ->
     Forall msg_ok (messages tr) /\ StronglySorted Z.le (clocks tr) /\ quiet tr /\
     (forall n, In n (clocks tr) -> Forall (near sr n) (received_chunks (messages tr)))).
  { intros t e A B C D. rewrite messages_app in A. apply Forall_app in A as [A _]. split; [auto|].
    rewrite clocks_app in B. apply StronglySorted_app in B as (B & _). split; [auto|]. split; [now apply quiet_prefix in C|].
    intros n Hn. specialize (D n). rewrite clocks_app in D. lapply D; [|apply in_or_app; auto]. clear D. intros D.
    rewrite messages_app, rc_app in D. now apply Forall_app in D as [D _]. }
  assert (Out : forall tr e out, Forall (fun i => witnessed sr tr (i_sample i)) out -> Forall (fun i => witnessed sr (tr ++ [e]) (i_sample i)) out).
  { intros t e o F. eapply Forall_impl; [|exact F]. cbn. intros. now apply witnessed_more. }
  induction H as [|tr s d out m s' H IH Hh|tr s out now H IH|tr s now out H IH|tr s now sample out H IH
                  |tr s now sample cur out H IH|tr s now sample cur out H IH]; intros A B C D;
    [split; [constructor|exact I]|..]; destruct (Step _ _ A B C D) as (A' & B' & C' & D'); destruct (IH A' B' C' D') as [F G].
  - split; [now apply Out|]. destruct d; auto; now apply witnessed_more.
  - split; [now apply Out|exact I].
  - split; [now apply Out|]. destruct (pruned_trace _ _ _ _ _ H) as (a & h & s0 & -> & R & Ch).
    assert (Hh : received_chunks h = []). { apply (C a now h []). rewrite <- app_assoc. reflexivity. }
    rewrite Ch by auto.
    assert (Aa : Forall msg_ok (messages a)) by (rewrite messages_app in A'; now apply Forall_app in A' as [A' _]).
    pose proof (run_inv _ _ _ _ _ R Aa) as I0. destruct (inv_chunks _ _ _ _ _ I0) as (r & P & Q).
    exists now, (received_chunks (messages a)), (received_chunks h).
    rewrite clocks_app, clocks_app. split; [apply in_or_app; left; apply in_or_app; right; now left|].
    split; [rewrite messages_app, messages_snoc, rc_app, rc_app; cbn; now rewrite app_nil_r|].
    apply (right_sample_perm _ _ (r ++ chunks s0)); [now symmetry|].
    pose proof (ok_chunks _ Aa) as Oc. apply (Permutation_Forall P) in Oc.
    assert (Nn : Forall (near sr now) (received_chunks (messages a))).
    { specialize (D' now). rewrite clocks_app in D'. lapply D'; [|apply in_or_app; right; now left].
      rewrite messages_app, rc_app. intros Z. now apply Forall_app in Z as [Z _]. }
    apply (Permutation_Forall P) in Nn.
    apply sample_read_right; auto.
    + now apply Forall_app in Nn as [_ Nn].
    + apply Forall_forall. intros c Hc. rewrite Forall_forall in Q. destruct (Q c Hc) as (n & Hn & Ec).
      apply Forall_app in Oc as [Oc _]. rewrite Forall_forall in Oc. rewrite end_time_right in Ec by auto.
      rewrite clocks_app in B'. apply StronglySorted_app in B' as (_ & _ & Z).
      specialize (Z n now Hn). lapply Z; [lia|now left].
    + apply (inv_chunks_sorted _ _ _ _ _ I0).
  - split; [now apply Out|now apply witnessed_more].
  - split; [now apply Out|now apply witnessed_more].
  - split; [|exact I]. apply Forall_app. split; [now apply Out|]. constructor; [|constructor].
    destruct (pauses_in_song sample (startIndex cur) (pauses s)). rewrite make_info_sample. now apply witnessed_more.
Qed.

(** * Arrival order *)

Lemma sorted_perm_unique {A} (key : A -> Z) l : forall l',
  StronglySorted (fun a b => key a <= key b) l -> StronglySorted (fun a b => key a <= key b) l' ->
  NoDup (map key l) -> Permutation l l' -> l = l'.
Proof.
  induction l as [|a l IH]; intros l' S S' N P.
  - now apply Permutation_nil in P.
  - destruct l' as [|b l']; [now apply Permutation_sym, Permutation_nil in P|].
    inversion S as [|? ? S1 S2]; subst. inversion S' as [|? ? S1' S2']; subst. inversion N as [|? ? N1 N2]; subst.
    assert (E : a = b).
    { assert (Ha : In a (b :: l')) by (apply (Permutation_in _ P); now left).
      assert (Hb : In b (a :: l)) by (apply (Permutation_in _ (Permutation_sym P)); now left).
      destruct Ha as [Ha|Ha]; [auto|]. destruct Hb as [Hb|Hb]; [auto|].
      rewrite Forall_forall in S2, S2'. specialize (S2 b Hb). specialize (S2' a Ha).
      exfalso. apply N1. apply in_map_iff. exists b. split; [cbn in *; lia|auto]. }
    subst b. f_equal. apply IH; auto. now apply Permutation_cons_inv in P.
Qed.

Lemma perm_flat_map {A B} (f : A -> list B) l l' : Permutation l l' -> Permutation (flat_map f l) (flat_map f l').
Proof. apply Permutation_flat_map. Qed.

Lemma no_display_lists sr h s : client_run sr (map Handled h) s Idle [] ->
  Permutation (received_songs h) (songs s) /\ Permutation (received_chunks h) (chunks s) /\ Permutation (received_toggles h) (pauses s)
  /\ StronglySorted (fun a b => startIndex a <= startIndex b) (songs s)
  /\ StronglySorted (fun a b => c_startIndex a <= c_startIndex b) (chunks s)
  /\ StronglySorted (fun a b => t_index a <= t_index b) (pauses s)
  /\ volume s = received_volume h.
Proof.
  revert s. induction h as [|m h IH] using rev_ind; intros s H.
  - cbn in H. inversion H as [E|? ? ? ? ? ? ? ? E|? ? ? ? ? E|? ? ? ? ? E|? ? ? ? ? ? E|? ? ? ? ? ? ? E|? ? ? ? ? ? ? E];
      try (destruct tr; discriminate); subst. cbn. repeat split; constructor.
  - rewrite map_app in H. cbn in H. apply run_snoc in H as (s0 & H & Hh).
    destruct (IH s0 H) as (A1 & A2 & A3 & A4 & A5 & A6 & A7).
    destruct (handled_songs _ _ _ Hh) as [B1 B2]. destruct (handled_chunks _ _ _ Hh) as (C1 & C2 & _).
    assert (K : kept 0 (received_toggles h) (pauses s0)). { exists []. split; [exact A3|]. split; [exact A6|now left]. }
    assert (T1 : Permutation (pauses s0 ++ received_toggles [m]) (pauses s) /\ StronglySorted (fun a b => t_index a <= t_index b) (pauses s)).
    { destruct Hh as [f file len ly md l St|t f n l St|p t l [P S]|v|m Hm]; cbn; rewrite ?app_nil_r; auto.
      destruct m; cbn in *; rewrite ?app_nil_r; auto; discriminate. }
    rewrite rs_app, rc_app, rt_app, A1, A2, A3. repeat split; auto; try tauto.
    eapply handled_volume; eauto.
Qed.

Lemma right_sample_unique sr now l x y : NoDup (map c_startIndex l) -> right_sample sr now l x -> right_sample sr now l y -> x = y.
Proof.
  intros N [(-> & H)|(c & I1 & E1 & -> & M1)] [(-> & H')|(c' & I2 & E2 & -> & M2)]; auto.
  - specialize (H c' I2). lia.
  - specialize (H' c I1). lia.
  - assert (E : c_startIndex c = c_startIndex c') by (specialize (M1 c' I2 E2); specialize (M2 c I1 E1); lia).
    assert (c = c'); [|congruence].
    clear M1 M2 E1 E2. induction l as [|z l IH]; [destruct I1|]. inversion N as [|? ? N1 N2]; subst.
    destruct I1 as [->|I1]; destruct I2 as [->|I2]; auto.
    + exfalso. apply N1. rewrite E. apply in_map. auto.
    + exfalso. apply N1. rewrite <- E. apply in_map. auto.
Qed.

Lemma right_song_unique sample l x y : NoDup (map startIndex l) -> right_song sample l x -> right_song sample l y -> x = y.
Proof.
  intros N [(I1 & E1 & M1)|(-> & H)] [(I2 & E2 & M2)|(-> & H')]; auto.
  - assert (E : startIndex x = startIndex y) by (specialize (M1 y I2 E2); specialize (M2 x I1 E1); lia).
    clear M1 M2 E1 E2. induction l as [|z l IH]; [destruct I1|]. inversion N as [|? ? N1 N2]; subst.
    destruct I1 as [->|I1]; destruct I2 as [->|I2]; auto.
    + exfalso. apply N1. rewrite E. apply in_map. auto.
    + exfalso. apply N1. rewrite <- E. apply in_map. auto.
  - specialize (H' x I1). lia.
  - specialize (H y I2). lia.
Qed.
