(** Proofs about clock synchronisation. *)
From Verif Require Import GoBase GoBaseFacts TimingModel TimingSpec.
From Coq Require Import ZifyBool ZifyNat.
Local Open Scope Z_scope.

Lemma wrap64_add a b : wrap64 (wrap64 a + wrap64 b) = wrap64 (a + b).
Proof.
  unfold wrap64. f_equal.
  replace ((a + 2 ^ 63) mod 2 ^ 64 - 2 ^ 63 + ((b + 2 ^ 63) mod 2 ^ 64 - 2 ^ 63) + 2 ^ 63)
    with ((a + 2 ^ 63) mod 2 ^ 64 + ((b + 2 ^ 63) mod 2 ^ 64 - 2 ^ 63)) by ring.
  rewrite Zplus_mod_idemp_l.
  replace (a + 2 ^ 63 + ((b + 2 ^ 63) mod 2 ^ 64 - 2 ^ 63)) with ((b + 2 ^ 63) mod 2 ^ 64 + a) by ring.
  rewrite Zplus_mod_idemp_l. f_equal. ring.
Qed.

Lemma calc_exact cs sr ss cr : in_int64 ((sr - cs) + (ss - cr)) ->
  calc_offset cs sr ss cr = Z.quot ((sr - cs) + (ss - cr)) 2.
Proof. intros H. unfold calc_offset, go_div. rewrite wrap64_add, wrap64_id by exact H. reflexivity. Qed.

Lemma fold_total l : forall a, fold_left Z.add l a = a + total l.
Proof. induction l as [|x l IH]; intros a; cbn [fold_left total]; [lia|]. rewrite IH. lia. Qed.

Lemma total_app a b : total (a ++ b) = total a + total b.
Proof. induction a as [|x a IH]; cbn [app total]; lia. Qed.
Lemma total_bounds l lo hi : Forall (fun x => lo <= x <= hi) l -> zlen l * lo <= total l <= zlen l * hi.
Proof. induction 1 as [|x l Hx Hl IH]; [cbn; lia|]. rewrite zlen_cons. cbn [total]. lia. Qed.
Lemma mean_bounds l lo hi : l <> [] -> Forall (fun x => lo <= x <= hi) l -> lo <= total l / zlen l <= hi.
Proof.
  intros Hn H. pose proof (total_bounds l lo hi H) as [H1 H2]. pose proof (zlen_pos l Hn).
  split; [apply Z.div_le_lower_bound; lia|apply Z.div_le_upper_bound; lia].
Qed.
Lemma average_mean l : l <> [] -> Forall in_int64 l -> average l = Ok (total l / zlen l).
Proof.
  intros Hn H. unfold average.
  assert (E : forall A (d e : A), match l with [] => d | _ => e end = e) by (destruct l; [congruence|reflexivity]).
  rewrite E, fold_total, Z.add_0_l. f_equal. apply wrap64_id.
  pose proof (mean_bounds l (- 2 ^ 63) (2 ^ 63 - 1) Hn) as Hm.
  assert (Hl : Forall (fun x => - 2 ^ 63 <= x <= 2 ^ 63 - 1) l).
  { eapply Forall_impl; [|exact H]. intros a Ha. unfold in_int64 in Ha. lia. }
  specialize (Hm Hl). unfold in_int64. lia.
Qed.

Lemma set_pc_nth l : forall i p j, nth_error (set_pc l i p) j =
  if (i =? j)%nat then match nth_error l j with Some _ => Some p | None => None end else nth_error l j.
Proof.
  induction l as [|q l IH]; intros i p j; [destruct i, j; cbn; try reflexivity; destruct (_ =? _)%nat; reflexivity|].
  destruct i as [|i], j as [|j]; cbn [set_pc nth_error Nat.eqb]; auto.
Qed.

(** The state during a round of [n] after ResetOffsets(n) with nobody running. *)
Record Round (n : nat) (old : Z) (os : list Z) (s : tstate) : Prop := {
  rd_offs : offs s = os;
  rd_len : (length os <= n)%nat -> ocap s = n;
  rd_read : (length os <= n)%nat -> forall i, match nth_error (upcs s) i with
              Some (ULen k) => (k <= length os)%nat | Some (UCap c) => c = n | _ => True end;
  rd_few : (length os < n)%nat -> off s = old /\ forall i, nth_error (upcs s) i <> Some UAvg;
  rd_full : length os = n -> Forall in_int64 os ->
            (exists i p, nth_error (upcs s) i = Some p /\ (p = UCheck \/ p = ULen n \/ p = UCap n \/ p = UAvg)) \/ off s = total os / zlen os;
  rd_keep : length os = n -> Forall in_int64 os -> off s = old \/ off s = total os / zlen os
}.

(** A call goes on in line 43. *)
Lemma round_go n old os s i p q : Round n old os s -> (length os <= n)%nat -> nth_error (upcs s) i = Some p -> p <> UAvg ->
  match q with ULen k => (k <= length os)%nat | UCap c => c = n | _ => True end ->
  (length os < n -> q <> UAvg)%nat ->
  (length os = n -> p = UCheck \/ p = ULen n \/ p = UCap n -> q = ULen n \/ q = UCap n \/ q = UAvg) ->
  Round n old os (go_to s i q).
Proof.
  intros [Ho Hl Hrd Hf Hfu Hk] Hle Ei Np Hq Hfew Hfull. unfold go_to. constructor; cbn [offs ocap off upcs]; auto.
  - intros _ j. rewrite set_pc_nth. destruct (Nat.eqb_spec i j) as [<-|]; [now rewrite Ei|exact (Hrd Hle j)].
  - intros Lt. destruct (Hf Lt) as [Hold Hna]. split; [exact Hold|]. intros j. rewrite set_pc_nth.
    destruct (Nat.eqb_spec i j) as [<-|]; [rewrite Ei; intros [= E]; exact (Hfew Lt E)|exact (Hna j)].
  - intros Eq All. destruct (Hfu Eq All) as [(j & pj & Hj & Dj)|]; [left|now right].
    destruct (Nat.eq_dec i j) as [<-|Ne].
    + exists i, q. split; [now rewrite set_pc_nth, Nat.eqb_refl, Ei|]. right. apply Hfull; [exact Eq|].
      rewrite Ei in Hj. injection Hj as ->. destruct Dj as [|[|[|]]]; auto. contradiction.
    + exists j, pj. split; [|exact Dj]. rewrite set_pc_nth. destruct (Nat.eqb_spec i j); [contradiction|exact Hj].
Qed.

Lemma round_step grow n old os s a s' : (1 <= n)%nat ->
  (length (os ++ measured [a]) <= n)%nat ->
  match a with TReset _ => False | _ => True end ->
  Round n old os s -> tstep grow s a = Some (Ok s') -> Round n old (os ++ measured [a]) s'.
Proof.
  intros Hn Hle Hnr R H. pose proof R as [Ho Hl Hrd Hf Hfu Hk]. destruct a as [m|o|i|i|i]; cbn [measured] in *; [contradiction| | | |].
  - cbn [tstep] in H. injection H as <-. rewrite Ho. rewrite app_length in Hle. cbn [length] in Hle.
    specialize (Hl ltac:(lia)). destruct (Hf ltac:(lia)) as [Hold Hna].
    constructor; cbn [offs ocap off upcs].
    + reflexivity.
    + intros _. rewrite Hl, app_length. cbn [length]. destruct (Nat.leb_spec (length os + 1) n); lia.
    + intros _ j. destruct (Nat.lt_ge_cases j (length (upcs s))) as [Hj1|Hj1].
      * rewrite nth_error_app1 by exact Hj1. specialize (Hrd ltac:(lia) j).
        destruct (nth_error (upcs s) j) as [[|k|c| |]|]; auto. rewrite app_length. lia.
      * rewrite nth_error_app2 by exact Hj1. destruct (j - length (upcs s))%nat as [|[]]; exact I.
    + rewrite app_length. cbn [length]. intros Hlt. split; [exact Hold|]. intros j Hj.
      destruct (Nat.lt_ge_cases j (length (upcs s))) as [Hj1|Hj1].
      * rewrite nth_error_app1 in Hj by exact Hj1. exact (Hna j Hj).
      * rewrite nth_error_app2 in Hj by exact Hj1. destruct (j - length (upcs s))%nat as [|k]; [discriminate|destruct k; discriminate].
    + intros _ _. left. exists (length (upcs s)), UCheck. split; [|now left]. rewrite nth_error_app2, Nat.sub_diag by lia. reflexivity.
    + intros _ _. left. exact Hold.
  - rewrite app_nil_r in *. pose proof (Hrd Hle i) as Hi. cbn [tstep] in H.
    destruct (nth_error (upcs s) i) as [[|k|c| |]|] eqn:Ei; try discriminate; injection H as <-; rewrite Ho;
      apply (round_go n old os s i _ _ R Hle Ei); try discriminate.
    + reflexivity.
    + intros Eq _. left. now rewrite Eq.
    + destruct (Nat.eqb_spec (length os) c); exact I.
    + subst c. intros Lt. destruct (Nat.eqb_spec (length os) n); [lia|discriminate].
    + subst c. intros Eq _. right. right. now rewrite Eq, Nat.eqb_refl.
  - rewrite app_nil_r in *. pose proof (Hrd Hle i) as Hi. cbn [tstep] in H.
    destruct (nth_error (upcs s) i) as [[|k|c| |]|] eqn:Ei; try discriminate; injection H as <-; rewrite (Hl Hle);
      apply (round_go n old os s i _ _ R Hle Ei); try discriminate.
    + reflexivity.
    + intros Eq _. right. now left.
    + destruct (Nat.eqb_spec k n); exact I.
    + intros Lt. destruct (Nat.eqb_spec k n); [lia|discriminate].
    + intros Eq [D|[D|D]]; try discriminate. injection D as ->. right. right. now rewrite Nat.eqb_refl.
  - rewrite app_nil_r in *. cbn [tstep] in H. destruct (nth_error (upcs s) i) as [[|k|c| |]|] eqn:Ei; try discriminate.
    assert (Heq : length os = n).
    { destruct (Nat.eq_dec (length os) n) as [|Hne]; [assumption|]. destruct (Hf ltac:(lia)) as [_ Hna]. elim (Hna i Ei). }
    rewrite Ho in H. 
    destruct (average os) as [v|] eqn:Ea; cbn [obind] in H; [|discriminate]. injection H as <-.
    specialize (Hl Hle).
    constructor; cbn [offs ocap off upcs]; auto.
    + intros _ j. rewrite set_pc_nth. specialize (Hrd Hle j). destruct (i =? j)%nat; [destruct (nth_error (upcs s) j); exact I|exact Hrd].
    + intros; lia.
    + intros _ Hall. right. rewrite average_mean in Ea; [congruence|destruct os; cbn in *; [lia|discriminate]|exact Hall].
    + intros _ Hall. right. rewrite average_mean in Ea; [congruence|destruct os; cbn in *; [lia|discriminate]|exact Hall].
Qed.

Lemma measured_cons a r : measured (a :: r) = measured [a] ++ measured r.
Proof. destruct a; reflexivity. Qed.

Lemma round_run grow n old acts : (1 <= n)%nat -> no_reset acts -> forall os s s',
  (length (os ++ measured acts) <= n)%nat -> Round n old os s ->
  trun grow s acts = Some (Ok s') -> Round n old (os ++ measured acts) s'.
Proof.
  intros Hn Hnr. induction Hnr as [|a acts Ha Hnr IH]; intros os s s' Hle HR H; cbn [trun] in H.
  - injection H as <-. rewrite app_nil_r. exact HR.
  - destruct (tstep grow s a) as [[s1|]|] eqn:E; try discriminate.
    rewrite measured_cons, app_assoc in *. 
    apply (IH _ s1); [exact Hle| |exact H].
    eapply round_step; [exact Hn| |exact Ha|exact HR|exact E]. rewrite !app_length in *. lia.
Qed.

Lemma round_start n s : (1 <= n)%nat -> nobody_running s ->
  Round n (off s) [] {| offs := []; ocap := n; off := off s; upcs := upcs s |}.
Proof.
  intros Hn Hd. constructor; cbn [offs ocap off upcs]; auto.
  - intros _ i. destruct (nth_error (upcs s) i) as [p|] eqn:Hi; [|exact I]. apply nth_error_In in Hi.
    unfold nobody_running in Hd. rewrite Forall_forall in Hd. now rewrite (Hd _ Hi).
  - intros _. split; [reflexivity|]. intros i Hi. apply nth_error_In in Hi.
    unfold nobody_running in Hd. rewrite Forall_forall in Hd. specialize (Hd _ Hi). discriminate.
  - cbn [length]. intros; lia.
Qed.

(** No panic as long as nobody is in UpdateOffset while the slice is empty. *)
Lemma no_panic_step grow s a : (offs s = [] -> nobody_running s) ->
  (match a with TReset n => 0 <= n /\ nobody_running s | _ => True end) ->
  match tstep grow s a with
  | Some Panic => False
  | Some (Ok s') => offs s' = [] -> nobody_running s'
  | None => True
  end.
Proof.
  intros HC Hr. assert (Hno : forall i p, nth_error (upcs s) i = Some p -> p <> UDone -> offs s <> []).
  { intros i p Hi Np E. apply Np. apply nth_error_In in Hi. specialize (HC E). unfold nobody_running in HC. rewrite Forall_forall in HC. exact (HC _ Hi). }
  destruct a as [n|o|i|i|i]; cbn [tstep].
  - destruct Hr as [Hn Hd]. destruct (Z.ltb_spec n 0); [lia|]. intros _. exact Hd.
  - cbn [offs]. intros E. apply app_eq_nil in E. destruct E; discriminate.
  - destruct (nth_error (upcs s) i) as [[| | | |]|] eqn:Ei; auto; cbn [go_to offs]; intros E; destruct (Hno i _ Ei ltac:(discriminate) E).
  - destruct (nth_error (upcs s) i) as [[| | | |]|] eqn:Ei; auto; cbn [go_to offs]; intros E; destruct (Hno i _ Ei ltac:(discriminate) E).
  - destruct (nth_error (upcs s) i) as [[| | | |]|] eqn:Ei; auto.
    pose proof (Hno i _ Ei ltac:(discriminate)) as Hne. unfold average. destruct (offs s) as [|x l] eqn:Eo; [congruence|].
    cbn [obind offs]. discriminate.
Qed.
