(** Proofs about the sample channels. *)
From Verif Require Import GoBase GoBaseFacts PlaylistModel ChanModel ChanSpec.
From Coq Require Import ZifyBool ZifyNat ZifyN.
Local Open Scope Z_scope.

Definition lows (rs : list (Z * list f64 * list f64)) : list f64 := concat (map (fun r => snd (fst r)) rs).
Definition highs (rs : list (Z * list f64 * list f64)) : list f64 := concat (map (fun r => snd r) rs).

Definition got_low (s : cstate) := match fill s with FIdle => [] | FRun _ gl _ => gl end.
Definition got_high (s : cstate) := match fill s with FIdle => [] | FRun _ _ gh => gh end.
(** Values still to be sent by the producer. *)
Definition todo_low (s : cstate) := match prod s with PSendLow l _ => [l] | _ => [] end.
Definition todo_high (s : cstate) := match prod s with PSendLow _ h | PSendHigh h => [h] | _ => [] end.

Record Inv (s : cstate) : Prop := {
  i_low : map fst (hist s) = lows (returned s) ++ got_low s ++ lowq s ++ todo_low s;
  i_high : map snd (hist s) = highs (returned s) ++ got_high s ++ highq s ++ todo_high s;
  i_capl : (length (lowq s) <= cap s)%nat;
  i_caph : (length (highq s) <= cap s)%nat;
  i_ret : Forall (fun r => length (snd (fst r)) = length (snd r)) (returned s);
  i_idx : idx_r s = zlen (lows (returned s));
  i_exact : indices_exact 0 (returned s);
  i_w : idx_w s = zlen (hist s) - (match prod s with PIdle => 0 | _ => 1 end);
  i_fill : match fill s with FIdle => True | FRun k gl gh => (length gl <= k /\ length gh <= k)%nat end
}.

Lemma indices_exact_app i a j l h :
  indices_exact i a -> j = i + zlen (lows a) -> length l = length h -> indices_exact i (a ++ [(j, l, h)]).
Proof.
  revert i; induction a as [|[[j0 l0] h0] a IH]; intros i Ha Hj Hl; cbn [app indices_exact].
  - split; [|split; [exact Hl|exact I]]. rewrite Hj. unfold lows, zlen; cbn; lia.
  - cbn [indices_exact] in Ha. destruct Ha as (H1 & H2 & H3). split; [exact H1|]. split; [exact H2|].
    apply IH; [exact H3| |exact Hl]. rewrite Hj. change (lows ((j0, l0, h0) :: a)) with (l0 ++ lows a).
    rewrite zlen_app. lia.
Qed.

Lemma lows_snoc a r : lows (a ++ [r]) = lows a ++ snd (fst r).
Proof. unfold lows. rewrite map_app, concat_app. cbn. rewrite app_nil_r. reflexivity. Qed.
Lemma highs_snoc a r : highs (a ++ [r]) = highs a ++ snd r.
Proof. unfold highs. rewrite map_app, concat_app. cbn. rewrite app_nil_r. reflexivity. Qed.

Ltac csimpl := cbn [cap lowq highq prod fill idx_w idx_r hist returned] in *.

Lemma inv_init c : Inv (init_chan c).
Proof. constructor; cbn; auto; lia. Qed.

Lemma inv_step s a s' : Inv s -> cstep s a = Some s' -> Inv s'.
Proof.
  intros [Hl Hh Hcl Hch Hret Hidx Hex Hw Hf] H.
  unfold got_low, got_high, todo_low, todo_high in *.
  destruct a as [[l h]| | | |k| | | ]; cbn [cstep] in H.
  - destruct (prod s) eqn:Ep; try discriminate. injection H as <-.
    constructor; unfold got_low, got_high, todo_low, todo_high; csimpl; auto.
    + rewrite map_app. etransitivity; [apply f_equal2; [exact Hl|reflexivity]|]. rewrite <- !app_assoc. reflexivity.
    + rewrite map_app. etransitivity; [apply f_equal2; [exact Hh|reflexivity]|]. rewrite <- !app_assoc. reflexivity.
    + rewrite zlen_app. change (zlen [(l, h)]) with 1. lia.
  - destruct (prod s) as [|l h|h|] eqn:Ep; try discriminate.
    destruct (Nat.ltb_spec (length (lowq s)) (cap s)) as [Hc|]; [|discriminate]. injection H as <-.
    constructor; unfold got_low, got_high, todo_low, todo_high; csimpl; auto.
    + rewrite Hl, <- !app_assoc. reflexivity.
    + rewrite app_length. cbn [length]. lia.
  - destruct (prod s) as [|l h|h|] eqn:Ep; try discriminate.
    destruct (Nat.ltb_spec (length (highq s)) (cap s)) as [Hc|]; [|discriminate]. injection H as <-.
    constructor; unfold got_low, got_high, todo_low, todo_high; csimpl; auto.
    + rewrite Hh, <- !app_assoc. reflexivity.
    + rewrite app_length. cbn [length]. lia.
  - destruct (prod s) as [|l h|h|] eqn:Ep; try discriminate. injection H as <-.
    constructor; unfold got_low, got_high, todo_low, todo_high; csimpl; auto. lia.
  - destruct (fill s) as [|k0 gl gh] eqn:Ef; try discriminate. injection H as <-.
    constructor; unfold got_low, got_high, todo_low, todo_high; csimpl; auto. cbn; lia.
  - destruct (fill s) as [|k gl gh] eqn:Ef; try discriminate.
    destruct (lowq s) as [|x q] eqn:Eq; try discriminate.
    destruct (Nat.ltb_spec (length gl) k) as [Hc|]; [|discriminate]. injection H as <-.
    constructor; unfold got_low, got_high, todo_low, todo_high; csimpl; auto.
    + rewrite Hl, <- !app_assoc. reflexivity.
    + cbn [length] in Hcl. lia.
    + rewrite app_length. cbn [length]. lia.
  - destruct (fill s) as [|k gl gh] eqn:Ef; try discriminate.
    destruct (highq s) as [|x q] eqn:Eq; try discriminate.
    destruct (Nat.ltb_spec (length gh) k) as [Hc|]; [|discriminate]. injection H as <-.
    constructor; unfold got_low, got_high, todo_low, todo_high; csimpl; auto.
    + rewrite Hh, <- !app_assoc. reflexivity.
    + cbn [length] in Hch. lia.
    + rewrite app_length. cbn [length]. lia.
  - destruct (fill s) as [|k gl gh] eqn:Ef; try discriminate.
    destruct (Nat.eqb_spec (length gl) k) as [H1|]; [|discriminate].
    destruct (Nat.eqb_spec (length gh) k) as [H2|]; [|discriminate]. cbn [andb] in H. injection H as <-.
    constructor; unfold got_low, got_high, todo_low, todo_high; csimpl; auto.
    + rewrite lows_snoc, Hl, <- !app_assoc. reflexivity.
    + rewrite highs_snoc, Hh, <- !app_assoc. reflexivity.
    + apply Forall_app. split; [exact Hret|]. constructor; [|constructor]. cbn. lia.
    + rewrite lows_snoc, zlen_app. cbn [fst snd]. unfold zlen in *. lia.
    + apply indices_exact_app; [exact Hex|exact Hidx|lia].
Qed.

Lemma inv_run acts : forall s s', Inv s -> crun s acts = Some s' -> Inv s'.
Proof.
  induction acts as [|a acts IH]; intros s s' HI H; cbn [crun] in H.
  - injection H as <-. exact HI.
  - destruct (cstep s a) as [s1|] eqn:E; [|discriminate].
    eapply IH; [eapply inv_step; eassumption|exact H].
Qed.

(* ---------- safety ---------- *)

Lemma combine_app {A B} (a1 a2 : list A) (b1 b2 : list B) :
  length a1 = length b1 -> combine (a1 ++ a2) (b1 ++ b2) = combine a1 b1 ++ combine a2 b2.
Proof.
  revert b1; induction a1 as [|x a1 IH]; intros [|y b1] H; cbn in *; try lia; [reflexivity|].
  rewrite IH by lia. reflexivity.
Qed.
Lemma combine_split_map {A B} (l : list (A * B)) : combine (map fst l) (map snd l) = l.
Proof. induction l as [|[a b] l IH]; cbn; [|rewrite IH]; reflexivity. Qed.

Lemma handed_out_combine rs :
  Forall (fun r => length (snd (fst r)) = length (snd r)) rs ->
  handed_out rs = combine (lows rs) (highs rs) /\ length (lows rs) = length (highs rs).
Proof.
  induction rs as [|r rs IH]; intros H; [split; reflexivity|].
  inversion H as [|? ? Hr Hrs]; subst. destruct (IH Hrs) as [H1 H2].
  unfold handed_out, lows, highs in *. cbn [map concat].
  rewrite H1, combine_app by exact Hr. rewrite !app_length. split; [reflexivity|lia].
Qed.

Lemma firstn_combine_prefix {A B} (l : list (A * B)) a b ra rb :
  map fst l = a ++ ra -> map snd l = b ++ rb -> length a = length b -> is_prefix (combine a b) l.
Proof.
  intros Ha Hb Hl. exists (combine ra rb).
  rewrite <- combine_app by exact Hl. rewrite <- Ha, <- Hb. symmetry. apply combine_split_map.
Qed.

Lemma inv_prefix s : Inv s -> is_prefix (handed_out (returned s)) (hist s).
Proof.
  intros HI. destruct (handed_out_combine _ (i_ret s HI)) as [-> Hlen].
  eapply firstn_combine_prefix; [apply (i_low s HI)|apply (i_high s HI)|exact Hlen].
Qed.

(* ---------- progress ---------- *)

Lemma inv_counts s : Inv s ->
  length (hist s) = (length (lows (returned s)) + length (got_low s) + length (lowq s) + length (todo_low s))%nat /\
  length (hist s) = (length (lows (returned s)) + length (got_high s) + length (highq s) + length (todo_high s))%nat.
Proof.
  intros HI. destruct (handed_out_combine _ (i_ret s HI)) as [_ Hlen].
  split.
  - pose proof (f_equal (@length _) (i_low s HI)) as E. rewrite map_length, !app_length in E. lia.
  - pose proof (f_equal (@length _) (i_high s HI)) as E. rewrite map_length, !app_length in E. lia.
Qed.

Lemma progress s k :
  Inv s -> (1 <= cap s)%nat -> filling s k ->
  fill_done s \/
  exists a, working a = true /\ cstep s a <> None /\
    ((length (lows (returned s)) + k <= length (hist s))%nat -> starts_push a = false).
Proof.
  intros HI Hcap (gl & gh & Hf).
  destruct (inv_counts s HI) as [Cl Ch].
  pose proof (i_fill s HI) as Hlen. rewrite Hf in Hlen. destruct Hlen as [Hgl Hgh].
  unfold got_low, got_high, todo_low, todo_high in *. rewrite Hf in Cl, Ch.
  assert (Hrl : (length gl < k)%nat -> lowq s <> [] -> cstep s CRecvLow <> None).
  { intros H1 H2. cbn [cstep]. rewrite Hf. destruct (lowq s); [congruence|].
    destruct (Nat.ltb_spec (length gl) k); [discriminate|lia]. }
  assert (Hrh : (length gh < k)%nat -> highq s <> [] -> cstep s CRecvHigh <> None).
  { intros H1 H2. cbn [cstep]. rewrite Hf. destruct (highq s); [congruence|].
    destruct (Nat.ltb_spec (length gh) k); [discriminate|lia]. }
  destruct (Nat.eq_dec (length gl) k) as [E1|E1]; [destruct (Nat.eq_dec (length gh) k) as [E2|E2]|].
  { left. unfold fill_done. cbn [cstep]. rewrite Hf.
    rewrite (proj2 (Nat.eqb_eq _ _) E1), (proj2 (Nat.eqb_eq _ _) E2). discriminate. }
  - (* high missing *)
    right. destruct (highq s) as [|x q] eqn:Eh.
    2:{ exists CRecvHigh. repeat split. apply Hrh; [lia|congruence]. }
    destruct (prod s) as [|l h|h|] eqn:Ep; cbn [length] in *.
    + exists (CPush (0%N, 0%N)). cbn [cstep]. rewrite Ep. repeat split; [discriminate|]. intros; lia.
    + exists CSendLow. cbn [cstep]. rewrite Ep.
      destruct (Nat.ltb_spec (length (lowq s)) (cap s)); [repeat split; discriminate|].
      exfalso. lia.
    + exists CSendHigh. cbn [cstep]. rewrite Ep, Eh. cbn [length].
      destruct (Nat.ltb_spec 0 (cap s)); [repeat split; discriminate|lia].
    + exists CIncr. cbn [cstep]. rewrite Ep. repeat split. discriminate.
  - right. destruct (lowq s) as [|x q] eqn:El.
    2:{ exists CRecvLow. repeat split. apply Hrl; [lia|congruence]. }
    destruct (prod s) as [|l h|h|] eqn:Ep; cbn [length] in *.
    + exists (CPush (0%N, 0%N)). cbn [cstep]. rewrite Ep. repeat split; [discriminate|]. intros; lia.
    + exists CSendLow. cbn [cstep]. rewrite Ep, El. cbn [length].
      destruct (Nat.ltb_spec 0 (cap s)); [repeat split; discriminate|lia].
    + destruct (highq s) as [|y q] eqn:Eh.
      * exists CSendHigh. cbn [cstep]. rewrite Ep, Eh. cbn [length].
        destruct (Nat.ltb_spec 0 (cap s)); [repeat split; discriminate|lia].
      * exists CRecvHigh. repeat split. apply Hrh; [|congruence]. cbn [length] in *. lia.
    + exists CIncr. cbn [cstep]. rewrite Ep. repeat split. discriminate.
Qed.

(** The measure that bounds the number of steps of a Fill. *)
Definition measure (s : cstate) : nat :=
  match fill s with
  | FIdle => 0
  | FRun k gl gh =>
      (k - length gl) + (k - length gh)
      + 4 * (length (lows (returned s)) + k + cap s + 1 - length (hist s))
      + match prod s with PIdle => 0 | PSendLow _ _ => 3 | PSendHigh _ => 2 | PIncr => 1 end
  end%nat.

Lemma measure_step s a s' k :
  Inv s -> filling s k -> working a = true -> cstep s a = Some s' ->
  (S (measure s') <= measure s)%nat /\ filling s' k /\ returned s' = returned s /\ cap s' = cap s.
Proof.
  intros HI (gl & gh & Hf) Hw H.
  pose proof (inv_step s a s' HI H) as HI'.
  destruct (inv_counts s HI) as [Cl Ch]. destruct (inv_counts s' HI') as [Cl' Ch'].
  pose proof (i_fill s HI) as Hlen. rewrite Hf in Hlen. destruct Hlen as [Hgl Hgh].
  pose proof (i_caph s' HI') as Hc'. pose proof (i_capl s' HI') as Hcl'.
  pose proof (i_fill s' HI') as Hlen'.
  unfold got_low, got_high, todo_low, todo_high, measure, filling in *.
  destruct a as [[l h]| | | |k0| | | ]; cbn [cstep] in H; try discriminate Hw.
  - destruct (prod s) eqn:Ep; try discriminate. injection H as <-. csimpl. rewrite Hf in *.
    cbn [length] in *. rewrite app_length in *. cbn [length] in *.
    split; [lia|]. split; [eauto|auto].
  - destruct (prod s) as [|l h|h|] eqn:Ep; try discriminate.
    destruct (Nat.ltb_spec (length (lowq s)) (cap s)); [|discriminate]. injection H as <-. csimpl. rewrite Hf in *.
    split; [lia|]. split; [eauto|auto].
  - destruct (prod s) as [|l h|h|] eqn:Ep; try discriminate.
    destruct (Nat.ltb_spec (length (highq s)) (cap s)); [|discriminate]. injection H as <-. csimpl. rewrite Hf in *.
    split; [lia|]. split; [eauto|auto].
  - destruct (prod s) as [|l h|h|] eqn:Ep; try discriminate.
    injection H as <-. csimpl. rewrite Hf in *.
    split; [lia|]. split; [eauto|auto].
  - rewrite Hf in H. destruct (lowq s) as [|x q]; [discriminate|].
    destruct (Nat.ltb_spec (length gl) k); [|discriminate]. injection H as <-. csimpl. rewrite Hf in *.
    rewrite app_length in *. cbn [length] in *. split; [lia|]. split; [eauto|auto].
  - rewrite Hf in H. destruct (highq s) as [|x q]; [discriminate|].
    destruct (Nat.ltb_spec (length gh) k); [|discriminate]. injection H as <-. csimpl. rewrite Hf in *.
    rewrite app_length in *. cbn [length] in *. split; [lia|]. split; [eauto|auto].
Qed.

Lemma measure_run acts : forall s s' k,
  Inv s -> filling s k -> Forall (fun a => working a = true) acts -> crun s acts = Some s' ->
  (length acts + measure s' <= measure s)%nat.
Proof.
  induction acts as [|a acts IH]; intros s s' k HI Hf Hw H; cbn [crun] in H.
  - injection H as <-. cbn; lia.
  - inversion Hw as [|? ? Ha Hr]; subst.
    destruct (cstep s a) as [s1|] eqn:E; [|discriminate].
    destruct (measure_step s a s1 k HI Hf Ha E) as (Hm & Hf1 & _ & _).
    specialize (IH s1 s' k (inv_step s a s1 HI E) Hf1 Hr H). cbn [length]. lia.
Qed.

Lemma measure_bound s k : Inv s -> filling s k -> (measure s <= 6 * k + 4 * cap s + 7)%nat.
Proof.
  intros HI (gl & gh & Hf). destruct (inv_counts s HI) as [Cl _].
  unfold measure. rewrite Hf. destruct (prod s); lia.
Qed.

Lemma cap_step s a s' : cstep s a = Some s' -> cap s' = cap s.
Proof.
  intros H. destruct a as [[l h]| | | |k| | | ]; cbn [cstep] in H.
  - destruct (prod s); try discriminate; injection H as <-; reflexivity.
  - destruct (prod s); try discriminate. destruct (_ <? _)%nat; try discriminate; injection H as <-; reflexivity.
  - destruct (prod s); try discriminate. destruct (_ <? _)%nat; try discriminate; injection H as <-; reflexivity.
  - destruct (prod s); try discriminate; injection H as <-; reflexivity.
  - destruct (fill s); try discriminate; injection H as <-; reflexivity.
  - destruct (fill s); try discriminate. destruct (lowq s); try discriminate.
    destruct (_ <? _)%nat; try discriminate; injection H as <-; reflexivity.
  - destruct (fill s); try discriminate. destruct (highq s); try discriminate.
    destruct (_ <? _)%nat; try discriminate; injection H as <-; reflexivity.
  - destruct (fill s); try discriminate. destruct (_ && _)%bool; try discriminate; injection H as <-; reflexivity.
Qed.
Lemma cap_run acts : forall s s', crun s acts = Some s' -> cap s' = cap s.
Proof.
  induction acts as [|a acts IH]; intros s s' H; cbn [crun] in H; [congruence|].
  destruct (cstep s a) as [s1|] eqn:E; [|discriminate]. rewrite (IH _ _ H). exact (cap_step _ _ _ E).
Qed.
