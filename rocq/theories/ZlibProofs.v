(** What the zlib reader does with standard streams. *)
From Verif Require Import GoBase GoBaseFacts GoUtf8 WireModel WireSpec DescrModel ZlibModel ZlibSpec.
From Coq Require Import ZifyBool ZifyNat ZifyN.
Local Open Scope N_scope.

(** * Bits *)
Lemma byte_bits_low k : forall x, byte_bits k x = low_first k x.
Proof. induction k as [|k IH]; intros x; [reflexivity|]. cbn [byte_bits low_first]. now rewrite IH. Qed.
Lemma all_bits_of b : all_bits b = bits_of b.
Proof. unfold all_bits, bits_of. induction b as [|x b IH]; [reflexivity|]. cbn [flat_map]. now rewrite IH, byte_bits_low. Qed.
Lemma low_first_length n : forall v, length (low_first n v) = n.
Proof. induction n as [|n IH]; intros v; [reflexivity|]. cbn [low_first length]. now rewrite IH. Qed.
Lemma bits_of_length b : length (bits_of b) = (8 * length b)%nat.
Proof. unfold bits_of. induction b as [|x b IH]; [reflexivity|]. cbn [flat_map length]. rewrite app_length, low_first_length, IH. lia. Qed.
Lemma bits_of_app a b : bits_of (a ++ b) = bits_of a ++ bits_of b.
Proof. apply flat_map_app. Qed.

Lemma odd_half v : (if N.odd v then 1 else 0) + 2 * (v / 2) = v.
Proof.
  rewrite <- N.bit0_odd. pose proof (N.bit0_mod v) as H. pose proof (N.div_mod v 2 ltac:(lia)) as D.
  destruct (N.testbit v 0); cbn [N.b2n] in H; lia.
Qed.
Lemma get_low n : forall v r, v < 2 ^ N.of_nat n -> get_bits n (low_first n v ++ r) = Some (v, r).
Proof.
  induction n as [|n IH]; intros v r H.
  - cbn in *. assert (v = 0) as -> by lia. reflexivity.
  - cbn [low_first app get_bits]. rewrite Nat2N.inj_succ, N.pow_succ_r' in H.
    rewrite IH by (apply N.div_lt_upper_bound; lia). f_equal. f_equal. apply odd_half.
Qed.
Lemma get_bits_skip n : forall bs, (n <= length bs)%nat -> exists v, get_bits n bs = Some (v, skipn n bs).
Proof.
  induction n as [|n IH]; intros bs H; [now exists 0|]. destruct bs as [|x bs]; [cbn in H; lia|].
  cbn [get_bits skipn length] in *. destruct (IH bs ltac:(lia)) as [v ->]. eexists. reflexivity.
Qed.
Lemma get_bits_len n : forall bs v r, get_bits n bs = Some (v, r) -> length bs = (n + length r)%nat.
Proof.
  induction n as [|n IH]; intros bs v r H; cbn [get_bits] in H; [injection H as _ <-; reflexivity|].
  destruct bs as [|x bs]; [discriminate H|]. destruct (get_bits n bs) as [[v' r']|] eqn:E; [|discriminate H].
  injection H as _ <-. cbn [length]. rewrite (IH _ _ _ E). reflexivity.
Qed.

(** the number given by bits, the most significant one first *)
Definition value (bs : list bool) : N := fold_left (fun a (x : bool) => 2 * a + (if x then 1 else 0)) bs 0.
Lemma value_app a b : value (a ++ b) = value a * 2 ^ N.of_nat (length b) + value b.
Proof.
  unfold value. rewrite fold_left_app. generalize (fold_left (fun a (x : bool) => 2 * a + (if x then 1 else 0)) a 0) as v. intros v.
  revert v. induction b as [|x b IH] using rev_ind; intros v; [cbn; lia|].
  rewrite !fold_left_app. cbn [fold_left]. rewrite IH, app_length. cbn [length]. rewrite Nat.add_1_r, Nat2N.inj_succ, N.pow_succ_r'. lia.
Qed.
Lemma high_length n v : length (high_first n v) = n.
Proof. unfold high_first. now rewrite rev_length, low_first_length. Qed.
Lemma value_high n : forall v, v < 2 ^ N.of_nat n -> value (high_first n v) = v.
Proof.
  unfold high_first. induction n as [|n IH]; intros v H; [cbn in *; lia|].
  rewrite Nat2N.inj_succ, N.pow_succ_r' in H. cbn [low_first rev]. rewrite value_app, IH by (apply N.div_lt_upper_bound; lia).
  cbn. pose proof (odd_half v). lia.
Qed.
Lemma value_bound bs : value bs < 2 ^ N.of_nat (length bs).
Proof.
  induction bs as [|x bs IH] using rev_ind; [cbn; lia|]. rewrite value_app, app_length. cbn [length].
  change (2 ^ N.of_nat 1) with 2. rewrite Nat.add_1_r, (Nat2N.inj_succ (length bs)), N.pow_succ_r'.
  destruct x; [change (value [true]) with 1|change (value [false]) with 0]; lia.
Qed.

(** * Huffman codes *)
Lemma sum_app a b : sum (a ++ b) = sum a + sum b.
Proof. unfold sum. induction a as [|x a IH]; [reflexivity|]. cbn [app fold_right]. rewrite IH. lia. Qed.
Lemma sum_le {A} (f g : A -> N) l : (forall x, In x l -> f x <= g x) -> sum (map f l) <= sum (map g l).
Proof.
  induction l as [|x l IH]; intros H; [cbn; lia|]. cbn [map sum fold_right]. specialize (H x (or_introl eq_refl)) as H1.
  assert (sum (map f l) <= sum (map g l)) by (apply IH; intros; apply H; now right). unfold sum in *. lia.
Qed.
Lemma sum_scale {A} (f : A -> N) c l : sum (map (fun x => c * f x) l) = c * sum (map f l).
Proof. induction l as [|x l IH]; [cbn; lia|]. cbn [map sum fold_right]. unfold sum in *. rewrite IH. lia. Qed.
Lemma sum_plus {A} (f g : A -> N) l : sum (map (fun x => f x + g x) l) = sum (map f l) + sum (map g l).
Proof. induction l as [|x l IH]; [cbn; lia|]. cbn [map sum fold_right]. unfold sum in *. rewrite IH. lia. Qed.
Lemma sum_ext {A} (f g : A -> N) l : (forall x, In x l -> f x = g x) -> sum (map f l) = sum (map g l).
Proof. intros H. f_equal. now apply map_ext_in. Qed.

Lemma space_zero ls : space 0 ls = 0.
Proof. unfold space. rewrite (sum_ext _ (fun _ => 0 * 0)); [rewrite sum_scale; reflexivity|]. intros x _. destruct (0 <? x) eqn:E; [|reflexivity].
  destruct (x <=? 0) eqn:E2; [lia|reflexivity]. Qed.

Definition count (ls : list N) (n : N) : N := N.of_nat (length (symbols_of_length ls n)).

Lemma symbols_filter ls n : symbols_of_length ls n = map N.of_nat (filter (fun i => nth i ls 0 =? n) (seq 0 (length ls))).
Proof. reflexivity. Qed.

Lemma count_sum ls n : count ls n = sum (map (fun l => if l =? n then 1 else 0) ls).
Proof.
  unfold count. rewrite symbols_filter, map_length. 
  assert (G : forall ls k, N.of_nat (length (filter (fun i => nth (i - k) ls 0 =? n) (seq k (length ls)))) = sum (map (fun l => if l =? n then 1 else 0) ls)).
  { clear ls. induction ls as [|x ls IH]; intros k; [reflexivity|]. cbn [length seq filter map sum fold_right].
    replace (nth (k - k) (x :: ls) 0) with x by (now rewrite Nat.sub_diag).
    assert (E : length (filter (fun i => nth (i - k) (x :: ls) 0 =? n) (seq (S k) (length ls)))
                = length (filter (fun i => nth (i - S k) ls 0 =? n) (seq (S k) (length ls)))).
    { f_equal. apply filter_ext_in. intros i Hi. apply in_seq in Hi. replace (i - k)%nat with (S (i - S k)) by lia. reflexivity. }
    specialize (IH (S k)). unfold sum in *. destruct (x =? n); cbn [length]; rewrite E; lia. }
  rewrite <- (G ls O). f_equal. f_equal. apply filter_ext_in. intros i _. now rewrite Nat.sub_0_r.
Qed.

Lemma space_succ ls n : 0 < n -> space n ls = 2 * space (n - 1) ls + count ls n.
Proof.
  intros Hn. rewrite count_sum. unfold space. rewrite <- sum_scale, <- sum_plus. apply sum_ext. intros l _.
  destruct (0 <? l) eqn:E0; cbn [andb].
  - destruct (N.ltb_spec l n).
    + replace (l <=? n) with true by lia. replace (l <=? n - 1) with true by lia. replace (l =? n) with false by lia.
      replace (n - l) with (N.succ (n - 1 - l)) by lia. rewrite N.pow_succ_r'. lia.
    + replace (l <=? n - 1) with false by lia. destruct (N.eqb_spec l n).
      * subst. replace (n <=? n) with true by lia. rewrite N.sub_diag. reflexivity.
      * replace (l <=? n) with false by lia. reflexivity.
  - replace (l =? n) with false by lia. destruct (l <=? n); reflexivity.
Qed.

Lemma space_mono ls a b : a <= b -> 2 ^ (b - a) * space a ls <= space b ls.
Proof.
  intros H. unfold space. rewrite <- sum_scale. apply sum_le. intros l _.
  destruct (0 <? l) eqn:E0; cbn [andb]; [|destruct (l <=? a); lia].
  destruct (N.leb_spec l a); [|lia]. replace (l <=? b) with true by lia. rewrite <- N.pow_add_r. apply N.pow_le_mono_r; lia.
Qed.

(** the part of a code's value that comes from shorter codes *)
Lemma shorter_space ls l : 0 < l -> sum (map (fun k => if (0 <? k) && (k <? l) then 2 ^ (l - k) else 0) ls)%bool = 2 * space (l - 1) ls.
Proof.
  intros H. unfold space. rewrite <- sum_scale. apply sum_ext. intros k _. destruct (0 <? k); cbn [andb]; [|reflexivity].
  destruct (N.ltb_spec k l).
  - replace (k <=? l - 1) with true by lia. replace (l - k) with (N.succ (l - 1 - k)) by lia. apply N.pow_succ_r'.
  - replace (k <=? l - 1) with false by lia. reflexivity.
Qed.

Definition rank (ls : list N) (s : N) : nat := length (filter (fun t => code_length ls (N.of_nat t) =? code_length ls s) (seq 0 (N.to_nat s))).

Lemma has_code_lt ls s : has_code ls s -> (N.to_nat s < length ls)%nat.
Proof. unfold has_code, code_length. intros H. destruct (Nat.lt_ge_cases (N.to_nat s) (length ls)) as [L|L]; [exact L|]. rewrite nth_overflow in H by exact L. lia. Qed.

Lemma symbol_at ls s : has_code ls s ->
  (rank ls s < length (symbols_of_length ls (code_length ls s)))%nat
  /\ nth (rank ls s) (symbols_of_length ls (code_length ls s)) 0 = s.
Proof.
  intros H. pose proof (has_code_lt _ _ H) as L. unfold rank. rewrite symbols_filter.
  set (p := fun i => nth i ls 0 =? code_length ls s).
  assert (E : filter (fun t => code_length ls (N.of_nat t) =? code_length ls s) (seq 0 (N.to_nat s)) = filter p (seq 0 (N.to_nat s))).
  { apply filter_ext. intros i. unfold p, code_length. now rewrite Nat2N.id. }
  rewrite E. replace (length ls) with (N.to_nat s + S (length ls - N.to_nat s - 1))%nat by lia.
  rewrite seq_app, filter_app. cbn [seq filter plus].
  assert (p (N.to_nat s) = true) as Ep by (unfold p; fold (code_length ls s); apply N.eqb_refl).
  rewrite Ep, map_app, app_length. cbn [map length]. rewrite map_length. split; [lia|].
  rewrite app_nth2; rewrite map_length; [|lia]. rewrite Nat.sub_diag. cbn [nth]. apply N2Nat.id.
Qed.

Lemma get_symbol_code ls s r : has_code ls s -> Forall (fun l => l <= 15) ls -> space 15 ls <= 2 ^ 15 ->
  get_symbol (code_table ls) 0 0 (symbol_bits ls s ++ r) = Some (s, r).
Proof.
  intros Hc H15 Hk. set (L := code_length ls s). set (V := code_value ls s).
  assert (HL : 0 < L) by exact Hc.
  assert (HL15 : L <= 15).
  { rewrite Forall_forall in H15. apply H15. unfold L, code_length. apply nth_In. now apply has_code_lt. }
  assert (EV : V = 2 * space (L - 1) ls + N.of_nat (rank ls s)).
  { unfold V, code_value. fold L. rewrite shorter_space by exact HL. reflexivity. }
  destruct (symbol_at ls s Hc) as [R1 R2]. fold L in R1, R2.
  assert (HV : V < space L ls) by (rewrite space_succ by exact HL; rewrite EV; unfold count; lia).
  assert (HV2 : V < 2 ^ L).
  { pose proof (space_mono ls L 15 HL15) as M. assert (2 ^ (15 - L) * space L ls <= 2 ^ 15) by lia.
    replace (2 ^ 15) with (2 ^ (15 - L) * 2 ^ L) in H by (rewrite <- N.pow_add_r; f_equal; lia).
    apply N.mul_le_mono_pos_l in H; [lia|]. apply N.neq_0_lt_0, N.pow_nonzero. lia. }
  (* walk down the table *)
  assert (G : forall rest pre, symbol_bits ls s = pre ++ rest -> (length pre < N.to_nat L)%nat ->
    get_symbol (map (fun n => symbols_of_length ls (N.of_nat n)) (seq (S (length pre)) (15 - length pre))) (value pre) (space (N.of_nat (length pre)) ls) (rest ++ r) = Some (s, r)).
  { assert (Lb : length (symbol_bits ls s) = N.to_nat L) by (unfold symbol_bits; apply high_length).
    assert (Vb : value (symbol_bits ls s) = V) by (unfold symbol_bits; apply value_high; fold L; rewrite N2Nat.id; exact HV2).
    induction rest as [|x rest IH]; intros pre E Hp.
    - rewrite app_nil_r in E. rewrite E in Lb. lia.
    - replace (15 - length pre)%nat with (S (15 - S (length pre))) by lia. cbn [seq map app get_symbol].
      set (n := N.of_nat (length pre)). replace (N.of_nat (S (length pre))) with (n + 1) by lia.
      assert (Ev : 2 * value pre + (if x then 1 else 0) = value (pre ++ [x])) by (rewrite value_app; change (2 ^ N.of_nat (length [x])) with 2; destruct x; [change (value [true]) with 1|change (value [false]) with 0]; lia).
      rewrite Ev. 
      assert (Es : 2 * space n ls + N.of_nat (length (symbols_of_length ls (n + 1))) = space (n + 1) ls).
      { rewrite (space_succ ls (n + 1)) by lia. replace (n + 1 - 1) with n by lia. reflexivity. }
      rewrite Es. rewrite E in Lb. rewrite app_length in Lb. cbn [length] in Lb.
      destruct (Nat.eq_dec (S (length pre)) (N.to_nat L)) as [El|El].
      + destruct rest as [|y rest]; [|cbn in Lb; lia].
        rewrite <- E, Vb. replace (n + 1) with L by lia. replace (V <? space L ls) with true by lia.
        cbn [app]. f_equal. f_equal. replace (N.to_nat (V - 2 * space n ls)) with (rank ls s); [exact R2|].
        replace n with (L - 1) by lia. rewrite EV. lia.
      + assert (Hge : space (n + 1) ls <= value (pre ++ [x])).
        { rewrite E in Vb. change (x :: rest) with ([x] ++ rest) in Vb. rewrite app_assoc, value_app in Vb.
          pose proof (value_bound rest) as Hb. set (k := N.of_nat (length rest)) in *.
          assert (n + 1 + k = L) as Hk2 by lia.
          pose proof (space_mono ls (n + 1) (L - 1) ltac:(lia)) as M.
          replace (L - 1 - (n + 1)) with (k - 1) in M by lia.
          assert (2 ^ k = 2 * 2 ^ (k - 1)) by (rewrite <- N.pow_succ_r'; f_equal; lia).
          assert (2 ^ k * space (n + 1) ls <= V) by (rewrite EV; nia).
          assert (2 ^ k * space (n + 1) ls < 2 ^ k * (value (pre ++ [x]) + 1)) by lia.
          apply N.mul_lt_mono_pos_l in H1; [lia|]. apply N.neq_0_lt_0, N.pow_nonzero. lia. }
        replace (value (pre ++ [x]) <? space (n + 1) ls) with false by lia.
        specialize (IH (pre ++ [x])). rewrite app_length in IH. cbn [length] in IH. rewrite Nat.add_1_r in IH.
        replace (N.of_nat (S (length pre))) with (n + 1) in IH by lia. apply IH; [rewrite <- app_assoc; exact E|lia]. }
  specialize (G (symbol_bits ls s) [] eq_refl). cbn [length value fold_left] in G.
  change (N.of_nat 0) with 0 in G. rewrite space_zero in G. apply G. lia.
Qed.

(** a decoding table reads the symbols of a code *)
Definition reads (ls : list N) (bound : N) (table : list (list N)) : Prop :=
  forall s r, has_code ls s -> s < bound -> get_symbol table 0 0 (symbol_bits ls s ++ r) = Some (s, r).

Lemma space_used ls : Forall (fun l => l <= 15) ls ->
  space 15 ls = fold_right N.add 0 (map (fun n => 2 ^ (15 - n)) (filter (fun n => negb (n =? 0)) ls)).
Proof.
  unfold space. induction 1 as [|x ls H _ IH]; [reflexivity|]. cbn [map sum fold_right filter]. unfold sum in IH. rewrite IH.
  destruct (N.eqb_spec x 0) as [->|Hx]; cbn [negb]; [reflexivity|].
  replace ((0 <? x) && (x <=? 15))%bool with true by lia. reflexivity.
Qed.
Lemma usable_ok ls : usable ls -> code_ok ls = true /\ Forall (fun l => l <= 15) ls /\ space 15 ls <= 2 ^ 15.
Proof.
  intros [H15 H]. pose proof (space_used ls H15) as E. unfold code_ok, complete_code.
  destruct H as [H|[H|H]].
  - rewrite <- E, H, N.eqb_refl. cbn [orb]. rewrite Bool.orb_true_r. split; [reflexivity|]. split; [exact H15|lia].
  - rewrite H in E |- *. split; [|split; [exact H15|rewrite E; vm_compute; discriminate]].
    replace (text_eqb [1] [1]) with true by reflexivity. now rewrite !Bool.orb_true_r.
  - split; [|split; [exact H15|]].
    + replace (forallb (fun n => n =? 0) ls) with true; [reflexivity|]. symmetry. apply forallb_forall. rewrite Forall_forall in H. intros x Hx. rewrite (H x Hx). reflexivity.
    + assert (filter (fun n => negb (n =? 0)) ls = []) as F.
      { clear E H15. induction H as [|x l -> _ IH]; [reflexivity|]. exact IH. }
      rewrite E, F. cbn. lia.
Qed.
Lemma usable_reads ls n : usable ls -> reads ls n (code_table ls).
Proof. intros H s r Hs _. destruct (usable_ok ls H) as (_ & H1 & H2). now apply get_symbol_code. Qed.

Lemma fixed_lit_is : fixed_lit = fixed_lengths.
Proof. vm_compute. reflexivity. Qed.
Lemma fixed_reads n : reads fixed_lit n (code_table fixed_lengths).
Proof.
  rewrite <- fixed_lit_is. apply usable_reads. split; [|left; vm_compute; reflexivity].
  apply Forall_forall. intros x Hx. apply in_map_iff in Hx. destruct Hx as (i & <- & _).
  destruct (i <? 144)%nat; [lia|]. destruct (i <? 256)%nat; [lia|]. destruct (i <? 280)%nat; lia.
Qed.
Lemma fixed_dist_reads : reads fixed_dist 30 (code_table (repeat 5 30)).
Proof.
  intros s r _ Hs.
  assert (symbol_bits fixed_dist s = symbol_bits (repeat 5 30) s) as ->.
  { assert (G : forallb (fun i => if list_eq_dec Bool.bool_dec (symbol_bits fixed_dist (N.of_nat i)) (symbol_bits (repeat 5 30) (N.of_nat i)) then true else false) (seq 0 30) = true)
      by (vm_compute; reflexivity).
    rewrite forallb_forall in G. specialize (G (N.to_nat s) ltac:(apply in_seq; lia)). rewrite N2Nat.id in G.
    destruct list_eq_dec as [E|E]; [exact E|discriminate G]. }
  apply get_symbol_code.
  - unfold has_code, code_length. rewrite (nth_indep _ 0 5) by (rewrite repeat_length; lia). rewrite nth_repeat. lia.
  - apply Forall_forall. intros x Hx. apply repeat_spec in Hx. subst x. lia.
  - vm_compute. discriminate.
Qed.

(** * Copies *)
Lemma length_code_reads len s e x : length_code len s e x ->
  256 < s /\ x < 2 ^ N.of_nat e /\
  exists base, nth_error length_base (N.to_nat (s - 257)) = Some base /\ nth_error length_extra (N.to_nat (s - 257)) = Some e /\ base + x = len.
Proof.
  destruct 1 as [k Hk|e j x He Hj Hx|].
  - split; [lia|]. split; [cbn; lia|].
    assert (k = 0 \/ k = 1 \/ k = 2 \/ k = 3 \/ k = 4 \/ k = 5 \/ k = 6 \/ k = 7) as C by lia.
    repeat (destruct C as [->|C]); subst; eexists; repeat split; reflexivity.
  - split; [lia|]. split; [now rewrite N2Nat.id|].
    assert (e = 1 \/ e = 2 \/ e = 3 \/ e = 4 \/ e = 5) as C by lia.
    assert (j = 0 \/ j = 1 \/ j = 2 \/ j = 3) as D by lia.
    exists (3 + 2 ^ (e + 2) + j * 2 ^ e).
    repeat (destruct C as [->|C]); subst; repeat (destruct D as [->|D]); subst; repeat split; reflexivity.
  - split; [lia|]. split; [cbn; lia|]. exists 258. repeat split; reflexivity.
Qed.
Lemma dist_code_reads d s e x : dist_code d s e x ->
  s < 30 /\ 1 <= d /\ x < 2 ^ N.of_nat e /\
  exists base, nth_error dist_base (N.to_nat s) = Some base /\ nth_error dist_extra (N.to_nat s) = Some e /\ base + x = d.
Proof.
  destruct 1 as [k Hk|e j x He Hj Hx].
  - split; [lia|]. split; [lia|]. split; [cbn; lia|].
    assert (k = 0 \/ k = 1 \/ k = 2 \/ k = 3) as C by lia.
    repeat (destruct C as [->|C]); subst; eexists; repeat split; reflexivity.
  - split; [lia|]. split; [lia|]. split; [now rewrite N2Nat.id|].
    assert (e = 1 \/ e = 2 \/ e = 3 \/ e = 4 \/ e = 5 \/ e = 6 \/ e = 7 \/ e = 8 \/ e = 9 \/ e = 10 \/ e = 11 \/ e = 12 \/ e = 13) as C by lia.
    assert (j = 0 \/ j = 1) as D by lia.
    exists (1 + 2 ^ (e + 1) + j * 2 ^ e).
    repeat (destruct C as [->|C]); subst; destruct D as [->| ->]; repeat split; reflexivity.
Qed.

Lemma nth_error_rev_back {A} (o : list A) d : (1 <= d <= length o)%nat -> nth_error (rev o) (d - 1) = nth_error o (length o - d).
Proof.
  intros H. destruct (nth_error o (length o - d)) as [x|] eqn:E.
  - apply nth_error_split in E. destruct E as (l1 & l2 & -> & E). rewrite app_length in *. cbn [length] in *.
    rewrite rev_app_distr. cbn [rev]. rewrite nth_error_app1 by (rewrite app_length, rev_length; cbn; lia).
    rewrite nth_error_app2 by (rewrite rev_length; lia). rewrite rev_length. replace (d - 1 - length l2)%nat with O by lia. reflexivity.
  - apply nth_error_None in E. lia.
Qed.
Lemma copy_back_is d added : forall o, (1 <= d <= length o)%nat ->
  (forall i, (i < length added)%nat -> nth (length o + i) (o ++ added) 0 = nth (length o + i - d) (o ++ added) 0) ->
  copy_back (length added) (d - 1) (rev o) = Some (rev (o ++ added)).
Proof.
  induction added as [|x added IH]; intros o Hd H; [now rewrite app_nil_r|].
  cbn [length copy_back]. rewrite nth_error_rev_back by exact Hd.
  specialize (H O ltac:(cbn; lia)) as H0. rewrite Nat.add_0_r, app_nth2, Nat.sub_diag in H0 by lia. cbn [nth] in H0.
  rewrite app_nth1 in H0 by lia. rewrite (nth_error_nth' o 0) by lia. rewrite <- H0.
  specialize (IH (o ++ [x])). rewrite rev_app_distr in IH. cbn [rev app] in IH. rewrite <- app_assoc in IH. cbn [app] in IH.
  rewrite app_length in IH. cbn [length] in IH. apply IH; [lia|].
  intros i Hi. specialize (H (S i) ltac:(cbn; lia)).
  replace (length o + 1 + i)%nat with (length o + S i)%nat by lia. exact H.
Qed.

Lemma symbol_bits_length ls s : length (symbol_bits ls s) = N.to_nat (code_length ls s).
Proof. apply high_length. Qed.
Lemma symbol_bits_pos ls s : has_code ls s -> (0 < length (symbol_bits ls s))%nat.
Proof. rewrite symbol_bits_length. unfold has_code. lia. Qed.

(** * A block with Huffman codes *)
Lemma coded_flow lit dist tl td : reads lit 286 tl -> reads dist 30 td -> has_code lit 256 ->
  forall o o' b, coded lit dist o o' b -> forall rest fuel, (length (b ++ symbol_bits lit 256 ++ rest) <= fuel)%nat ->
  block_flow fuel (N.to_nat (code_length lit 256)) tl td (b ++ symbol_bits lit 256 ++ rest) (rev o) = (rev o', Some rest).
Proof.
  intros Hl Hd He o o' b H. pose proof (symbol_bits_length lit 256) as Le. pose proof (symbol_bits_pos lit 256 He) as Lp.
  induction H as [o|o x o' b Hx Hc H IH|o added len d ls le lx ds de dx o' b HL HD Hcl Hcd Hdo Hlen Hcopy H IH]; intros rest fuel Hf.
  - cbn [app] in *. rewrite app_length in Hf. destruct fuel as [|fuel]; [lia|]. cbn [block_flow].
    replace (length (symbol_bits lit 256 ++ rest) <? N.to_nat (code_length lit 256))%nat with false by (rewrite app_length; lia).
    rewrite Hl by (try assumption; lia). reflexivity.
  - rewrite <- app_assoc in *. pose proof (symbol_bits_pos lit x Hc) as Lx. rewrite !app_length in Hf. destruct fuel as [|fuel]; [lia|]. cbn [block_flow].
    replace (length (symbol_bits lit x ++ b ++ symbol_bits lit 256 ++ rest) <? N.to_nat (code_length lit 256))%nat with false by (rewrite !app_length; lia).
    rewrite Hl by (try assumption; lia). replace (x <? 256) with true by lia.
    specialize (IH rest fuel). rewrite rev_app_distr in IH. cbn [rev app] in IH. apply IH. rewrite !app_length. lia.
  - pose proof (symbol_bits_pos lit ls Hcl) as Lx.
    destruct (length_code_reads _ _ _ _ HL) as (B1 & B2 & base & B3 & B4 & B5).
    destruct (dist_code_reads _ _ _ _ HD) as (D1 & D2 & D3 & dbase & D4 & D5 & D6).
    rewrite <- !app_assoc in *. rewrite !app_length in Hf. destruct fuel as [|fuel]; [lia|]. cbn [block_flow].
    replace (length (symbol_bits lit ls ++ low_first le lx ++ symbol_bits dist ds ++ low_first de dx ++ b ++ symbol_bits lit 256 ++ rest) <? N.to_nat (code_length lit 256))%nat
      with false by (rewrite !app_length; lia).
    assert (ls < 286).
    { assert (N.to_nat (ls - 257) < length length_base)%nat by (apply nth_error_Some; rewrite B3; discriminate). cbn [length length_base] in H0. lia. }
    rewrite Hl by assumption.
    replace (ls <? 256) with false by lia. replace (ls =? 256) with false by lia.
    unfold get_copy. rewrite B3, B4, (get_low _ _ _ B2), (Hd _ _ Hcd D1), D4, D5, (get_low _ _ _ D3).
    rewrite B5, D6, <- Hlen, copy_back_is by (try assumption; lia). apply IH. rewrite !app_length. lia.
Qed.

(** * Code lengths *)
Lemma length_runs_longer cl l l' b : length_runs cl l l' b -> (length l <= length l')%nat.
Proof. induction 1; rewrite ?app_length, ?repeat_length in *; cbn [length] in *; lia. Qed.
Lemma rev_repeat {A} (x : A) n : rev (repeat x n) = repeat x n.
Proof. induction n as [|n IH]; [reflexivity|]. cbn [repeat rev]. rewrite IH. symmetry. apply repeat_cons. Qed.

Lemma code_lengths_done fuel table bs acc : code_lengths fuel table 0 bs acc = Some (rev acc, bs).
Proof. destruct fuel; reflexivity. Qed.
Lemma length_runs_reads cl tb : reads cl 19 tb -> forall l l' b, length_runs cl l l' b -> forall rest fuel, (length b <= fuel)%nat ->
  code_lengths fuel tb (N.of_nat (length l' - length l)) (b ++ rest) (rev l) = Some (l', rest).
Proof.
  intros Ht l l' b H. induction H as [l|l n l' b Hn Hc H IH|l n k l' b Hk Hc H IH|l k l' b Hk Hc H IH|l k l' b Hk Hc H IH]; intros rest fuel Hf.
  - rewrite Nat.sub_diag, code_lengths_done, rev_involutive. reflexivity.
  - pose proof (length_runs_longer _ _ _ _ H) as Lg. rewrite app_length in Lg. cbn [length] in Lg.
    pose proof (symbol_bits_pos _ _ Hc). rewrite app_length in Hf. destruct fuel as [|fuel]; [lia|].
    cbn [code_lengths]. replace (N.of_nat (length l' - length l) =? 0) with false by lia.
    rewrite <- app_assoc, Ht by (try assumption; lia). replace (n <? 16) with true by lia.
    specialize (IH rest fuel ltac:(lia)). rewrite rev_app_distr, app_length in IH. cbn [rev app length] in IH.
    replace (N.of_nat (length l' - length l) - 1) with (N.of_nat (length l' - (length l + 1))) by lia. exact IH.
  - pose proof (length_runs_longer _ _ _ _ H) as Lg. rewrite !app_length, repeat_length in Lg. cbn [length] in Lg.
    pose proof (symbol_bits_pos _ _ Hc). rewrite !app_length in Hf. destruct fuel as [|fuel]; [lia|].
    cbn [code_lengths]. replace (N.of_nat (length l' - length (l ++ [n])) =? 0) with false by (rewrite app_length; cbn [length]; lia).
    rewrite <- !app_assoc, Ht by (try assumption; lia). replace (16 <? 16) with false by reflexivity. replace (16 =? 16) with true by reflexivity.
    rewrite rev_app_distr. cbn [rev app]. rewrite get_low by (cbn; lia).
    replace (3 + (k - 3)) with k by lia. replace (N.of_nat (length l' - length (l ++ [n])) <? k) with false by (rewrite app_length; cbn [length]; lia).
    specialize (IH rest fuel ltac:(lia)). rewrite !rev_app_distr, rev_repeat, !app_length, repeat_length in IH. cbn [rev app length] in IH.
    rewrite app_length. cbn [length].
    replace (N.of_nat (length l' - (length l + 1)) - k) with (N.of_nat (length l' - (length l + 1 + N.to_nat k))) by lia. exact IH.
  - pose proof (length_runs_longer _ _ _ _ H) as Lg. rewrite !app_length, repeat_length in Lg.
    pose proof (symbol_bits_pos _ _ Hc). rewrite !app_length in Hf. destruct fuel as [|fuel]; [lia|].
    cbn [code_lengths]. replace (N.of_nat (length l' - length l) =? 0) with false by lia.
    rewrite <- !app_assoc, Ht by (try assumption; lia). replace (17 <? 16) with false by reflexivity. replace (17 =? 16) with false by reflexivity.
    replace (17 =? 17) with true by reflexivity. rewrite get_low by (cbn; lia).
    replace (3 + (k - 3)) with k by lia. replace (N.of_nat (length l' - length l) <? k) with false by lia.
    specialize (IH rest fuel ltac:(lia)). rewrite !rev_app_distr, rev_repeat, !app_length, repeat_length in IH.
    replace (N.of_nat (length l' - length l) - k) with (N.of_nat (length l' - (length l + N.to_nat k))) by lia. exact IH.
  - pose proof (length_runs_longer _ _ _ _ H) as Lg. rewrite !app_length, repeat_length in Lg.
    pose proof (symbol_bits_pos _ _ Hc). rewrite !app_length in Hf. destruct fuel as [|fuel]; [lia|].
    cbn [code_lengths]. replace (N.of_nat (length l' - length l) =? 0) with false by lia.
    rewrite <- !app_assoc, Ht by (try assumption; lia). replace (18 <? 16) with false by reflexivity. replace (18 =? 16) with false by reflexivity.
    replace (18 =? 17) with false by reflexivity. rewrite get_low by (cbn; lia).
    replace (11 + (k - 11)) with k by lia. replace (N.of_nat (length l' - length l) <? k) with false by lia.
    specialize (IH rest fuel ltac:(lia)). rewrite !rev_app_distr, rev_repeat, !app_length, repeat_length in IH.
    replace (N.of_nat (length l' - length l) - k) with (N.of_nat (length l' - (length l + N.to_nat k))) by lia. exact IH.
Qed.

Lemma get_many_low {A} n (f : A -> N) l r : (forall x, In x l -> f x < 2 ^ N.of_nat n) ->
  get_many (length l) n (flat_map (fun x => low_first n (f x)) l ++ r) = Some (map f l, r).
Proof.
  induction l as [|x l IH]; intros H; [reflexivity|]. cbn [length flat_map get_many map]. rewrite <- app_assoc, get_low by (apply H; now left).
  rewrite IH by (intros; apply H; now right). reflexivity.
Qed.

Lemma in_order_sent cl k : length cl = 19%nat -> (4 <= k <= 19)%nat ->
  (forall i, (k <= i < 19)%nat -> nth (nth i sending_order 0%nat) cl 0 = 0) ->
  in_order (map (fun i => nth (nth i sending_order 0%nat) cl 0) (seq 0 k)) = cl.
Proof.
  intros Hl Hk Hz. do 19 (destruct cl as [|? cl]; [discriminate Hl|]). destruct cl; [clear Hl|discriminate Hl].
  unfold sending_order in *.
  pose proof (fun H => Hz 4 H)%nat as H4. pose proof (fun H => Hz 5 H)%nat as H5. pose proof (fun H => Hz 6 H)%nat as H6.
  pose proof (fun H => Hz 7 H)%nat as H7. pose proof (fun H => Hz 8 H)%nat as H8. pose proof (fun H => Hz 9 H)%nat as H9.
  pose proof (fun H => Hz 10 H)%nat as H10. pose proof (fun H => Hz 11 H)%nat as H11. pose proof (fun H => Hz 12 H)%nat as H12.
  pose proof (fun H => Hz 13 H)%nat as H13. pose proof (fun H => Hz 14 H)%nat as H14. pose proof (fun H => Hz 15 H)%nat as H15.
  pose proof (fun H => Hz 16 H)%nat as H16. pose proof (fun H => Hz 17 H)%nat as H17. pose proof (fun H => Hz 18 H)%nat as H18. clear Hz.
  cbn [nth] in H4, H5, H6, H7, H8, H9, H10, H11, H12, H13, H14, H15, H16, H17, H18.
  assert (k = 4 \/ k = 5 \/ k = 6 \/ k = 7 \/ k = 8 \/ k = 9 \/ k = 10 \/ k = 11 \/ k = 12 \/ k = 13 \/ k = 14 \/ k = 15 \/ k = 16 \/ k = 17 \/ k = 18 \/ k = 19)%nat as C by lia.
  clear Hk.
  repeat (destruct C as [->|C]); subst;
  repeat match goal with
  | H : (?a <= ?b < 19)%nat -> _ |- _ =>
      first [ specialize (H ltac:(clear; lia)) | assert (~ (a <= b < 19)%nat) by (clear; lia); clear H ]
  end; subst; reflexivity.
Qed.

Lemma read_huffman_is cl k lit dist runs rest :
  length cl = 19%nat -> Forall (fun l => l <= 7) cl -> usable cl -> (4 <= k <= 19)%nat ->
  (forall i, (k <= i < 19)%nat -> nth (nth i sending_order 0%nat) cl 0 = 0) ->
  (257 <= length lit <= 286)%nat -> (1 <= length dist <= 30)%nat -> usable lit -> usable dist ->
  length_runs cl [] (lit ++ dist) runs ->
  read_huffman (low_first 5 (N.of_nat (length lit) - 257) ++ low_first 5 (N.of_nat (length dist) - 1)
                     ++ low_first 4 (N.of_nat k - 4)
                     ++ flat_map (fun i => low_first 3 (nth (nth i sending_order 0%nat) cl 0)) (seq 0 k) ++ runs ++ rest)
  = Some (lit, dist, rest).
Proof.
  intros H19 H7 Hu Hk Hz Hlit Hdist Ul Ud Hr. unfold read_huffman.
  rewrite get_low by (cbn; lia). replace (286 <? N.of_nat (length lit) - 257 + 257) with false by lia.
  rewrite get_low by (cbn; lia). replace (30 <? N.of_nat (length dist) - 1 + 1) with false by lia.
  rewrite get_low by (cbn; lia). replace (N.to_nat (N.of_nat k - 4 + 4)) with (length (seq 0 k)) by (rewrite seq_length; lia).
  rewrite (get_many_low 3 (fun i => nth (nth i sending_order 0%nat) cl 0)).
  2:{ intros i _. change (2 ^ N.of_nat 3) with 8. destruct (nth_in_or_default (nth i sending_order 0%nat) cl 0) as [E|E]; [|rewrite E; lia].
      rewrite Forall_forall in H7. specialize (H7 _ E). cbn beta in H7. lia. }
  rewrite in_order_sent by assumption. destruct (usable_ok cl Hu) as (-> & _). cbn [negb].
  replace (N.of_nat (length lit) - 257 + 257 + (N.of_nat (length dist) - 1 + 1)) with (N.of_nat (length (lit ++ dist) - length (@nil N)))
    by (rewrite app_length; cbn [length]; lia).
  rewrite (length_runs_reads cl _ (usable_reads cl 19 Hu) [] (lit ++ dist) runs Hr) by (rewrite app_length; lia).
  replace (N.to_nat (N.of_nat (length lit) - 257 + 257)) with (length lit) by lia.
  rewrite firstn_app, Nat.sub_diag, firstn_all, skipn_app, Nat.sub_diag, skipn_all. cbn [firstn skipn app]. rewrite app_nil_r.
  destruct (usable_ok lit Ul) as (-> & _). destruct (usable_ok dist Ud) as (-> & _). reflexivity.
Qed.

(** * Blocks *)
Lemma stored_flow_is data : Forall byte data -> forall o rest, stored_flow (length data) (bits_of data ++ rest) (rev o) = (rev (o ++ data), Some rest).
Proof.
  induction 1 as [|x data Hx _ IH]; intros o rest; [now rewrite app_nil_r|].
  unfold bits_of in *. cbn [length stored_flow flat_map]. rewrite <- app_assoc, get_low by exact Hx.
  specialize (IH (o ++ [x]) rest). rewrite rev_app_distr in IH. cbn [rev app] in IH. rewrite IH, <- app_assoc. reflexivity.
Qed.

Lemma one_block_is pos o o' b : block pos o o' b -> exists t0 t1 b', b = t0 :: t1 :: b' /\
  forall rest, ((pos + length (b ++ rest)) mod 8 = 0)%nat -> one_block t0 t1 (b' ++ rest) (rev o) = (rev o', Some rest).
Proof.
  destruct 1 as [o data pad Hb Hl Hp Ha|o o' b H|o o' cl k lit dist runs b H19 H7 Hu Hk Hz Hlit Hdist Ul Ud Hr Hc H]; do 3 eexists; (split; [reflexivity|]); intros rest Hm; cbn [one_block].
  - unfold stored_block. assert (L : forall a b, (length ((a ++ low_first 16 (N.of_nat (length data)) ++ low_first 16 (65535 - N.of_nat (length data)) ++ bits_of data) ++ b) = length a + (16 + (16 + 8 * length data)) + length b)%nat) by (intros; rewrite !app_length, !low_first_length, bits_of_length; lia).
    replace (length (([false; false] ++ pad ++ low_first 16 (N.of_nat (length data)) ++ low_first 16 (65535 - N.of_nat (length data)) ++ bits_of data) ++ rest)) with (2 + (length pad + (16 + (16 + 8 * length data))) + length rest)%nat in Hm by (cbn [app length]; rewrite L; lia).
    rewrite L.
    replace ((length pad + (16 + (16 + 8 * length data)) + length rest) mod 8)%nat with (length pad).
    2:{ pose proof (Nat.div_mod (pos + 2 + length pad) 8 ltac:(lia)). 
        pose proof (Nat.div_mod (pos + (2 + (length pad + (16 + (16 + 8 * length data))) + length rest)) 8 ltac:(lia)).
        pose proof (Nat.div_mod (length pad + (16 + (16 + 8 * length data)) + length rest) 8 ltac:(lia)).
        pose proof (Nat.mod_upper_bound (length pad + (16 + (16 + 8 * length data)) + length rest) 8 ltac:(lia)). lia. }
    rewrite <- !app_assoc.
    assert (forall r, exists v, get_bits (length pad) (pad ++ r) = Some (v, r)) as G.
    { intros r. destruct (get_bits_skip (length pad) (pad ++ r)) as [v E]; [rewrite app_length; lia|]. exists v. rewrite E.
      rewrite skipn_app, skipn_all, Nat.sub_diag. reflexivity. }
    destruct (G (low_first 16 (N.of_nat (length data)) ++ low_first 16 (65535 - N.of_nat (length data)) ++ bits_of data ++ rest)) as [v ->].
    rewrite get_low by (change (2 ^ N.of_nat 16) with 65536; lia). rewrite get_low by (change (2 ^ N.of_nat 16) with 65536; lia).
    replace (N.of_nat (length data) + (65535 - N.of_nat (length data)) =? 65535) with true by lia.
    rewrite Nat2N.id. now apply stored_flow_is.
  - rewrite <- app_assoc. 
    pose proof (coded_flow fixed_lit fixed_dist _ _ (fixed_reads 286) fixed_dist_reads ltac:(vm_compute; reflexivity) o o' b H rest _ (le_n _)) as E.
    replace (N.to_nat (code_length fixed_lit 256)) with 7%nat in E by (vm_compute; reflexivity). exact E.
  - rewrite <- !app_assoc. rewrite read_huffman_is by assumption.
    apply (coded_flow lit dist _ _ (usable_reads lit 286 Ul) (usable_reads dist 30 Ud) Hc o o' b H rest _ (le_n _)).
Qed.

Lemma same_mod a b : a = b -> (b mod 8 = 0 -> a mod 8 = 0)%nat.
Proof. intros ->. exact (fun H => H). Qed.
Lemma deflated_flow pos o o' b : deflated pos o o' b -> forall rest fuel, ((pos + length (b ++ rest)) mod 8 = 0)%nat -> (length b <= fuel)%nat ->
  blocks_flow fuel (b ++ rest) (rev o) = (rev o', Some rest).
Proof.
  induction 1 as [pos o o' b H|pos o o1 o' b b' H _ IH]; intros rest fuel Hm Hf.
  - destruct (one_block_is _ _ _ _ H) as (t0 & t1 & b0 & -> & E). cbn [length] in Hf. destruct fuel as [|fuel]; [lia|].
    cbn [app blocks_flow]. rewrite E; [reflexivity|]. eapply same_mod; [|exact Hm]. cbn [app length]. lia.
  - destruct (one_block_is _ _ _ _ H) as (t0 & t1 & b0 & -> & E). cbn [length app] in Hf. rewrite app_length in Hf. destruct fuel as [|fuel]; [lia|].
    cbn [app blocks_flow]. rewrite <- app_assoc, E.
    + apply IH; [|lia]. eapply same_mod; [|exact Hm]. cbn [app length]. rewrite !app_length. lia.
    + eapply same_mod; [|exact Hm]. cbn [app length]. rewrite !app_length. lia.
Qed.

Lemma inflate_flow_is d body tail : deflate_bytes d body -> exists pad, (length pad < 8)%nat /\
  inflate_flow (body ++ tail) = (rev d, Some (pad ++ bits_of tail)).
Proof.
  intros (_ & b & pad & H & E & Hp). exists pad. split; [exact Hp|]. unfold inflate_flow. rewrite all_bits_of, bits_of_app, E, <- app_assoc.
  apply (deflated_flow 0 [] d b H).
  - rewrite app_assoc, <- E, <- bits_of_app, bits_of_length, Nat.add_0_l, Nat.mul_comm. apply Nat.mod_mul. lia.
  - rewrite app_length. lia.
Qed.

(** * The check sum *)
Lemma adler_fold d : forall a b,
  fold_left (fun s x => let s1 := (fst s + x) mod 65521 in (s1, (snd s + s1) mod 65521)) d (a mod 65521, b mod 65521)
  = ((a + sum d) mod 65521, (b + sum (partial_sums a d)) mod 65521).
Proof.
  induction d as [|x d IH]; intros a b; [cbn [sum fold_right partial_sums fold_left]; now rewrite !N.add_0_r|].
  cbn [fold_left partial_sums sum fold_right fst snd].
  rewrite N.add_mod_idemp_l by lia. rewrite <- N.add_mod by lia. rewrite IH. unfold sum. f_equal; f_equal; lia.
Qed.
Lemma adler_is d : adler32 d = adler d.
Proof. unfold adler32, adler. pose proof (adler_fold d 1 0) as E. change (1 mod 65521, 0 mod 65521) with (1, 0) in E.
  match goal with |- context [match ?F with (_, _) => _ end] =>
    replace F with ((1 + sum d) mod 65521, (0 + sum (partial_sums 1 d)) mod 65521) by (symmetry; exact E) end.
  rewrite N.add_0_l. reflexivity. Qed.
Lemma adler_bound d : adler d < 2 ^ 32.
Proof.
  unfold adler. pose proof (N.mod_upper_bound (sum (partial_sums 1 d)) 65521 ltac:(lia)). pose proof (N.mod_upper_bound (1 + sum d) 65521 ltac:(lia)).
  change (2 ^ 32) with 4294967296. lia.
Qed.
Lemma put_be32_is x : x < 2 ^ 32 -> put_be32 x = big_endian x.
Proof.
  intros H. unfold put_be32, big_endian. cbn [map]. change (256 ^ 3) with 16777216. change (256 ^ 2) with 65536. change (256 ^ 1) with 256. change (256 ^ 0) with 1.
  rewrite N.div_1_r. rewrite (N.mod_small (x / 16777216)); [reflexivity|]. apply N.div_lt_upper_bound; [lia|exact H].
Qed.
Lemma big_endian_byte x : Forall byte (big_endian x).
Proof. unfold big_endian. cbn [map]. repeat constructor; unfold byte; apply N.mod_upper_bound; lia. Qed.

Lemma zlib_header_is h r : zlib_header_bytes h -> zlib_header (h ++ r) = Some r.
Proof.
  intros (cmf & flg & -> & _ & _ & H8 & _ & H31 & H5). cbn [app zlib_header]. rewrite H8, H31. cbn [N.eqb andb].
  rewrite N.testbit_eqb. change (2 ^ 5) with 32. rewrite H5. reflexivity.
Qed.

(** all there is to the data: header and compressed data, whatever follows *)
Lemma read_all_is h d body tail : zlib_header_bytes h -> deflate_bytes d body -> read_all (h ++ body ++ tail) = Some d.
Proof.
  intros Hh Hb. unfold read_all. rewrite zlib_header_is by exact Hh. destruct (inflate_flow_is d body tail Hb) as (pad & _ & ->).
  cbn [fst]. now rewrite rev_involutive.
Qed.
Lemma get_many_bytes b r : Forall byte b -> get_many (length b) 8 (bits_of b ++ r) = Some (b, r).
Proof.
  intros H. pose proof (get_many_low 8 (fun x : N => x) b r) as G. rewrite map_id in G. apply G.
  rewrite Forall_forall in H. exact H.
Qed.
Lemma read_all_ok d z : zlib_stream d z -> read_all_error z = false.
Proof.
  intros (h & body & -> & Hh & Hb). unfold read_all_error. rewrite zlib_header_is by exact Hh.
  destruct (inflate_flow_is d body (big_endian (adler d)) Hb) as (pad & Hp & ->).
  rewrite app_length, bits_of_length. change (length (big_endian (adler d))) with 4%nat.
  replace ((length pad + 8 * 4) mod 8)%nat with (length pad).
  2:{ rewrite Nat.mul_comm, Nat.mod_add by lia. symmetry. now apply Nat.mod_small. }
  destruct (get_bits_skip (length pad) (pad ++ bits_of (big_endian (adler d)))) as [v ->]; [rewrite app_length; lia|].
  rewrite skipn_app, skipn_all, Nat.sub_diag. cbn [skipn app].
  pose proof (get_many_bytes (big_endian (adler d)) [] (big_endian_byte _)) as G. rewrite app_nil_r in G.
  change (length (big_endian (adler d))) with 4%nat in G. rewrite G.
  rewrite rev_involutive, adler_is, put_be32_is by apply adler_bound. rewrite (proj2 (text_eqb_eq _ _)) by reflexivity. reflexivity.
Qed.
