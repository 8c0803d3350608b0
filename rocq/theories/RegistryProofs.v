From Verif Require Import GoBase GoBaseFacts CommandsModel CommandsSpec CommandsProps RegistryModel RegistrySpec.
From Coq Require Import Sorting.Sorted Sorting.Permutation Lia.
Local Open Scope nat_scope.

(* ------------------------------------------------------------------ *)
(** ** Names *)

Lemma ltb_dict a b : text_ltb a b = true <-> dict_before a b.
Proof.
  split.
  - revert b; induction a as [|x a IH]; intros [|y b] H; cbn in H; try discriminate.
    + exact (DB_shorter [] y b).
    + destruct (N.ltb_spec x y) as [L|L]; [exact (DB_letter [] x y a b L)|].
      destruct (N.eqb_spec x y) as [->|]; [|discriminate].
      destruct (IH b H) as [p c r|p c d r r' Hcd]; [exact (DB_shorter (y :: p) c r)|exact (DB_letter (y :: p) c d r r' Hcd)].
  - intros [p c r|p c d r r' H]; induction p as [|z p IH]; cbn; rewrite ?N.ltb_irrefl, ?N.eqb_refl; auto.
    apply N.ltb_lt in H. now rewrite H.
Qed.
Lemma ltb_irrefl a : text_ltb a a = false.
Proof. induction a as [|x a IH]; cbn; auto. now rewrite N.ltb_irrefl, N.eqb_refl. Qed.
Lemma ltb_trans a b c : text_ltb a b = true -> text_ltb b c = true -> text_ltb a c = true.
Proof.
  revert b c; induction a as [|x a IH]; intros [|y b] [|z c]; cbn; try discriminate; auto.
  destruct (N.ltb_spec x y), (N.ltb_spec y z), (N.eqb_spec x y), (N.eqb_spec y z), (N.ltb_spec x z), (N.eqb_spec x z); subst; try discriminate; auto; try lia.
  apply IH.
Qed.
Lemma ltb_total a b : text_ltb a b = false -> text_ltb b a = false -> a = b.
Proof.
  revert b; induction a as [|x a IH]; intros [|y b]; cbn; try discriminate; auto.
  destruct (N.ltb_spec x y), (N.ltb_spec y x), (N.eqb_spec x y), (N.eqb_spec y x); subst; try discriminate; try lia.
  intros H1 H2. f_equal. auto.
Qed.
Lemma ltb_le_trans a b c : text_ltb b a = false -> text_ltb c b = false -> text_ltb c a = false.
Proof.
  intros H1 H2. destruct (text_ltb c a) eqn:E; auto.
  destruct (text_ltb a b) eqn:F; [rewrite (ltb_trans _ _ _ E F) in H2; discriminate|].
  rewrite (ltb_total _ _ F H1) in *. congruence.
Qed.
Lemma in_order_ltb a b : in_order a b <-> text_ltb b a = false.
Proof.
  unfold in_order. rewrite <- ltb_dict. destruct (text_ltb b a); split; intros; congruence.
Qed.

(* ------------------------------------------------------------------ *)
(** ** Lists *)

Lemma put_length {A} (l : list A) i x : length (put l i x) = length l.
Proof.
  unfold put. destruct (Nat.ltb_spec i (length l)) as [H|H]; [|reflexivity].
  rewrite app_length, firstn_length. cbn [length]. rewrite skipn_length. lia.
Qed.
Lemma put_app {A} (p : list A) y r x : put (p ++ y :: r) (length p) x = p ++ x :: r.
Proof.
  unfold put. rewrite app_length. cbn [length]. destruct (Nat.ltb_spec (length p) (length p + S (length r))); [|lia].
  rewrite firstn_app, Nat.sub_diag, firstn_all. cbn [firstn]. rewrite app_nil_r. f_equal. f_equal.
  rewrite skipn_app. rewrite skipn_all2 by lia. replace (S (length p) - length p) with 1 by lia. reflexivity.
Qed.
Lemma put_nth {A} (l : list A) i j x d : nth j (put l i x) d = if (i =? j) && (i <? length l) then x else nth j l d.
Proof.
  unfold put. destruct (Nat.ltb_spec i (length l)) as [H|H]; [|now rewrite andb_false_r].
  rewrite andb_true_r. destruct (Nat.eqb_spec i j) as [->|N].
  - rewrite app_nth2; rewrite firstn_length; [|lia]. replace (j - Nat.min j (length l)) with 0 by lia. reflexivity.
  - destruct (Nat.lt_ge_cases j i).
    + rewrite app_nth1 by (rewrite firstn_length; lia). rewrite <- (firstn_skipn i l) at 2. rewrite app_nth1 by (rewrite firstn_length; lia). reflexivity.
    + rewrite app_nth2 by (rewrite firstn_length; lia). rewrite firstn_length.
      replace (j - Nat.min i (length l)) with (S (j - S i)) by lia. cbn [nth].
      rewrite <- (firstn_skipn (S i) l) at 2. rewrite app_nth2 by (rewrite firstn_length; lia). rewrite firstn_length.
      f_equal. lia.
Qed.
Lemma put_map {A C} (f : A -> C) l i x : map f (put l i x) = put (map f l) i (f x).
Proof.
  unfold put. rewrite map_length. destruct (i <? length l); [|reflexivity].
  rewrite map_app, firstn_map, skipn_map. reflexivity.
Qed.
Lemma put_firstn {A} (l : list A) n i x : n <= length l -> i < n -> firstn n (put l i x) = put (firstn n l) i x.
Proof.
  intros Hn Hi. unfold put. rewrite firstn_length, Nat.min_l by lia.
  destruct (Nat.ltb_spec i (length l)); [|lia]. destruct (Nat.ltb_spec i n); [|lia].
  rewrite firstn_app, firstn_firstn, firstn_length. rewrite !Nat.min_r, Nat.min_l by lia.
  f_equal; [rewrite firstn_firstn; f_equal; lia|]. destruct (n - i) as [|k] eqn:E; [lia|].
  change (x :: firstn k (skipn (S i) l) = x :: skipn (S i) (firstn n l)). f_equal.
  rewrite skipn_firstn_comm. f_equal. lia.
Qed.
Lemma put_beyond {A} (l : list A) n i x : n <= i -> firstn n (put l i x) = firstn n l.
Proof.
  intros Hn. unfold put. destruct (Nat.ltb_spec i (length l)); [|reflexivity].
  rewrite firstn_app, firstn_firstn, firstn_length. rewrite Nat.min_l by lia.
  replace (n - Nat.min i (length l)) with 0 by lia. cbn [firstn]. now rewrite app_nil_r.
Qed.
Lemma put_end {A} (l : list A) n x : n < length l -> firstn (S n) (put l n x) = firstn n l ++ [x].
Proof.
  intros H. unfold put. destruct (Nat.ltb_spec n (length l)); [|lia].
  rewrite firstn_app, firstn_firstn, firstn_length. rewrite Nat.min_r by lia.
  replace (S n - Nat.min n (length l)) with 1 by lia. cbn [firstn]. now rewrite ?firstn_O.
Qed.
Lemma put_put {A} (l : list A) i x y : put (put l i x) i y = put l i y.
Proof.
  destruct (Nat.lt_ge_cases i (length l)) as [H|H].
  - destruct (nth_error l i) as [z|] eqn:E; [|apply nth_error_None in E; lia].
    apply nth_error_split in E as (p & r & -> & <-). now rewrite !put_app.
  - unfold put at 2 3. destruct (Nat.ltb_spec i (length l)); [lia|]. unfold put. destruct (Nat.ltb_spec i (length l)); [lia|reflexivity].
Qed.
Lemma nth_firstn' {A} (l : list A) n i d : i < n -> nth i (firstn n l) d = nth i l d.
Proof.
  revert l i; induction n as [|n IH]; intros [|x l] [|i] H; cbn; auto; try lia. apply IH. lia.
Qed.

Lemma exchange_length {A} (l : list A) i j : length (exchange l i j) = length l.
Proof. unfold exchange. destruct (nth_error l i), (nth_error l j); rewrite ?put_length; reflexivity. Qed.
Lemma exchange_map {A C} (f : A -> C) l i j : map f (exchange l i j) = exchange (map f l) i j.
Proof.
  unfold exchange. rewrite !nth_error_map. destruct (nth_error l i), (nth_error l j); cbn; rewrite ?put_map; reflexivity.
Qed.
Lemma exchanges_map {A C} (f : A -> C) ops l : map f (exchanges ops l) = exchanges ops (map f l).
Proof.
  unfold exchanges. revert l; induction ops as [|p ops IH]; intros l; [reflexivity|]. cbn [fold_left]. now rewrite IH, exchange_map.
Qed.
Lemma split_at {A} (l : list A) i x : nth_error l i = Some x -> exists p r, l = p ++ x :: r /\ length p = i.
Proof. intros H. apply nth_error_split in H as (p & r & -> & L). eauto. Qed.
Lemma exchange_perm {A} (l : list A) i j : Permutation l (exchange l i j).
Proof.
  unfold exchange. destruct (nth_error l i) as [x|] eqn:Ei; [|reflexivity]. destruct (nth_error l j) as [y|] eqn:Ej; [|reflexivity].
  destruct (split_at _ _ _ Ei) as (p & r & -> & <-). rewrite put_app.
  destruct (Nat.lt_trichotomy j (length p)) as [H|[H|H]].
  - rewrite nth_error_app1 in Ej by lia. destruct (split_at _ _ _ Ej) as (p1 & p2 & -> & <-).
    rewrite <- !app_assoc. cbn [app]. rewrite put_app. 
    apply Permutation_app_head. rewrite <- (Permutation_middle p2 r x), <- (Permutation_middle p2 r y). apply perm_swap.
  - subst j. rewrite nth_error_app2, Nat.sub_diag in Ej by lia. cbn in Ej. injection Ej as <-. now rewrite put_app.
  - rewrite nth_error_app2 in Ej by lia. destruct (j - length p) as [|m] eqn:E; [lia|]. cbn in Ej.
    destruct (split_at _ _ _ Ej) as (p1 & p2 & -> & <-).
    assert (J : j = length (p ++ y :: p1)) by (rewrite app_length; cbn; lia).
    rewrite J. replace (p ++ y :: p1 ++ y :: p2) with ((p ++ y :: p1) ++ y :: p2) by (now rewrite <- app_assoc).
    rewrite put_app, <- app_assoc. cbn [app]. apply Permutation_app_head.
    rewrite <- (Permutation_middle p1 p2 y). rewrite <- (Permutation_middle p1 p2 x). apply perm_swap.
Qed.
Lemma exchanges_perm {A} ops (l : list A) : Permutation l (exchanges ops l).
Proof.
  unfold exchanges. revert l; induction ops as [|p ops IH]; intros l; [reflexivity|]. cbn [fold_left].
  etransitivity; [apply exchange_perm|apply IH].
Qed.

(* ------------------------------------------------------------------ *)
(** ** Insertion sort *)

Lemma exchange_down {A} (p : list A) y x r : exchange (p ++ y :: x :: r) (S (length p)) (length p) = p ++ x :: y :: r.
Proof.
  unfold exchange.
  assert (E1 : nth_error (p ++ y :: x :: r) (S (length p)) = Some x) by (rewrite nth_error_app2 by lia; replace (S (length p) - length p) with 1 by lia; reflexivity).
  assert (E2 : nth_error (p ++ y :: x :: r) (length p) = Some y) by (rewrite nth_error_app2 by lia; now rewrite Nat.sub_diag).
  rewrite E1, E2. replace (p ++ y :: x :: r) with ((p ++ [y]) ++ x :: r) by (now rewrite <- app_assoc).
  replace (S (length p)) with (length (p ++ [y])) by (rewrite app_length; cbn; lia).
  rewrite put_app, <- app_assoc. cbn [app]. apply put_app.
Qed.
Lemma down_S i k : down (S i) (S k) = (S i, i) :: down i k.
Proof.
  unfold down. cbn [seq map]. rewrite Nat.sub_0_r. replace (S i - 1) with i by lia. f_equal.
  rewrite <- seq_shift, map_map. apply map_ext. intros t. f_equal.
Qed.
Lemma exchanges_down {A} (b : list A) : forall a x r,
  exchanges (down (length (a ++ b)) (length b)) (a ++ b ++ x :: r) = a ++ x :: b ++ r.
Proof.
  induction b as [|y b IH] using rev_ind; intros a x r; [reflexivity|].
  rewrite app_assoc, !app_length. cbn [length]. rewrite !Nat.add_1_r, down_S.
  unfold exchanges. cbn [fold_left fst snd]. rewrite <- !app_assoc. cbn [app].
  replace (a ++ b ++ y :: x :: r) with ((a ++ b) ++ y :: x :: r) by (now rewrite <- app_assoc).
  rewrite <- app_length, exchange_down, <- app_assoc. fold (exchanges (A := A)).
  change (exchanges (down (length (a ++ b)) (length b)) (a ++ b ++ x :: y :: r) = a ++ x :: b ++ y :: r). apply IH.
Qed.
Lemma exchanges_app {A} o1 o2 (l : list A) : exchanges (o1 ++ o2) l = exchanges o2 (exchanges o1 l).
Proof. apply fold_left_app. Qed.
Lemma larger_le rp x : larger rp x <= length rp.
Proof. induction rp as [|y rp IH]; cbn; [lia|]. destruct (text_ltb x y); lia. Qed.
Lemma larger_spec rp x : StronglySorted (fun a b => text_ltb a b = false) rp ->
  StronglySorted (fun a b => text_ltb a b = false) (firstn (larger rp x) rp ++ x :: skipn (larger rp x) rp).
Proof.
  induction rp as [|y rp IH]; intros H; cbn [larger].
  - cbn. repeat constructor.
  - inversion H as [|? ? Hs Hf]; subst. destruct (text_ltb x y) eqn:E; cbn [firstn skipn app].
    + constructor; [now apply IH|]. apply Forall_app. split.
      * rewrite Forall_forall in Hf |- *. intros z Hz. apply Hf. rewrite <- (firstn_skipn (larger rp x) rp). apply in_or_app; auto.
      * constructor. { destruct (text_ltb y x) eqn:F; [|reflexivity]. pose proof (ltb_trans _ _ _ E F) as G. rewrite ltb_irrefl in G. discriminate. }
        rewrite Forall_forall in Hf |- *. intros z Hz. apply Hf. rewrite <- (firstn_skipn (larger rp x) rp). apply in_or_app; auto.
    + constructor; [assumption|]. constructor; [assumption|].
      rewrite Forall_forall in Hf |- *. intros z Hz. eapply ltb_le_trans; [|exact E]. now apply Hf.
Qed.
Lemma rounds_sort l : forall rp, StronglySorted (fun a b => text_ltb a b = false) rp ->
  Forall (fun p => fst p < length rp + length l /\ snd p < length rp + length l) (rounds rp l) /\
  exists rp', exchanges (rounds rp l) (rev rp ++ l) = rev rp' /\ StronglySorted (fun a b => text_ltb a b = false) rp'.
Proof.
  induction l as [|x l IH]; intros rp H.
  - split; [constructor|]. exists rp. cbn [rounds]. rewrite app_nil_r. now split.
  - cbn [rounds]. set (k := larger rp x). assert (K : k <= length rp) by apply larger_le.
    destruct (IH (firstn k rp ++ x :: skipn k rp)) as (F & rp' & E & S'); [now apply larger_spec|].
    assert (L : length (firstn k rp ++ x :: skipn k rp) = S (length rp)).
    { rewrite app_length, firstn_length. cbn [length]. rewrite skipn_length. lia. }
    split.
    + apply Forall_app. split.
      * unfold down. rewrite Forall_map. apply Forall_forall. intros t Ht. apply in_seq in Ht. cbn [fst snd length]. lia.
      * rewrite L in F. cbn [length]. eapply Forall_impl; [|exact F]. cbn. lia.
    + exists rp'. split; [|assumption]. rewrite exchanges_app. rewrite <- E. f_equal.
      rewrite <- (firstn_skipn k rp) at 2. rewrite rev_app_distr, <- app_assoc.
      pose proof (exchanges_down (rev (firstn k rp)) (rev (skipn k rp)) x l) as D.
      rewrite app_length, !rev_length, firstn_length, skipn_length in D.
      replace (length rp - k + Nat.min k (length rp)) with (length rp) in D by lia.
      replace (Nat.min k (length rp)) with k in D by lia. rewrite D.
      rewrite rev_app_distr. cbn [rev]. rewrite <- !app_assoc. reflexivity.
Qed.
Lemma sorted_rev l : StronglySorted (fun a b => text_ltb a b = false) l -> StronglySorted in_order (rev l).
Proof.
  induction 1 as [|a l H IH F]; cbn [rev]; [constructor|].
  assert (G : forall m, StronglySorted in_order m -> Forall (fun z => in_order z a) m -> StronglySorted in_order (m ++ [a])).
  { induction m as [|z m IHm]; intros Hm Hf; cbn; [repeat constructor|]. inversion Hm; inversion Hf; subst.
    constructor; [now apply IHm|]. apply Forall_app. split; [assumption|]. now constructor. }
  apply G; [assumption|]. apply Forall_rev. eapply Forall_impl; [|exact F]. intros z Hz. now apply in_order_ltb.
Qed.
Lemma insertion_sorts : sorts insertion_swaps.
Proof.
  intros l. unfold insertion_swaps. destruct (rounds_sort l [] (SSorted_nil _)) as (F & rp & E & S'). cbn [length rev app] in *.
  split; [exact F|]. rewrite E. now apply sorted_rev.
Qed.

(* ------------------------------------------------------------------ *)
(** ** The table *)

Section Registry.
Variable B : Type.
Variable zero : B.
Variable swaps : list text -> list (nat * nat).
Variable grow : nat -> nat.
Hypothesis swaps_sort : sorts swaps.
Notation entry := (text * B)%type.
Notation rstate := (rstate B).
Notation rstep := (rstep B zero swaps grow).
Notation rrun := (rrun B zero swaps grow).
Notation reg := (reg B zero swaps grow).
Notation append_cmd := (append_cmd B zero swaps grow).
Notation store := (store B zero).
Notation look := (look B zero).
Notation d0 := (([], zero) : text * B).

Definition good (k : list entry) (e : entry) : Prop := In (fst e) (map fst k) /\ In (snd e) (map snd k).
Definition stage (k : nat) (v : list entry) (i j : nat) (x y : entry) : list entry :=
  match k with
  | 0 => v
  | 1 => put v i (fst x, snd y)
  | 2 => put v i x
  | _ => put (put v i x) j (fst y, snd x)
  end.
Definition in_range (n : nat) (ops : list (nat * nat)) : Prop := Forall (fun p => fst p < n /\ snd p < n) ops.
Definition wr_ok (s : rstate) : Prop :=
  match wr s with
  | WNext => Permutation (known s) (view s) /\ ordered (view s)
  | WSort ops => Permutation (known s) (view s) /\ in_range (len s) ops /\ ordered (exchanges ops (view s))
  | WSwap i j x y k ops =>
      k <= 3 /\ i < len s /\ j < len s /\ in_range (len s) ops /\
      exists v, length v = len s /\ Permutation (known s) v /\ nth_error v i = Some y /\ nth_error v j = Some x /\
                view s = stage k v i j x y /\ ordered (exchanges ops (exchange v i j))
  end.
Definition reads_good (s : rstate) (a n : nat) : Prop :=
  a < length (arrays s) /\ forall t, t < n -> good (known s) (nth t (array s a) d0).
Definition ls_ok (s : rstate) (p : lpc B) : Prop :=
  match p with
  | LIdle | LAsked _ => True
  | LScan w a n i seen => reads_good s a n
  | LHalf w a n i seen nm => reads_good s a n /\ i < n /\ In nm (map fst (known s))
  end.
Definition rinv (cs : list entry) (s : rstate) : Prop :=
  cur s < length (arrays s) /\ len s <= length (array s (cur s)) /\ known s ++ todo s = cs /\
  wr_ok s /\ reads_good s (cur s) (len s) /\ forall g, ls_ok s (ls s g).

Lemma view_len (s : rstate) : len s <= length (array s (cur s)) -> length (view s) = len s.
Proof. intros H. unfold view. rewrite firstn_length. lia. Qed.
Lemma array_put (s : rstate) a b l : nth b (put (arrays s) a l) [] = if (a =? b) && (a <? length (arrays s)) then l else array s b.
Proof. apply put_nth. Qed.
Lemma view_store (s : rstate) i f p : cur s < length (arrays s) -> len s <= length (array s (cur s)) -> i < len s ->
  view (store s i f p) = put (view s) i (f (nth i (view s) d0)).
Proof.
  intros H1 H2 H3. unfold view, RegistryModel.store, array in *; cbn [arrays cur len]. rewrite put_nth, Nat.eqb_refl.
  destruct (Nat.ltb_spec (cur s) (length (arrays s))); [|lia]. cbn [andb].
  rewrite put_firstn by lia. now rewrite nth_firstn' by lia.
Qed.
Lemma good_perm k v e : Permutation k v -> In e v -> good k e.
Proof.
  intros P H. apply (Permutation_in _ (Permutation_sym P)) in H. split; now apply in_map.
Qed.
Lemma good_more k c e : good k e -> good (k ++ [c]) e.
Proof. intros [H1 H2]. unfold good. rewrite !map_app. split; apply in_or_app; auto. Qed.

Lemma store_reads (s : rstate) i f p a n : cur s < length (arrays s) -> i < len s ->
  (forall e, good (known s) e -> good (known s) (f e)) ->
  reads_good s a n -> reads_good (store s i f p) a n.
Proof.
  intros H1 H2 F [Ha Hn]. unfold reads_good, array, RegistryModel.store; cbn [arrays known]. rewrite put_length. split; [exact Ha|].
  intros t Ht. rewrite put_nth. destruct ((cur s =? a) && (cur s <? length (arrays s))) eqn:E; [|now apply Hn].
  apply andb_prop in E as [E _]. apply Nat.eqb_eq in E. subst a. rewrite put_nth.
  destruct ((i =? t) && (i <? length (array s (cur s)))) eqn:E2; [|now apply Hn].
  apply andb_prop in E2 as [E2 _]. apply Nat.eqb_eq in E2. subst t. apply F. now apply Hn.
Qed.
Lemma store_inv cs s i f p : rinv cs s -> i < len s ->
  (forall e, good (known s) e -> good (known s) (f e)) ->
  wr_ok (store s i f p) -> rinv cs (store s i f p).
Proof.
  intros (H1 & H2 & H3 & H4 & H5 & H6) Hi F W.
  split; [cbn [RegistryModel.store arrays cur]; now rewrite put_length|].
  split. { unfold array, RegistryModel.store; cbn [arrays cur len]. rewrite put_nth, Nat.eqb_refl. destruct (Nat.ltb_spec (cur s) (length (arrays s))); [|lia]. cbn [andb]. now rewrite put_length. }
  split; [exact H3|]. split; [exact W|]. split; [now apply store_reads|].
  intros g. specialize (H6 g). unfold RegistryModel.store; cbn [ls]. fold (store s i f p).
  destruct (ls s g) as [|w|w a n t seen|w a n t seen nm]; cbn [ls_ok] in *; auto.
  - now apply store_reads.
  - destruct H6 as (H6 & ? & ?). split; [now apply store_reads|]. now split.
Qed.

Lemma set_ls_inv cs s g p : rinv cs s -> ls_ok s p -> rinv cs (set_ls s g p).
Proof.
  intros (H1 & H2 & H3 & H4 & H5 & H6) Hp. repeat (split; [assumption|]).
  intros g'. cbn [set_ls ls]. destruct (Nat.eqb g' g); [exact Hp|apply H6].
Qed.
Lemma set_wr_inv cs s p : rinv cs s -> wr_ok (set_wr s p) -> rinv cs (set_wr s p).
Proof. intros (H1 & H2 & H3 & H4 & H5 & H6) Hp. repeat (split; [assumption|]). assumption. Qed.

Lemma append_view (s : rstate) c rest : cur s < length (arrays s) -> len s <= length (array s (cur s)) ->
  view (append_cmd s c rest) = view s ++ [c] /\
  let s' := append_cmd s c rest in
  cur s' < length (arrays s') /\ len s' <= length (array s' (cur s')) /\ length (arrays s) <= length (arrays s') /\
  (forall a t, a < length (arrays s) -> nth t (array s' a) d0 = nth t (array s a) d0 \/ nth t (array s' a) d0 = c).
Proof.
  intros H1 H2. cbv zeta. unfold RegistryModel.append_cmd, view, array. set (a := nth (cur s) (arrays s) []) in *. unfold array in H2. fold a in H2.
  destruct (Nat.ltb_spec (len s) (length a)) as [L|L]; cbn [arrays cur len]; fold a.
  - rewrite put_nth, Nat.eqb_refl. destruct (Nat.ltb_spec (cur s) (length (arrays s))); [|lia]. cbn [andb].
    split; [now apply put_end|]. rewrite !put_length. repeat split; try lia.
    intros b t Hb. rewrite put_nth. destruct ((cur s =? b) && (cur s <? length (arrays s))) eqn:E; [|now left].
    apply andb_prop in E as [E _]. apply Nat.eqb_eq in E. subst b. rewrite put_nth. destruct ((len s =? t) && _); [now right|now left].
  - assert (E : len s = length a) by lia.
    rewrite app_nth2, Nat.sub_diag by lia. cbn [nth]. rewrite E, firstn_all.
    split. { rewrite firstn_app. replace (S (length a) - length a) with 1 by lia. rewrite firstn_all2 by lia. reflexivity. }
    rewrite !app_length. cbn [length]. repeat split; try lia.
    intros b t Hb. left. now rewrite app_nth1 by lia.
Qed.

Lemma ordered_map (l : list entry) : StronglySorted in_order (map fst l) -> ordered l.
Proof.
  induction l as [|e l IH]; cbn; intros H; [constructor|]. inversion H as [|? ? Hs Hf]; subst. constructor; [now apply IH|].
  now rewrite Forall_map in Hf.
Qed.
Lemma append_inv cs s c rest : rinv cs s -> wr s = WNext -> todo s = c :: rest -> rinv cs (append_cmd s c rest).
Proof.
  intros (H1 & H2 & H3 & H4 & H5 & H6) HW HT. unfold wr_ok in H4. rewrite HW in H4. destruct H4 as [P O].
  destruct (append_view s c rest H1 H2) as (V & A1 & A2 & A3 & A4).
  set (s' := append_cmd s c rest) in *.
  assert (K : known s' = known s ++ [c]). { unfold s', RegistryModel.append_cmd. destruct (len s <? _); reflexivity. }
  assert (T : todo s' = rest). { unfold s', RegistryModel.append_cmd. destruct (len s <? _); reflexivity. }
  assert (W : wr s' = WSort (swaps (map fst (view s ++ [c])))). { unfold s', RegistryModel.append_cmd, view. destruct (len s <? _); reflexivity. }
  assert (Ls : ls s' = ls s). { unfold s', RegistryModel.append_cmd. destruct (len s <? _); reflexivity. }
  assert (Le : len s' = S (len s)). { unfold s', RegistryModel.append_cmd. destruct (len s <? _); reflexivity. }
  clearbody s'.
  assert (R : forall a n, reads_good s a n -> reads_good s' a n).
  { intros a n [Ha Hn]. split; [lia|]. intros t Ht. rewrite K. destruct (A4 a t Ha) as [-> | ->].
    - apply good_more. now apply Hn.
    - split; rewrite map_app; apply in_or_app; right; left; reflexivity. }
  assert (PV : Permutation (known s') (view s')). { rewrite K, V. now apply Permutation_app_tail. }
  split; [exact A1|]. split; [exact A2|]. split; [rewrite K, T, <- app_assoc; cbn; now rewrite <- HT|].
  split.
  { unfold wr_ok. rewrite W. destruct (swaps_sort (map fst (view s ++ [c]))) as [F S'].
    split; [exact PV|]. split.
    - rewrite Le. unfold in_range. rewrite map_length, app_length, view_len in F by exact H2. cbn [length] in F.
      eapply Forall_impl; [|exact F]. cbn. lia.
    - apply ordered_map. rewrite exchanges_map, V. exact S'. }
  split.
  { split; [exact A1|]. intros t Ht. apply (good_perm _ (view s')); [exact PV|].
    rewrite <- (nth_firstn' _ (len s')) by exact Ht. apply nth_In. fold (view s'). now rewrite view_len. }
  intros g. rewrite Ls. specialize (H6 g). destruct (ls s g) as [|w|w a n t seen|w a n t seen nm]; cbn [ls_ok] in *; auto.
  destruct H6 as (H6 & ? & ?). split; [now apply R|]. split; [assumption|]. rewrite K, map_app. apply in_or_app; auto.
Qed.

Lemma reg_inv cs s s' : rinv cs s -> reg s = Some s' -> rinv cs s'.
Proof.
  intros I H. pose proof I as (H1 & H2 & H3 & H4 & H5 & H6). unfold RegistryModel.reg in H. unfold wr_ok in H4. destruct (wr s) as [|ops|i j x y k ops] eqn:HW.
  - destruct (todo s) as [|c rest] eqn:HT; [discriminate|]. injection H as <-. now apply append_inv.
  - destruct H4 as (P & F & O). destruct ops as [|[i j] ops].
    + injection H as <-. apply set_wr_inv; [exact I|]. now split.
    + injection H as <-. apply set_wr_inv; [exact I|]. unfold wr_ok; cbn [set_wr wr].
      inversion F as [|? ? [Hi Hj] F']; subst. cbn [fst snd] in Hi, Hj.
      split; [lia|]. split; [exact Hi|]. split; [exact Hj|]. split; [exact F'|]. exists (view s).
      pose proof (view_len s H2) as L. split; [exact L|]. split; [exact P|].
      split. { rewrite <- (nth_firstn' _ (len s)) by exact Hi. apply nth_error_nth'. now rewrite <- L in Hi. }
      split. { rewrite <- (nth_firstn' _ (len s)) by exact Hj. apply nth_error_nth'. now rewrite <- L in Hj. }
      split; [reflexivity|]. exact O.
  - destruct H4 as (K & Hi & Hj & F & v & L & P & Ey & Ex & V & O).
    assert (Gx : good (known s) x) by (eapply good_perm; [exact P|eapply nth_error_In; exact Ex]).
    assert (Gy : good (known s) y) by (eapply good_perm; [exact P|eapply nth_error_In; exact Ey]).
    assert (Nx : nth j v d0 = x) by (now apply nth_error_nth).
    assert (Ny : nth i v d0 = y) by (now apply nth_error_nth).
    assert (EX : exchange v i j = put (put v i x) j y) by (unfold exchange; now rewrite Ey, Ex).
    assert (Bi : (i <? length v) = true) by (apply Nat.ltb_lt; lia).
    assert (Bj : (j <? length v) = true) by (apply Nat.ltb_lt; lia).
    destruct k as [|[|[|k]]]; cbn [stage] in V; injection H as <-;
      (apply store_inv; [exact I|assumption|intros e [G1 G2]; split; cbn [fst snd]; [(apply Gx || apply Gy || exact G1)|(apply Gx || apply Gy || exact G2)]|]);
      unfold wr_ok; cbn [RegistryModel.store wr len known].
    + split; [lia|]. split; [exact Hi|]. split; [exact Hj|]. split; [exact F|]. exists v. repeat (split; [assumption|]).
      split; [|exact O]. change (view (store s i (fun e => (fst x, snd e)) (WSwap i j x y 1 ops)) = stage 1 v i j x y).
      rewrite view_store by assumption. rewrite V. cbn [stage]. now rewrite Ny.
    + split; [lia|]. split; [exact Hi|]. split; [exact Hj|]. split; [exact F|]. exists v. repeat (split; [assumption|]).
      split; [|exact O]. change (view (store s i (fun e => (fst e, snd x)) (WSwap i j x y 2 ops)) = stage 2 v i j x y).
      rewrite view_store by assumption. rewrite V. cbn [stage]. rewrite put_put, put_nth, Nat.eqb_refl, Bi. cbn [andb fst]. now destruct x.
    + split; [lia|]. split; [exact Hi|]. split; [exact Hj|]. split; [exact F|]. exists v. repeat (split; [assumption|]).
      split; [|exact O]. change (view (store s j (fun e => (fst y, snd e)) (WSwap i j x y 3 ops)) = stage 3 v i j x y).
      rewrite view_store by assumption. rewrite V. cbn [stage]. f_equal. f_equal. rewrite put_nth.
      destruct ((i =? j) && (i <? length v)); [reflexivity|]. now rewrite Nx.
    + assert (VV : view (store s j (fun e => (fst e, snd y)) (WSort ops)) = exchange v i j).
      { rewrite view_store by assumption. rewrite V, EX. cbn [stage]. rewrite put_put, put_nth, Nat.eqb_refl, put_length, Bj. cbn [andb fst]. now destruct y. }
      split; [etransitivity; [exact P|]|split; [exact F|]].
      * change (Permutation v (view (store s j (fun e => (fst e, snd y)) (WSort ops)))). rewrite VV. apply exchange_perm.
      * change (ordered (exchanges ops (view (store s j (fun e => (fst e, snd y)) (WSort ops))))). now rewrite VV.
Qed.

Definition ev_ok (k : list entry) (e : revent B) : Prop :=
  match e with Found _ name c => fst c = name /\ good k c | _ => True end.
Lemma look_inv cs s g s' es : rinv cs s -> look s g = Some (s', es) -> rinv cs s' /\ Forall (ev_ok (known s')) es.
Proof.
  intros I H. pose proof I as (H1 & H2 & H3 & H4 & H5 & H6). specialize (H6 g). unfold RegistryModel.look in H.
  destruct (ls s g) as [|w|w a n i seen|w a n i seen nm]; cbn [ls_ok] in H6; [discriminate| | |].
  - injection H as <- <-. split; [|constructor]. apply set_ls_inv; [exact I|exact H5].
  - destruct (Nat.ltb_spec i n) as [Hi|Hi].
    + injection H as <- <-. split; [|constructor]. apply set_ls_inv; [exact I|]. split; [exact H6|]. split; [exact Hi|]. apply H6. exact Hi.
    + injection H as <- <-. split; [apply set_ls_inv; [exact I|exact Logic.I]|]. destruct w; repeat constructor.
  - destruct H6 as (R & Hi & Hn).
    assert (G : good (known s) (nm, snd (nth i (array s a) d0))) by (split; [exact Hn|apply R; exact Hi]).
    destruct w as [name|].
    + destruct (text_eqb nm name) eqn:E.
      * injection H as <- <-. split; [apply set_ls_inv; [exact I|exact Logic.I]|]. constructor; [|constructor].
        split; [now apply text_eqb_eq|exact G].
      * injection H as <- <-. split; [|constructor]. apply set_ls_inv; [exact I|exact R].
    + injection H as <- <-. split; [|constructor]. apply set_ls_inv; [exact I|exact R].
Qed.
Lemma rstep_inv cs s a s' es : rinv cs s -> rstep s a = Some (s', es) -> rinv cs s' /\ Forall (ev_ok (known s')) es.
Proof.
  intros I H. destruct a as [g w|g|]; cbn [RegistryModel.rstep] in H.
  - destruct (ls s g); try discriminate. injection H as <- <-. split; [|constructor]. apply set_ls_inv; [exact I|exact Logic.I].
  - now apply (look_inv _ s g).
  - destruct (reg s) as [s1|] eqn:E; [|discriminate]. injection H as <- <-. split; [|constructor]. now apply (reg_inv _ s).
Qed.
Lemma rinit_inv cs : rinv cs (rinit cs).
Proof.
  split; [cbn; lia|]. split; [cbn; lia|]. split; [reflexivity|]. split; [split; [constructor|constructor]|].
  split; [split; [cbn; lia|cbn; intros t Ht; lia]|]. intros g. exact Logic.I.
Qed.
Lemma rrun_inv cs acts : forall s s' es, rinv cs s -> rrun s acts = Some (s', es) ->
  rinv cs s' /\ (exists k, known s' = known s ++ k) /\ Forall (ev_ok (known s')) es.
Proof.
  induction acts as [|a acts IH]; intros s s' es I H; cbn [RegistryModel.rrun] in H.
  - injection H as <- <-. split; [exact I|]. split; [exists []; now rewrite app_nil_r|constructor].
  - destruct (rstep s a) as [[s1 e1]|] eqn:E1; [|discriminate]. destruct (rrun s1 acts) as [[s2 e2]|] eqn:E2; [|discriminate].
    injection H as <- <-. destruct (rstep_inv _ _ _ _ _ I E1) as [I1 F1].
    destruct (IH _ _ _ I1 E2) as (I2 & (k & K) & F2).
    assert (K1 : exists k1, known s1 = known s ++ k1).
    { clear - E1. destruct a as [g w|g|]; cbn [RegistryModel.rstep] in E1.
      - destruct (ls s g); try discriminate. injection E1 as <- <-. exists []. now rewrite app_nil_r.
      - unfold RegistryModel.look in E1. exists []. rewrite app_nil_r. destruct (ls s g) as [|w|w a n i seen|w a n i seen nm]; [discriminate| | |].
        + now injection E1 as <- <-.
        + destruct (i <? n); now injection E1 as <- <-.
        + destruct w as [name|]; [destruct (text_eqb nm name)|]; now injection E1 as <- <-.
      - destruct (reg s) as [s0|] eqn:E; [|discriminate]. injection E1 as <- <-. unfold RegistryModel.reg in E.
        destruct (wr s) as [|ops|i j x y k ops].
        + destruct (todo s) as [|c rest]; [discriminate|]. injection E as <-. exists [c]. unfold RegistryModel.append_cmd. destruct (len s <? _); reflexivity.
        + exists []. rewrite app_nil_r. destruct ops as [|[i j] ops]; now injection E as <-.
        + exists []. rewrite app_nil_r. destruct k as [|[|[|k]]]; now injection E as <-. }
    destruct K1 as [k1 K1].
    split; [exact I2|]. split; [exists (k1 ++ k); now rewrite K, K1, app_assoc|].
    apply Forall_app. split; [|exact F2]. eapply Forall_impl; [|exact F1]. intros [g name c|g name|g l]; cbn; auto.
    intros (N1 & G1 & G2). split; [exact N1|]. rewrite K. split; rewrite map_app; apply in_or_app; auto.
Qed.

(* ------------------------------------------------------------------ *)
(** ** Lookups while nothing is registered *)

Definition quiet_ok (s : rstate) (p : lpc B) : Prop :=
  let at_ w i seen := i <= len s /\ seen = firstn i (view s) /\
    match w with Find name => forall c, In c (firstn i (view s)) -> fst c <> name | All => True end in
  match p with
  | LIdle | LAsked _ => True
  | LScan w a n i seen => a = cur s /\ n = len s /\ at_ w i seen
  | LHalf w a n i seen nm => a = cur s /\ n = len s /\ at_ w i seen /\ i < len s /\ nm = fst (nth i (view s) d0)
  end.
Definition same_table (s s' : rstate) : Prop :=
  arrays s' = arrays s /\ cur s' = cur s /\ len s' = len s /\ known s' = known s /\ wr s' = wr s.
Definition answer_of_view (s : rstate) (e : revent B) : Prop :=
  match e with
  | Found _ name c => In c (view s) /\ fst c = name
  | Unknown _ name => forall c, In c (view s) -> fst c <> name
  | Listed _ l => l = view s
  end.
Lemma same_view s s' : same_table s s' -> view s' = view s.
Proof. intros (A & C & L & _). unfold view, array. now rewrite A, C, L. Qed.
Lemma firstn_snoc (l : list entry) i : i < length l -> firstn (S i) l = firstn i l ++ [nth i l d0].
Proof.
  revert i; induction l as [|x l IH]; intros [|i] H; cbn in *; try lia; auto. f_equal. rewrite IH by lia. reflexivity.
Qed.
Lemma quiet_step s g a s' es : len s <= length (array s (cur s)) -> rstep s a = Some (s', es) -> registers a = false -> quiet_ok s (ls s g) ->
  same_table s s' /\ quiet_ok s' (ls s' g) /\ Forall (fun e => asker e = g -> answer_of_view s e) es.
Proof.
  intros HL H R Q. destruct a as [g' w|g'|]; [| |discriminate]; cbn [RegistryModel.rstep] in H.
  - destruct (ls s g') eqn:E; try discriminate. injection H as <- <-. split; [now repeat split|]. split; [|constructor].
    cbn [set_ls ls]. destruct (Nat.eqb_spec g g') as [->|]; [exact Logic.I|exact Q].
  - unfold RegistryModel.look in H. destruct (Nat.eqb_spec g g') as [->|N].
    + destruct (ls s g') as [|w|w a n i seen|w a n i seen nm]; [discriminate| | |].
      * injection H as <- <-. split; [now repeat split|]. split; [|constructor]. cbn [set_ls ls]. rewrite Nat.eqb_refl.
        split; [reflexivity|]. split; [reflexivity|]. split; [cbn; lia|]. split; [reflexivity|]. destruct w; [intros c []|exact Logic.I].
      * destruct Q as (-> & -> & Hi & -> & Hw). destruct (Nat.ltb_spec i (len s)) as [Li|Li].
        -- injection H as <- <-. split; [now repeat split|]. split; [|constructor]. cbn [set_ls ls]. rewrite Nat.eqb_refl.
           repeat split; auto. change (fst (nth i (array s (cur s)) d0) = fst (nth i (view s) d0)). unfold view. now rewrite nth_firstn' by exact Li.
        -- injection H as <- <-. split; [now repeat split|]. split; [cbn [set_ls ls]; rewrite Nat.eqb_refl; exact Logic.I|].
           assert (E : firstn i (view s) = view s) by (apply firstn_all2; rewrite view_len; [lia|exact HL]).
           rewrite E in *. destruct w as [name|]; (constructor; [|constructor]); cbn; auto.
      * destruct Q as (-> & -> & (Hi & -> & Hw) & Li & ->).
        assert (C : (fst (nth i (view s) d0), snd (nth i (array s (cur s)) d0)) = nth i (view s) d0).
        { unfold view at 2. rewrite nth_firstn' by exact Li. unfold view. rewrite nth_firstn' by exact Li. now destruct (nth i (array s (cur s)) d0). }
        assert (V : In (nth i (view s) d0) (view s)) by (apply nth_In; now rewrite view_len).
        assert (Sn : firstn (S i) (view s) = firstn i (view s) ++ [nth i (view s) d0]) by (apply firstn_snoc; now rewrite view_len).
        rewrite C in H. destruct w as [name|].
        -- destruct (text_eqb (fst (nth i (view s) d0)) name) eqn:E.
           ++ injection H as <- <-. split; [now repeat split|]. split; [cbn [set_ls ls]; rewrite Nat.eqb_refl; exact Logic.I|].
              constructor; [|constructor]. cbn. intros _. split; [exact V|now apply text_eqb_eq].
           ++ injection H as <- <-. split; [now repeat split|]. split; [|constructor]. cbn [set_ls ls]. rewrite Nat.eqb_refl.
              apply text_eqb_neq in E. split; [reflexivity|]. split; [reflexivity|]. split; [cbn; lia|].
              change (view (set_ls s g' _)) with (view s). rewrite Sn. split; [reflexivity|].
              intros c Hc. apply in_app_or in Hc as [Hc|[<-|[]]]; [now apply Hw|exact E].
        -- injection H as <- <-. split; [now repeat split|]. split; [|constructor]. cbn [set_ls ls]. rewrite Nat.eqb_refl.
           split; [reflexivity|]. split; [reflexivity|]. split; [cbn; lia|].
           change (view (set_ls s g' _)) with (view s). rewrite Sn. now split.
    + assert (K : forall p e, Some (set_ls s g' p, e) = Some (s', es) -> Forall (fun e => asker e = g') e ->
        same_table s s' /\ quiet_ok s' (ls s' g) /\ Forall (fun e => asker e = g -> answer_of_view s e) es).
      { intros p e E F. injection E as <- <-. split; [now repeat split|]. split.
        - cbn [set_ls ls]. destruct (Nat.eqb_spec g g'); [congruence|]. exact Q.
        - eapply Forall_impl; [|exact F]. cbn. congruence. }
      destruct (ls s g') as [|w|w a n i seen|w a n i seen nm]; [discriminate| | |].
      * eapply K; [exact H|constructor].
      * destruct (i <? n); eapply K; try exact H; [constructor|]. destruct w; repeat constructor.
      * destruct w as [name|]; [destruct (text_eqb nm name)|]; eapply K; try exact H; repeat constructor.
Qed.
Lemma quiet_run g acts : forall s s' es, len s <= length (array s (cur s)) -> rrun s acts = Some (s', es) -> forallb (fun a => negb (registers a)) acts = true ->
  quiet_ok s (ls s g) -> same_table s s' /\ Forall (fun e => asker e = g -> answer_of_view s e) es.
Proof.
  induction acts as [|a acts IH]; intros s s' es L H R Q; cbn [RegistryModel.rrun] in H.
  - injection H as <- <-. split; [now repeat split|constructor].
  - cbn [forallb] in R. apply andb_prop in R as [R1 R2]. apply negb_true_iff in R1.
    destruct (rstep s a) as [[s1 e1]|] eqn:E1; [|discriminate]. destruct (rrun s1 acts) as [[s2 e2]|] eqn:E2; [|discriminate].
    injection H as <- <-. destruct (quiet_step _ _ _ _ _ L E1 R1 Q) as (S1 & Q1 & F1).
    assert (L1 : len s1 <= length (array s1 (cur s1))). { destruct S1 as (A & C & Ln & _). unfold array. now rewrite A, C, Ln. }
    destruct (IH _ _ _ L1 E2 R2 Q1) as (S2 & F2). split.
    + destruct S1 as (a1 & b1 & c1 & d1 & f1), S2 as (a2 & b2 & c2 & d2 & f2). repeat split; congruence.
    + apply Forall_app. split; [exact F1|]. eapply Forall_impl; [|exact F2]. intros e He Ha. specialize (He Ha).
      destruct e; cbn in *; rewrite (same_view _ _ S1) in He; exact He.
Qed.

(* ------------------------------------------------------------------ *)
(** ** The registrations come to their end *)

Lemma rrun_app a1 : forall s s1 e1 a2 s2 e2, rrun s a1 = Some (s1, e1) -> rrun s1 a2 = Some (s2, e2) -> rrun s (a1 ++ a2) = Some (s2, e1 ++ e2).
Proof.
  induction a1 as [|a a1 IH]; intros s s1 e1 a2 s2 e2 H1 H2; cbn [RegistryModel.rrun app] in *.
  - injection H1 as <- <-. exact H2.
  - destruct (rstep s a) as [[t et]|]; [|discriminate]. destruct (rrun t a1) as [[u eu]|] eqn:E; [|discriminate].
    injection H1 as <- <-. rewrite (IH _ _ _ _ _ _ E H2). now rewrite app_assoc.
Qed.
Lemma reg_run1 s s' : reg s = Some s' -> rrun s [AReg] = Some (s', []).
Proof. intros H. cbn [RegistryModel.rrun RegistryModel.rstep]. now rewrite H. Qed.
Lemma store_meta s i f p : todo (store s i f p) = todo s /\ ls (store s i f p) = ls s /\ wr (store s i f p) = p.
Proof. now repeat split. Qed.
Lemma swap_run s i j x y ops : wr s = WSwap i j x y 0 ops ->
  exists s', rrun s (repeat AReg 4) = Some (s', []) /\ wr s' = WSort ops /\ todo s' = todo s.
Proof.
  intros H. eexists. split; [|split].
  - cbn [repeat RegistryModel.rrun RegistryModel.rstep]. unfold RegistryModel.reg at 1. rewrite H. cbn. reflexivity.
  - reflexivity.
  - reflexivity.
Qed.
Lemma sort_run ops : forall s, wr s = WSort ops ->
  exists k s', rrun s (repeat AReg k) = Some (s', []) /\ wr s' = WNext /\ todo s' = todo s.
Proof.
  induction ops as [|[i j] ops IH]; intros s H.
  - exists 1, (set_wr s WNext). split; [|now split]. apply reg_run1. unfold RegistryModel.reg. now rewrite H.
  - set (s1 := set_wr s (WSwap i j (nth j (array s (cur s)) d0) (nth i (array s (cur s)) d0) 0 ops)).
    destruct (swap_run s1 i j _ _ ops eq_refl) as (s2 & R2 & W2 & T2). destruct (IH s2 W2) as (k & s3 & R3 & W3 & T3).
    exists (1 + (4 + k)), s3. split; [|split; [exact W3|now rewrite T3, T2]].
    rewrite !repeat_app. change (@nil (revent B)) with (@nil (revent B) ++ ([] ++ [])).
    eapply rrun_app; [apply reg_run1; unfold RegistryModel.reg; rewrite H; reflexivity|]. eapply rrun_app; [exact R2|exact R3].
Qed.
Lemma all_run : forall l s, todo s = l ->
  exists k s', rrun s (repeat AReg k) = Some (s', []) /\ wr s' = WNext /\ todo s' = [].
Proof.
  assert (N : forall l s, wr s = WNext -> todo s = l -> exists k s', rrun s (repeat AReg k) = Some (s', []) /\ wr s' = WNext /\ todo s' = []).
  { induction l as [|c l IH]; intros s W T.
    - exists 0, s. now repeat split.
    - assert (R : reg s = Some (append_cmd s c l)) by (unfold RegistryModel.reg; now rewrite W, T).
      assert (W1 : exists o, wr (append_cmd s c l) = WSort o) by (unfold RegistryModel.append_cmd; destruct (len s <? _); eexists; reflexivity).
      assert (T1 : todo (append_cmd s c l) = l) by (unfold RegistryModel.append_cmd; destruct (len s <? _); reflexivity).
      destruct W1 as [o W1]. destruct (sort_run o _ W1) as (k & s2 & R2 & W2 & T2). rewrite T1 in T2.
      destruct (IH s2 W2 T2) as (k' & s3 & R3 & W3 & T3). exists (1 + (k + k')), s3. split; [|now split].
      rewrite !repeat_app. change (@nil (revent B)) with (@nil (revent B) ++ ([] ++ [])).
      eapply rrun_app; [apply reg_run1; exact R|]. eapply rrun_app; [exact R2|exact R3]. }
  intros l s T. destruct (wr s) as [|ops|i j x y k ops] eqn:W; [now apply (N l)| |].
  - destruct (sort_run ops s W) as (k & s2 & R2 & W2 & T2). destruct (N l s2 W2) as (k' & s3 & R3 & W3 & T3); [congruence|].
    exists (k + k'), s3. split; [|now split]. rewrite repeat_app. change (@nil (revent B)) with (@nil (revent B) ++ []). now eapply rrun_app; [exact R2|].
  - assert (Q : exists m s1, rrun s (repeat AReg m) = Some (s1, []) /\ wr s1 = WSort ops /\ todo s1 = todo s).
    { destruct k as [|[|[|k]]]; [exists 4|exists 3|exists 2|exists 1]; eexists; (split; [cbn [repeat RegistryModel.rrun RegistryModel.rstep]; unfold RegistryModel.reg at 1; rewrite W; cbn; reflexivity|now split]). }
    destruct Q as (m & s1 & R1 & W1 & T1). destruct (sort_run ops s1 W1) as (k1 & s2 & R2 & W2 & T2).
    destruct (N l s2 W2) as (k' & s3 & R3 & W3 & T3); [congruence|]. exists (m + (k1 + k')), s3. split; [|now split].
    rewrite !repeat_app. change (@nil (revent B)) with (@nil (revent B) ++ ([] ++ [])).
    eapply rrun_app; [exact R1|]. eapply rrun_app; [exact R2|exact R3].
Qed.

(* ------------------------------------------------------------------ *)
(** ** One lookup up to a given place *)

Lemma scan_run g name a n k : forall m i s seen, ls s g = LScan (Find name) a n i seen -> m - i = k -> i <= m -> m <= n ->
  (forall t, i <= t -> t < m -> fst (nth t (array s a) d0) <> name) ->
  exists seen' s', rrun s (repeat (ALook g) (2 * k)) = Some (s', []) /\ ls s' g = LScan (Find name) a n m seen' /\
                   same_table s s' /\ todo s' = todo s.
Proof.
  induction k as [|k IH]; intros m i s seen H K Him Hmn Hno.
  - assert (m = i) by lia. subst m. exists seen, s. now repeat split.
  - set (c := nth i (array s a) d0).
    set (s1 := set_ls s g (LHalf (Find name) a n i seen (fst c))).
    set (s2 := set_ls s1 g (LScan (Find name) a n (S i) (seen ++ [(fst c, snd c)]))).
    assert (R1 : rstep s (ALook g) = Some (s1, [])).
    { cbn [RegistryModel.rstep]. unfold RegistryModel.look. rewrite H. destruct (Nat.ltb_spec i n); [reflexivity|lia]. }
    assert (R2 : rstep s1 (ALook g) = Some (s2, [])).
    { cbn [RegistryModel.rstep]. unfold RegistryModel.look, s1 at 1. cbn [set_ls ls]. rewrite Nat.eqb_refl.
      destruct (text_eqb (fst c) name) eqn:E; [|reflexivity]. apply text_eqb_eq in E. exfalso. apply (Hno i); [lia|lia|exact E]. }
    destruct (IH m (S i) s2 (seen ++ [(fst c, snd c)])) as (seen' & s' & R & L & T & D); [unfold s2; cbn [set_ls ls]; now rewrite Nat.eqb_refl|lia|lia|lia| |].
    { intros t Ht1 Ht2. apply Hno; lia. }
    exists seen', s'. split.
    + replace (2 * S k) with (S (S (2 * k))) by lia. cbn [repeat RegistryModel.rrun]. rewrite R1, R2, R. reflexivity.
    + split; [exact L|]. split; [|exact D]. destruct T as (t1 & t2 & t3 & t4 & t5). now repeat split.
Qed.
Lemma ask_run g w s : ls s g = LIdle ->
  exists s', rrun s [AAsk g w; ALook g] = Some (s', []) /\ ls s' g = LScan w (cur s) (len s) 0 [] /\ same_table s s' /\ todo s' = todo s.
Proof.
  intros H. eexists. split; [cbn [RegistryModel.rrun RegistryModel.rstep]; rewrite H; unfold RegistryModel.look; cbn [set_ls ls]; rewrite Nat.eqb_refl; reflexivity|].
  split; [cbn [set_ls ls]; now rewrite Nat.eqb_refl|]. split; [now repeat split|reflexivity].
Qed.
End Registry.

Lemma sorted_middle {A} (R : A -> A -> Prop) p y z r : StronglySorted R (p ++ y :: z :: r) -> R y z.
Proof.
  induction p as [|x p IH]; cbn; intros H; inversion H as [|? ? Hs Hf]; subst; [now inversion Hf|auto].
Qed.
Lemma rounds_sorted l x : forall rp, StronglySorted in_order (rev rp ++ l) ->
  rounds rp (l ++ [x]) = down (length rp + length l) (larger (rev l ++ rp) x).
Proof.
  induction l as [|z l IH]; intros rp H; cbn [app rounds].
  - cbn. now rewrite app_nil_r, Nat.add_0_r.
  - assert (E : larger rp z = 0).
    { destruct rp as [|y r]; [reflexivity|]. cbn [larger]. cbn [rev] in H. rewrite <- app_assoc in H.
      apply sorted_middle in H. apply in_order_ltb in H. now rewrite H. }
    rewrite E. cbn [down firstn skipn app map seq]. change (down (length rp) 0) with (@nil (nat * nat)). cbn [app].
    rewrite IH by (cbn [rev]; rewrite <- app_assoc; exact H). cbn [length rev]. rewrite <- app_assoc. f_equal. lia.
Qed.
Lemma first_swap l y x : StronglySorted in_order (l ++ [y]) -> dict_before x y ->
  exists ops, insertion_swaps ((l ++ [y]) ++ [x]) = (S (length l), length l) :: ops.
Proof.
  intros H D. unfold insertion_swaps. rewrite rounds_sorted by exact H. rewrite rev_app_distr. cbn [rev app larger].
  apply ltb_dict in D. rewrite D. rewrite app_length. cbn [length plus]. rewrite Nat.add_1_r, down_S. eexists. reflexivity.
Qed.
Lemma ordered_names {B} (l : list (text * B)) : ordered l -> StronglySorted in_order (map fst l).
Proof. induction 1 as [|e l H IH F]; cbn; constructor; [exact IH|now rewrite Forall_map]. Qed.

Section Missed.
Variable B : Type.
Variable zero : B.
Variable grow : nat -> nat.
Notation rstep := (rstep B zero insertion_swaps grow).
Notation rrun := (rrun B zero insertion_swaps grow).
Notation reg := (reg B zero insertion_swaps grow).
Notation append_cmd := (append_cmd B zero insertion_swaps grow).
Notation rinv := (rinv B zero).
Notation d0 := (([], zero) : text * B).

(** The registration's append and its first swap. *)
Lemma append_state cs s c rest front last :
  rinv cs s -> wr s = WNext -> todo s = c :: rest -> view s = front ++ [last] -> dict_before (fst c) (fst last) ->
  exists s1 ops, rrun s [AReg] = Some (s1, []) /\ wr s1 = WSort ((S (length front), length front) :: ops) /\
    ls s1 = ls s /\ len s1 = S (S (length front)) /\ cur s1 < length (arrays s1) /\ len s1 <= length (array s1 (cur s1)) /\
    view s1 = front ++ [last; c] /\ (len s < length (array s (cur s)) -> cur s1 = cur s).
Proof.
  intros I W T V D. pose proof I as (H1 & H2 & H3 & H4 & H5 & H6). unfold wr_ok in H4. rewrite W in H4. destruct H4 as [P O].
  destruct (append_view B zero insertion_swaps grow s c rest H1 H2) as (V1 & A1 & A2 & A3 & A4).
  assert (Ln : len s = S (length front)). { rewrite <- (view_len B s H2), V, app_length. cbn. lia. }
  destruct (first_swap (map fst front) (fst last) (fst c)) as [ops E]; [|exact D|].
  { change [fst last] with (map fst [last]). rewrite <- map_app, <- V. now apply ordered_names. }
  exists (append_cmd s c rest), ops.
  split; [apply reg_run1; unfold RegistryModel.reg; now rewrite W, T|].
  split. { unfold RegistryModel.append_cmd. destruct (len s <? _); cbn [wr]; fold (view s); rewrite V, !map_app; cbn [map]; rewrite E, map_length; reflexivity. }
  split; [unfold RegistryModel.append_cmd; destruct (len s <? _); reflexivity|].
  split; [unfold RegistryModel.append_cmd; destruct (len s <? _); cbn [len]; now rewrite Ln|].
  split; [exact A1|]. split; [exact A2|]. split; [now rewrite V1, V, <- app_assoc|].
  intros L. unfold RegistryModel.append_cmd. destruct (Nat.ltb_spec (len s) (length (array s (cur s)))); [reflexivity|lia].
Qed.
Lemma swap_state s ops n : wr s = WSort ((S n, n) :: ops) -> cur s < length (arrays s) -> S (S n) <= length (array s (cur s)) ->
  exists s1, rrun s (repeat AReg 5) = Some (s1, []) /\ ls s1 = ls s /\
    nth n (array s1 (cur s)) d0 = nth (S n) (array s (cur s)) d0 /\
    forall t, t < n -> nth t (array s1 (cur s)) d0 = nth t (array s (cur s)) d0.
Proof.
  intros W C L. eexists. split.
  { cbn [repeat RegistryModel.rrun RegistryModel.rstep]. unfold RegistryModel.reg at 1. rewrite W. cbn. reflexivity. }
  split; [reflexivity|].
  unfold array, store, RegistryModel.store; cbn [arrays cur set_wr]. unfold array; cbn [arrays cur set_wr].
  assert (Cb : (cur s <? length (arrays s)) = true) by (apply Nat.ltb_lt; exact C).
  unfold array in L. set (a := nth (cur s) (arrays s) []) in *.
  split.
  - repeat (rewrite ?put_nth, ?put_length, ?Nat.eqb_refl, ?Cb; cbn [andb]). fold a.
    replace (n =? S n) with false by (symmetry; apply Nat.eqb_neq; lia).
    replace (S n =? n) with false by (symmetry; apply Nat.eqb_neq; lia).
    replace (n <? length a) with true by (symmetry; apply Nat.ltb_lt; lia). cbn [andb fst snd].
    now destruct (nth (S n) a d0).
  - intros t Ht. repeat (rewrite ?put_nth, ?put_length, ?Nat.eqb_refl, ?Cb; cbn [andb]). fold a.
    replace (n =? t) with false by (symmetry; apply Nat.eqb_neq; lia).
    replace (S n =? t) with false by (symmetry; apply Nat.eqb_neq; lia). reflexivity.
Qed.
End Missed.
