(** Proofs about Unparse followed by ParseCommand. *)
From Verif Require Import GoBase GoBaseFacts GoUtf8 GoUtf8Facts ParserModel ParserSpec ParserProofs.
Local Open Scope N_scope.

(** The unparsed line: every word escaped and followed by a blank. *)
Definition laid_out (ws : list text) : text := flat_map (fun w => escape_spaces w ++ [32]) ws.

Lemma laid_out_join ws : ws <> [] -> join [32] (map escape_spaces ws) ++ [32] = laid_out ws.
Proof.
  induction ws as [|w ws IH]; intro H; [congruence|].
  destruct ws as [|w' ws].
  - cbn. now rewrite app_nil_r.
  - change (join [32] (map escape_spaces (w :: w' :: ws)))
      with (escape_spaces w ++ [32] ++ join [32] (map escape_spaces (w' :: ws))).
    rewrite <- !app_assoc. rewrite IH by discriminate.
    unfold laid_out. cbn [flat_map]. now rewrite <- !app_assoc.
Qed.

Lemma unparse_laid_out c : unparse c = laid_out (p_command c :: p_params c).
Proof.
  unfold unparse. destruct (p_params c) as [|p ps] eqn:E.
  - unfold laid_out. cbn [flat_map]. now rewrite app_nil_r.
  - rewrite laid_out_join by discriminate. unfold laid_out. cbn [flat_map]. now rewrite <- !app_assoc.
Qed.

Lemma escape_cons c w : escape_spaces (c :: w) = (if c =? 32 then [92; 32] else [c]) ++ escape_spaces w.
Proof. reflexivity. Qed.

(** No backslash in [w] is followed by a backslash or a blank; it may end the word. *)
Definition inner_safe (w : text) : Prop :=
  forall a c r, w = a ++ 92 :: c :: r -> c <> 92 /\ c <> 32.

Lemma inner_safe_tail c w : inner_safe (c :: w) -> inner_safe w.
Proof. intros H a d r E. apply (H (c :: a) d r). now rewrite E. Qed.

Lemma backslash_safe_tail c w : backslash_safe (c :: w) -> backslash_safe w.
Proof. intros H a b E. apply (H (c :: a) b). now rewrite E. Qed.

Lemma read_plain c l : c <> 92 -> c <> 32 -> read (c :: l) = Chr c :: read l.
Proof. intros A B. cbn [read]. now rewrite (eqb_false c 92), (eqb_false c 32). Qed.

Lemma read_esc_other c l : c <> 92 -> c <> 32 -> read (92 :: c :: l) = Chr 92 :: read (c :: l).
Proof.
  intros A B.
  change (read (92 :: c :: l)) with
    (if c =? 32 then Chr 32 :: read l else if c =? 92 then Chr 92 :: read l else Chr 92 :: read (c :: l)).
  now rewrite (eqb_false c 92), (eqb_false c 32).
Qed.

Lemma read_escaped_safe w : forall l, backslash_safe w ->
  read (escape_spaces w ++ 32 :: l) = map Chr w ++ Sep :: read l.
Proof.
  induction w as [|c w IH]; intros l H; [reflexivity|].
  pose proof (backslash_safe_tail _ _ H) as Ht.
  rewrite escape_cons.
  destruct (N.eq_dec c 32) as [->|H32].
  - change (32 =? 32) with true. cbv iota. cbn [app map]. change (read (92 :: 32 :: escape_spaces w ++ 32 :: l))
      with (Chr 32 :: read (escape_spaces w ++ 32 :: l)). now rewrite IH.
  - rewrite (eqb_false c 32) by assumption. cbn [app map].
    destruct (N.eq_dec c 92) as [->|H92].
    + destruct (H [] w eq_refl) as (d & r & -> & D1 & D2). unfold backslash, blank in *.
      rewrite escape_cons. rewrite (eqb_false d 32) by assumption. cbn [app].
      rewrite read_esc_other by assumption. f_equal.
      specialize (IH l Ht). rewrite escape_cons, (eqb_false d 32) in IH by assumption. exact IH.
    + rewrite read_plain by assumption. now rewrite IH.
Qed.

Lemma read_laid_out ws : Forall backslash_safe ws -> read (laid_out ws) = spelled (ws ++ [[]]).
Proof.
  induction 1 as [|w ws H _ IH]; [reflexivity|].
  unfold laid_out in *. cbn [flat_map app]. rewrite <- app_assoc. cbn [app].
  rewrite read_escaped_safe by exact H. rewrite IH.
  rewrite spelled_cons; [reflexivity|]. destruct ws; discriminate.
Qed.

Lemma parse_laid_out w ws : backslash_safe w -> Forall backslash_safe ws ->
  parse_command (laid_out (w :: ws)) =
    {| p_command := trim_space (map delivered w);
       p_params := map trim_space (map (map delivered) (filter nonempty ws)) |}.
Proof.
  intros Hw Hws.
  destruct (parse_command_reads (laid_out (w :: ws))) as (v & vs & R & ->).
  apply reads_fun in R. rewrite read_laid_out in R by (constructor; assumption).
  apply spelled_inj in R; [|discriminate|discriminate].
  cbn [app] in R. injection R as <- <-.
  rewrite filter_app. cbn [filter nonempty]. now rewrite app_nil_r.
Qed.

Lemma filter_all {A} (f : A -> bool) l : Forall (fun x => f x = true) l -> filter f l = l.
Proof. induction 1 as [|x l H _ IH]; [reflexivity|]. cbn. now rewrite H, IH. Qed.

Lemma map_delivered_id w : Forall (fun c => c < 0xC0) w -> map delivered w = w.
Proof.
  induction 1 as [|c w H _ IH]; [reflexivity|]. cbn. now rewrite delivered_small, IH.
Qed.

Lemma map_delivered_id_inv w : map delivered w = w -> Forall (fun c => c < 0xC0) w.
Proof.
  induction w as [|c w IH]; intro H; constructor; cbn in H; injection H as H1 H2.
  - now apply delivered_iff.
  - auto.
Qed.

Lemma sound_word_id w : sound_word w -> trim_space (map delivered w) = w.
Proof. intros (A & B & _). rewrite map_delivered_id by exact A. now apply trim_space_tight. Qed.

Lemma parse_laid_out_sound w ws : sound_word w -> Forall (fun p => p <> [] /\ sound_word p) ws ->
  parse_command (laid_out (w :: ws)) = {| p_command := w; p_params := ws |}.
Proof.
  intros Hw Hws. rewrite parse_laid_out.
  - f_equal; [now apply sound_word_id|].
    rewrite filter_all.
    + induction Hws as [|p ps [_ H] _ IH]; [reflexivity|].
      cbn [map]. rewrite IH. now rewrite sound_word_id.
    + eapply Forall_impl; [|exact Hws]. intros [|] [H _]; [congruence|reflexivity].
  - apply Hw.
  - eapply Forall_impl; [|exact Hws]. intros p [_ H]. apply H.
Qed.

(* ------------------------------------------------------------------ *)
(** ** The converse: counting backslashes and blanks *)

Local Open Scope nat_scope.

Notation cnt x l := (count_occ N.eq_dec l x).

Definition chars (ps : list piece) : text :=
  flat_map (fun p => match p with Chr c => [c] | Sep => [] end) ps.

Lemma chars_app a b : chars (a ++ b) = chars a ++ chars b.
Proof. apply flat_map_app. Qed.

Lemma chars_map_chr w : chars (map Chr w) = w.
Proof. induction w as [|c w IH]; [reflexivity|]. cbn. unfold chars in IH. now rewrite IH. Qed.

Lemma chars_spelled ws : chars (spelled ws) = concat ws.
Proof.
  induction ws as [|w ws IH]; [reflexivity|].
  destruct ws as [|w' ws].
  - cbn [spelled concat]. now rewrite chars_map_chr, app_nil_r.
  - rewrite spelled_cons by discriminate. rewrite chars_app, chars_map_chr.
    change (chars (Sep :: spelled (w' :: ws))) with (chars (spelled (w' :: ws))). now rewrite IH.
Qed.

Lemma cnt_cons x c l : cnt x (c :: l) = (if N.eq_dec c x then 1 else 0) + cnt x l.
Proof. cbn. destruct (N.eq_dec c x); reflexivity. Qed.

Ltac decs := repeat match goal with |- context [N.eq_dec ?x ?y] =>
  let Q := fresh in destruct (N.eq_dec x y) as [Q|Q]; try discriminate Q; try (exfalso; apply Q; reflexivity);
  clear Q end.

Lemma count_bound n : forall l, length l <= n ->
  cnt 92%N (chars (read l)) + cnt 32%N (chars (read l)) <= cnt 92%N l /\
  (cnt 92%N (chars (read l)) + cnt 32%N (chars (read l)) = cnt 92%N l ->
     forall a b, l <> a ++ 92%N :: 92%N :: b).
Proof.
  induction n as [|n IH]; intros l Hl.
  - destruct l; [|cbn in Hl; lia]. cbn. split; [lia|]. intros _ [|] b; discriminate.
  - destruct l as [|c r]; [cbn; split; [lia|]; intros _ [|] b; discriminate|]. cbn in Hl.
    destruct (N.eq_dec c 92) as [->|Hc].
    + destruct r as [|d r'].
      { cbn. split; [lia|]. intros _ [|? [|]] b; discriminate. }
      destruct (N.eq_dec d 32) as [->|H32]; [|destruct (N.eq_dec d 92) as [->|H92]].
      * destruct (IH r') as [L E]; [cbn in Hl; lia|].
        change (chars (read (92 :: 32 :: r')))%N with (32%N :: chars (read r')).
        rewrite !cnt_cons.
        decs.
        split; [lia|]. intros H a b Hab. apply (E ltac:(lia) (skipn 2 a) b).
        destruct a as [|x [|y a]]; cbn in Hab; try discriminate. cbn. now injection Hab as _ _ Hab.
      * destruct (IH r') as [L E]; [cbn in Hl; lia|].
        change (chars (read (92 :: 92 :: r')))%N with (92%N :: chars (read r')).
        rewrite !cnt_cons.
        decs.
        split; [lia|]. intro H. exfalso. lia.
      * destruct (IH (d :: r')) as [L E]; [cbn in Hl |- *; lia|].
        rewrite read_esc_other by assumption.
        change (chars (Chr 92 :: read (d :: r')))%N with (92%N :: chars (read (d :: r'))).
        set (q := d :: r') in *.
        rewrite !cnt_cons.
        decs.
        split; [lia|]. intros H a b Hab.
        destruct a as [|x a]; cbn in Hab.
        -- injection Hab as Hab. subst q. congruence.
        -- injection Hab as _ Hab. apply (E ltac:(lia) a b Hab).
    + destruct (IH r) as [L E]; [lia|].
      assert (K : forall a b, c :: r = a ++ 92%N :: 92%N :: b -> exists a', r = a' ++ 92%N :: 92%N :: b).
      { intros [|x a] b Hab; cbn in Hab; injection Hab as Hx Hab; [congruence|eauto]. }
      destruct (N.eq_dec c 32) as [->|H32].
      * change (chars (read (32 :: r)%N)) with (chars (read r)).
        rewrite (cnt_cons _ 32%N r). destruct (N.eq_dec 32 92) as [Q|Q]; [discriminate Q|].
        split; [lia|]. intros H a b Hab. destruct (K _ _ Hab) as [a' Ha]. apply (E ltac:(lia) a' b Ha).
      * rewrite read_plain by assumption.
        change (chars (Chr c :: read r)) with (c :: chars (read r)).
        rewrite !cnt_cons. destruct (N.eq_dec c 92); [congruence|]. destruct (N.eq_dec c 32); [congruence|].
        split; [lia|]. intros H a b Hab. destruct (K _ _ Hab) as [a' Ha]. apply (E ltac:(lia) a' b Ha).
Qed.

Lemma cnt_app x a b : cnt x (a ++ b) = cnt x a + cnt x b.
Proof. apply count_occ_app. Qed.

Lemma cnt_escape w : cnt 92%N (escape_spaces w) = cnt 92%N w + cnt 32%N w.
Proof.
  induction w as [|c w IH]; [reflexivity|].
  rewrite escape_cons, cnt_app, IH, !cnt_cons.
  destruct (N.eq_dec c 32) as [->|H32].
  - change (cnt 92%N (if (32 =? 32)%N then [92; 32]%N else [32%N])) with 1.
    destruct (N.eq_dec 32 92) as [Q|Q]; [discriminate Q|lia].
  - rewrite (eqb_false c 32) by assumption. rewrite cnt_cons. cbn [count_occ]. lia.
Qed.

Definition total (x : N) (ws : list text) : nat := cnt x (concat ws).

Lemma cnt_laid_out ws : cnt 92%N (laid_out ws) = total 92 ws + total 32 ws.
Proof.
  unfold total. induction ws as [|w ws IH]; [reflexivity|].
  unfold laid_out in *. cbn [flat_map concat]. rewrite !cnt_app, IH, cnt_escape.
  change (cnt 92%N [32%N]) with 0. lia.
Qed.

Lemma cnt_trim x w : cnt x (trim_space w) <= cnt x w.
Proof.
  destruct (trim_space_trimmed w) as [_ (a & b & E & _)].
  rewrite E at 2. rewrite !cnt_app. lia.
Qed.

Lemma cnt_delivered x w : (x < 0x80)%N -> cnt x (map delivered w) = cnt x w.
Proof.
  intro Hx. induction w as [|c w IH]; [reflexivity|].
  cbn [map]. rewrite !cnt_cons, IH. f_equal.
  destruct (N.lt_ge_cases c 0x80) as [H|H].
  - rewrite delivered_small by lia. reflexivity.
  - pose proof (delivered_large c H).
    destruct (N.eq_dec (delivered c) x), (N.eq_dec c x); lia.
Qed.

Lemma total_params x ws : (x < 0x80)%N ->
  total x (map trim_space (map (map delivered) (filter nonempty ws))) <= total x ws.
Proof.
  intro Hx. unfold total. induction ws as [|w ws IH]; [cbn; lia|].
  cbn [filter]. destruct w as [|c w]; cbn [nonempty]; [exact IH|].
  cbn [map concat]. rewrite !cnt_app.
  pose proof (cnt_trim x (map delivered (c :: w))). rewrite cnt_delivered in H by exact Hx.
  cbn [map] in H. lia.
Qed.

Lemma escape_adjacent w : forall c r a, w = a ++ 92%N :: c :: r -> (c = 92 \/ c = 32)%N ->
  exists a' b', escape_spaces w = a' ++ 92%N :: 92%N :: b'.
Proof.
  intros c r a -> H. unfold escape_spaces. rewrite flat_map_app. cbn [flat_map].
  change (if (92 =? 32)%N then [92; 32]%N else [92%N]) with [92%N].
  destruct H as [->| ->].
  - exists (flat_map (fun c => if (c =? 32)%N then [92%N; 32%N] else [c]) a). eexists. reflexivity.
  - exists (flat_map (fun c => if (c =? 32)%N then [92%N; 32%N] else [c]) a). eexists. reflexivity.
Qed.

(** [w] ends with a backslash *)
Definition ends_esc (w : text) : bool := match rev w with 92%N :: _ => true | _ => false end.

Lemma ends_esc_true w : ends_esc w = true <-> exists v, w = v ++ [92%N].
Proof.
  unfold ends_esc. split.
  - destruct (rev w) as [|c r] eqn:E; [discriminate|]. intro H.
    assert (c = 92%N).
    { destruct c; try discriminate. repeat (destruct p; try discriminate). reflexivity. }
    subst c. exists (rev r). rewrite <- (rev_involutive w), E. reflexivity.
  - intros [v ->]. now rewrite rev_app_distr.
Qed.

Lemma ends_esc_cons c w : w <> [] -> ends_esc (c :: w) = ends_esc w.
Proof.
  intro H. unfold ends_esc. destruct (exists_last H) as (v & x & ->).
  cbn [rev]. rewrite rev_app_distr. reflexivity.
Qed.

Lemma inner_safe_safe w : inner_safe w -> ends_esc w = false -> backslash_safe w.
Proof.
  intros H E a b ->. destruct b as [|c r].
  - exfalso. assert (ends_esc (a ++ [backslash]) = true) by (apply ends_esc_true; now exists a). congruence.
  - exists c, r. split; [reflexivity|]. exact (H a c r eq_refl).
Qed.

(** Reading a word without inner trouble: if it ends with a backslash, this one swallows the separator. *)
Lemma read_escaped_inner w : forall l, inner_safe w ->
  chars (read (escape_spaces w ++ 32%N :: l)) =
    if ends_esc w then removelast w ++ 32%N :: chars (read l) else w ++ chars (read l).
Proof.
  induction w as [|c w IH]; intros l H; [reflexivity|].
  pose proof (inner_safe_tail _ _ H) as Ht.
  destruct w as [|d w].
  { destruct (N.eq_dec c 92) as [->|H92]; [reflexivity|].
    replace (ends_esc [c]) with false.
    - destruct (N.eq_dec c 32) as [->|H32]; [reflexivity|].
      rewrite escape_cons, (eqb_false c 32) by assumption. cbn [app escape_spaces flat_map].
      rewrite read_plain by assumption. reflexivity.
    - symmetry. destruct (ends_esc [c]) eqn:E; [|reflexivity].
      apply ends_esc_true in E as [[|x v] Ev]; [injection Ev as ->; congruence|].
      destruct v; discriminate. }
  rewrite ends_esc_cons by discriminate.
  specialize (IH l Ht).
  assert (G : read (escape_spaces (c :: d :: w) ++ 32%N :: l) = Chr c :: read (escape_spaces (d :: w) ++ 32%N :: l)).
  { rewrite (escape_cons c). destruct (N.eq_dec c 32) as [->|H32].
    - reflexivity.
    - rewrite (eqb_false c 32) by assumption. cbn [app].
      destruct (N.eq_dec c 92) as [->|H92].
      + destruct (H [] d w eq_refl) as [D1 D2].
        rewrite (escape_cons d), (eqb_false d 32) by assumption. cbn [app].
        rewrite read_esc_other by assumption. reflexivity.
      + now rewrite read_plain by assumption. }
  rewrite G. change (chars (Chr c :: ?q)) with (c :: chars q).
  set (q := read (escape_spaces (d :: w) ++ 32%N :: l)) in *.
  change (chars (Chr c :: q)) with (c :: chars q). rewrite IH.
  destruct (ends_esc (d :: w)); reflexivity.
Qed.

Lemma read_laid_out_blanks ws : Forall inner_safe ws ->
  cnt 32%N (chars (read (laid_out ws))) = total 32 ws + length (filter ends_esc ws).
Proof.
  unfold total. induction 1 as [|w ws H _ IH]; [reflexivity|].
  unfold laid_out in *. cbn [flat_map concat filter]. rewrite <- app_assoc. cbn [app].
  rewrite read_escaped_inner by exact H.
  destruct (ends_esc w) eqn:E.
  - apply ends_esc_true in E as [v ->]. rewrite removelast_last. rewrite !cnt_app. cbn [length].
    rewrite cnt_cons. change (cnt 32%N [92%N]) with 0.
    destruct (N.eq_dec 32 32); [|congruence]. rewrite IH. lia.
  - rewrite !cnt_app, IH. lia.
Qed.

Lemma laid_out_adjacent ws w a b : In w ws -> escape_spaces w = a ++ 92%N :: 92%N :: b ->
  exists a' b', laid_out ws = a' ++ 92%N :: 92%N :: b'.
Proof.
  intros Hi E. apply in_split in Hi as (l1 & l2 & ->).
  unfold laid_out. rewrite flat_map_app. cbn [flat_map]. rewrite E.
  exists (flat_map (fun w => escape_spaces w ++ [32%N]) l1 ++ a), (b ++ [32%N] ++ flat_map (fun w => escape_spaces w ++ [32%N]) l2).
  rewrite <- !app_assoc. cbn [app]. reflexivity.
Qed.

Lemma roundtrip_safe w ws :
  parse_command (laid_out (w :: ws)) = {| p_command := w; p_params := ws |} ->
  Forall backslash_safe (w :: ws).
Proof.
  intro H.
  destruct (parse_command_reads (laid_out (w :: ws))) as (v & vs & R & P).
  rewrite H in P. injection P as Pw Pws.
  apply reads_fun in R.
  assert (B : forall x, (x < 0x80)%N -> total x (w :: ws) <= cnt x (chars (read (laid_out (w :: ws))))).
  { intros x Hx. rewrite R, chars_spelled. unfold total. cbn [concat]. rewrite !cnt_app.
    assert (cnt x w <= cnt x v) by (rewrite Pw, <- (cnt_delivered x v) by exact Hx; apply cnt_trim).
    pose proof (total_params x vs Hx) as T. unfold total in T. rewrite <- Pws in T. lia. }
  pose proof (B 92%N eq_refl) as B92. pose proof (B 32%N eq_refl) as B32.
  destruct (count_bound (length (laid_out (w :: ws))) (laid_out (w :: ws)) (le_n _)) as [L E].
  rewrite cnt_laid_out in L, E.
  specialize (E ltac:(lia)).
  assert (I : Forall inner_safe (w :: ws)).
  { apply Forall_forall. intros u Hu a c r Eu.
    destruct (N.eq_dec c 92) as [Hc|H92]; [|destruct (N.eq_dec c 32) as [Hc|H32]; [|auto]];
    (exfalso; destruct (escape_adjacent u c r a Eu ltac:(auto)) as (a1 & b1 & E1);
     destruct (laid_out_adjacent _ _ _ _ Hu E1) as (a2 & b2 & E2); exact (E a2 b2 E2)). }
  pose proof (read_laid_out_blanks _ I) as K.
  apply Forall_forall. intros u Hu.
  apply inner_safe_safe; [rewrite Forall_forall in I; now apply I|].
  destruct (ends_esc u) eqn:Eu; [exfalso|reflexivity].
  assert (In u (filter ends_esc (w :: ws))) by (apply filter_In; auto).
  destruct (filter ends_esc (w :: ws)); [contradiction|]. cbn [length] in K. lia.
Qed.

Lemma trim_delivered_id w : trim_space (map delivered w) = w -> Forall (fun c => (c < 0xC0)%N) w /\ tight w.
Proof.
  intro H. assert (T : tight w) by (rewrite <- H; apply (trim_space_trimmed (map delivered w))).
  split; [|exact T].
  destruct (trim_space_trimmed (map delivered w)) as [_ (a & b & E & _)].
  rewrite H in E.
  assert (length a = 0 /\ length b = 0).
  { apply (f_equal (@length N)) in E. rewrite map_length, !app_length in E. lia. }
  destruct a, b; cbn in *; try lia. rewrite app_nil_r in E.
  now apply map_delivered_id_inv.
Qed.

Theorem roundtrip_iff c :
  parse_command (unparse c) = c <->
  sound_word (p_command c) /\ Forall (fun p => p <> [] /\ sound_word p) (p_params c).
Proof.
  rewrite unparse_laid_out. destruct c as [w ws]. cbn [p_command p_params].
  split.
  - intro H. pose proof (roundtrip_safe _ _ H) as S. inversion S as [|? ? S1 S2]; subst.
    rewrite parse_laid_out in H by assumption. injection H as Hw Hws.
    apply trim_delivered_id in Hw as [A B].
    split; [repeat split; auto; apply B|].
    assert (F : filter nonempty ws = ws).
    { apply (f_equal (@length _)) in Hws. rewrite !map_length in Hws. clear -Hws.
      assert (G : forall l : list text, length (filter nonempty l) <= length l).
      { induction l as [|x l IH]; [cbn; lia|]. cbn. destruct (nonempty x); cbn; lia. }
      induction ws as [|p ps IH]; [reflexivity|].
      cbn [filter] in *. destruct (nonempty p).
      - f_equal. apply IH. cbn in Hws. lia.
      - pose proof (G ps). cbn in Hws. lia. }
    rewrite F in Hws. clear -Hws F S2.
    assert (NE : Forall (fun p => nonempty p = true) ws).
    { apply Forall_forall. intros p Hp. rewrite <- F in Hp. now apply filter_In in Hp. }
    clear F. revert Hws. induction S2 as [|p ps Sp _ IH]; intro H; constructor.
    + cbn in H. injection H as H1 H2. apply trim_delivered_id in H1 as [A B].
      inversion NE; subst. split; [intros ->; discriminate|]. split; [exact A|]. split; [exact B|exact Sp].
    + inversion NE; subst. apply IH; auto. cbn in H. now injection H.
  - intros [A B]. now apply parse_laid_out_sound.
Qed.
