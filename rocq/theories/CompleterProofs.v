From Verif Require Import GoBase GoBaseFacts GoUtf8 GoUtf8Facts ParserModel ParserSpec ParserProofs ParserUnparseProofs.
From Verif Require Import CompleterModel CompleterSpec.
Local Open Scope N_scope.

Lemma quoted_escape w : quoted w = escape_spaces w. Proof. reflexivity. Qed.

Lemma typed_laid_out ws last : typed ws last = laid_out ws ++ escape_spaces last.
Proof. unfold typed, laid_out. now rewrite flat_map_concat_map. Qed.

Lemma escape_app a b : escape_spaces (a ++ b) = escape_spaces a ++ escape_spaces b.
Proof. apply flat_map_app. Qed.

Lemma laid_out_app a b : laid_out (a ++ b) = laid_out a ++ laid_out b.
Proof. apply flat_map_app. Qed.

(* ------------------------------------------------------------------ *)
(** ** Parsing a typed line *)

Lemma read_escaped_end w : inner_safe w -> read (escape_spaces w) = map Chr w.
Proof.
  induction w as [|c w IH]; intro H; [reflexivity|].
  specialize (IH (inner_safe_tail _ _ H)).
  rewrite escape_cons. destruct (N.eq_dec c 32) as [->|H32].
  - change (read ((if 32 =? 32 then [92; 32] else [32]) ++ escape_spaces w))
      with (Chr 32 :: read (escape_spaces w)). now rewrite IH.
  - rewrite (eqb_false c 32) by assumption. cbn [app].
    destruct (N.eq_dec c 92) as [->|H92].
    + destruct w as [|d w]; [reflexivity|].
      destruct (H [] d w eq_refl) as [D1 D2].
      rewrite escape_cons, (eqb_false d 32) by assumption. cbn [app].
      rewrite read_esc_other by assumption. cbn [map]. f_equal.
      rewrite escape_cons, (eqb_false d 32) in IH by assumption. exact IH.
    + rewrite read_plain by assumption. cbn [map]. now rewrite IH.
Qed.

Lemma read_typed ws last : Forall backslash_safe ws -> inner_safe last ->
  read (typed ws last) = spelled (ws ++ [last]).
Proof.
  rewrite typed_laid_out. intros H L. induction H as [|w ws H _ IH].
  - cbn. now apply read_escaped_end.
  - unfold laid_out in *. cbn [flat_map app]. rewrite <- !app_assoc. cbn [app].
    rewrite read_escaped_safe by exact H. rewrite IH.
    rewrite spelled_cons; [reflexivity|]. destruct ws; discriminate.
Qed.

Lemma parse_typed w ws last :
  Forall backslash_safe (w :: ws) -> inner_safe last ->
  parse_command (typed (w :: ws) last) =
    {| p_command := trim_space (map delivered w);
       p_params := map trim_space (map (map delivered) (filter nonempty (ws ++ [last]))) |}.
Proof.
  intros H L.
  destruct (parse_command_reads (typed (w :: ws) last)) as (v & vs & R & ->).
  apply reads_fun in R. rewrite read_typed in R by assumption.
  apply spelled_inj in R; [|discriminate|discriminate].
  cbn [app] in R. injection R as <- <-. reflexivity.
Qed.

Lemma sound_params ws : Forall (fun p => p <> [] /\ sound_word p) ws ->
  map trim_space (map (map delivered) (filter nonempty ws)) = ws.
Proof.
  intro H. rewrite filter_all.
  - induction H as [|p ps [_ H] _ IH]; [reflexivity|].
    cbn [map]. rewrite IH. now rewrite sound_word_id.
  - eapply Forall_impl; [|exact H]. intros [|] [E _]; [congruence|reflexivity].
Qed.

Lemma parse_typed_sound w ws last :
  sound_word w -> Forall (fun p => p <> [] /\ sound_word p) ws -> typing_word last ->
  parse_command (typed (w :: ws) last) =
    {| p_command := w; p_params := ws ++ filter nonempty [last] |}.
Proof.
  intros Hw Hws (L1 & L2 & L3). rewrite parse_typed.
  - rewrite (sound_word_id w Hw). f_equal.
    rewrite filter_app, !map_app. rewrite sound_params by exact Hws. f_equal.
    destruct last as [|c l]; [reflexivity|]. cbn [filter nonempty map].
    change (delivered c :: map delivered l) with (map delivered (c :: l)).
    rewrite map_delivered_id by exact L1. f_equal. now apply trim_space_tight.
  - constructor; [apply Hw|]. eapply Forall_impl; [|exact Hws]. intros p [_ H]; apply H.
  - exact L3.
Qed.

Lemma last_app_ne {A} (a b : list A) d : b <> [] -> last (a ++ b) d = last b d.
Proof.
  intro H. destruct (exists_last H) as (b' & x & ->).
  rewrite app_assoc, !last_last. reflexivity.
Qed.

Lemma escape_nonnil w : w <> [] -> escape_spaces w <> [].
Proof. destruct w as [|c w]; [congruence|]. intros _. rewrite escape_cons. destruct (c =? 32); discriminate. Qed.

Lemma escape_last w d : w <> [] -> last (escape_spaces w) d = last w d.
Proof.
  intro H. destruct (exists_last H) as (v & x & ->).
  rewrite escape_app, last_last. rewrite last_app_ne.
  - unfold escape_spaces. cbn. destruct (x =? 32) eqn:E; [neqb; now subst|reflexivity].
  - apply escape_nonnil. discriminate.
Qed.

Lemma typed_last w ws last : 
  List.last (typed (w :: ws) last) 0 = match last with [] => 32 | _ => List.last last 0 end.
Proof.
  rewrite typed_laid_out. destruct last as [|c l].
  - rewrite app_nil_r. destruct (@exists_last _ (w :: ws) ltac:(discriminate)) as (vs & v & ->).
    rewrite laid_out_app. unfold laid_out at 2. cbn [flat_map]. rewrite app_nil_r, app_assoc.
    now rewrite last_last.
  - rewrite last_app_ne by (apply escape_nonnil; discriminate). apply escape_last. discriminate.
Qed.

Lemma tight_last_ne w : w <> [] -> tight w -> last w 0 <> 32.
Proof.
  intros H [_ T]. destruct (exists_last H) as (v & x & ->). rewrite last_last.
  intros ->. apply (T 32 v eq_refl). right. left. reflexivity.
Qed.

(** the command with the word being typed as last parameter *)
Lemma completed_cmd w ws last :
  sound_word w -> Forall (fun p => p <> [] /\ sound_word p) ws -> typing_word last ->
  let line := typed (w :: ws) last in
  (if List.last line 0 =? 32
   then {| p_command := p_command (parse_command line); p_params := p_params (parse_command line) ++ [[]] |}
   else parse_command line) = {| p_command := w; p_params := ws ++ [last] |}.
Proof.
  intros Hw Hws HL. cbv zeta. rewrite typed_last, parse_typed_sound by assumption.
  destruct last as [|c l].
  - change (32 =? 32) with true. cbv iota. cbn [p_command p_params filter nonempty]. now rewrite app_nil_r.
  - rewrite eqb_false; [reflexivity|]. apply tight_last_ne; [discriminate|apply HL].
Qed.

(* ------------------------------------------------------------------ *)
(** ** Argument completion *)

Lemma omap_ok {A B} (f : A -> outcome B) (g : A -> B) l :
  (forall a, In a l -> f a = Ok (g a)) -> omap f l = Ok (map g l).
Proof.
  induction l as [|a l IH]; intro H; [reflexivity|].
  cbn [omap map]. rewrite (H a) by (left; reflexivity). cbn [obind].
  rewrite IH by (intros; apply H; now right). reflexivity.
Qed.

Lemma omap_panic {A B} (f : A -> outcome B) l :
  omap f l = Panic <-> exists a, In a l /\ f a = Panic.
Proof.
  induction l as [|a l IH]; cbn [omap].
  - split; [discriminate|]. intros (a & [] & _).
  - destruct (f a) as [b|] eqn:E; cbn [obind].
    + destruct (omap f l) as [bs|] eqn:El; cbn [obind].
      * split; [discriminate|]. intros (x & [<-|Hx] & F); [congruence|].
        assert (Ok bs = Panic) by (apply IH; eauto). discriminate.
      * split; [|reflexivity]. intros _. destruct (proj1 IH eq_refl) as (x & Hx & F).
        exists x. split; [now right|exact F].
    + split; [|reflexivity]. intros _. exists a. split; [now left|exact E].
Qed.

Lemma with_last w ws last o :
  with_last_param {| p_command := w; p_params := ws ++ [last] |} o =
  {| p_command := w; p_params := ws ++ [o] |}.
Proof. unfold with_last_param. cbn. now rewrite removelast_last. Qed.

Lemma slice_get_last {A} (l : list A) x : slice_get (l ++ [x]) (zlen (l ++ [x]) - 1) = Ok x.
Proof.
  unfold slice_get. rewrite zlen_app, zlen_cons, zlen_nil.
  pose proof (zlen_nonneg l).
  replace (zlen l + (0 + 1) - 1)%Z with (zlen l) by lia.
  replace (zlen l <? 0)%Z with false by (symmetry; apply Z.ltb_ge; lia).
  unfold zlen. rewrite Nat2Z.id, nth_error_app2, Nat.sub_diag by lia. reflexivity.
Qed.

Definition unparsed_option (w : text) (ws : list text) (o : text) : text :=
  unparse {| p_command := w; p_params := ws ++ [o] |}.

Lemma unparsed_option_eq w ws o : unparsed_option w ws o = laid_out (w :: ws) ++ escape_spaces o ++ [32].
Proof.
  unfold unparsed_option. rewrite unparse_laid_out. cbn [p_command p_params].
  change (w :: ws ++ [o]) with ((w :: ws) ++ [o]). rewrite laid_out_app.
  f_equal. unfold laid_out. cbn [flat_map]. now rewrite app_nil_r.
Qed.

Lemma option_extends w ws last o : has_prefix o last = true ->
  exists r, o = last ++ r /\ unparsed_option w ws o = typed (w :: ws) last ++ escape_spaces r ++ [32].
Proof.
  intro H. apply has_prefix_spec in H as [r ->]. exists r. split; [reflexivity|].
  rewrite unparsed_option_eq, typed_laid_out, escape_app, <- !app_assoc. reflexivity.
Qed.

Lemma slice_from_app {A} (a b : list A) : slice_from (a ++ b) (zlen a) = Ok b.
Proof.
  unfold slice_from. rewrite zlen_app. pose proof (zlen_nonneg a). pose proof (zlen_nonneg b).
  replace (zlen a <? 0)%Z with false by (symmetry; apply Z.ltb_ge; lia).
  replace (zlen a + zlen b <? zlen a)%Z with false by (symmetry; apply Z.ltb_ge; lia).
  cbn [orb]. unfold zlen. rewrite Nat2Z.id, skipn_app, skipn_all2, Nat.sub_diag by lia. reflexivity.
Qed.

Lemma slice_from_ok {A} (l : list A) i : (0 <= i <= zlen l)%Z -> exists r, slice_from l i = Ok r.
Proof.
  intros [A0 A1]. unfold slice_from.
  replace (i <? 0)%Z with false by (symmetry; apply Z.ltb_ge; lia).
  replace (zlen l <? i)%Z with false by (symmetry; apply Z.ltb_ge; lia). cbn. eauto.
Qed.

Lemma do_complete_args reg w ws last pos :
  sound_word w -> Forall (fun p => p <> [] /\ sound_word p) ws -> typing_word last ->
  do_complete reg (typed (w :: ws) last) pos =
    match command_by_name reg w with
    | None => Ok ([], pos)
    | Some c =>
        do l <- omap (fun o => slice_from (unparsed_option w ws o) pos)
                     (filter_by_prefix (options c last (zlen ws)) last);
        Ok (l, pos)
    end.
Proof.
  intros Hw Hws HL. unfold do_complete.
  pose proof (completed_cmd w ws last Hw Hws HL) as C. cbv zeta in C. cbv zeta. rewrite C.
  cbn [p_params]. destruct (ws ++ [last]) as [|p ps] eqn:E; [destruct ws; discriminate|].
  unfold command_arg_options_with_prefix. cbn [p_command p_params]. rewrite <- E.
  destruct (command_by_name reg w) as [c|]; [|reflexivity].
  rewrite slice_get_last. cbn [obind].
  replace (zlen (ws ++ [last]) - 1)%Z with (zlen ws) by (rewrite zlen_app, zlen_cons, zlen_nil; lia).
  assert (X : forall l, omap (fun o => slice_from (unparse (with_last_param {| p_command := w; p_params := ws ++ [last] |} o)) pos) l
    = omap (fun o => slice_from (unparsed_option w ws o) pos) l).
  { induction l as [|o l IH]; [reflexivity|]. cbn [omap]. rewrite with_last, IH. reflexivity. }
  rewrite X. reflexivity.
Qed.

(* ------------------------------------------------------------------ *)
(** ** Command completion *)

Lemma parse_word w : Forall (fun c => c < 0xC0) w -> tight w -> ~ In 32 w -> ~ In 92 w ->
  parse_command w = {| p_command := w; p_params := [] |}.
Proof.
  intros H T B E.
  destruct (parse_command_reads w) as (v & vs & R & ->).
  apply reads_fun in R.
  assert (Rw : read w = map Chr w).
  { clear H T R. induction w as [|c w IH]; [reflexivity|].
    rewrite read_plain.
    - cbn [map]. f_equal. apply IH; intro; [apply B|apply E]; now right.
    - intros ->. apply E. now left.
    - intros ->. apply B. now left. }
  rewrite Rw in R. change (map Chr w) with (spelled [w]) in R.
  apply spelled_inj in R; [|discriminate|discriminate]. injection R as <- <-.
  rewrite map_delivered_id by exact H. cbn [filter map]. f_equal. now apply trim_space_tight.
Qed.

Lemma bytes_from_ascii a : Forall (fun c => c < 0x80) a -> forall b, bytes_from (a ++ b) (length a) = Ok b.
Proof.
  induction 1 as [|c a H _ IH]; intro b; [destruct b; reflexivity|].
  cbn [app length bytes_from]. replace (length (utf8_encode_rune c)) with 1%nat.
  - cbn [Nat.leb]. rewrite Nat.sub_succ, Nat.sub_0_r. apply IH.
  - unfold utf8_encode_rune. apply N.ltb_lt in H. rewrite H. reflexivity.
Qed.

Lemma encode_rune_len c : (1 <= length (utf8_encode_rune c))%nat.
Proof. pose proof (encode_rune_nonnil c). destruct (utf8_encode_rune c); [congruence|cbn; lia]. Qed.

Lemma bytes_from_total s : forall pos, (pos <= length (utf8_encode s))%nat -> exists r, bytes_from s pos = Ok r.
Proof.
  induction s as [|c s IH]; intros pos H.
  - cbn in H. replace pos with O by lia. exists []. reflexivity.
  - destruct pos as [|p]; [cbn; eauto|]. cbn [bytes_from].
    pose proof (encode_rune_len c).
    destruct (Nat.leb (length (utf8_encode_rune c)) (S p)) eqn:L; [|eauto].
    apply Nat.leb_le in L. apply IH.
    unfold utf8_encode in *. cbn [flat_map] in H. rewrite app_length in H. lia.
Qed.

Lemma utf8_len s : (length s <= length (utf8_encode s))%nat.
Proof.
  induction s as [|c s IH]; [cbn; lia|]. unfold utf8_encode in *. cbn [flat_map].
  rewrite app_length. pose proof (encode_rune_len c). cbn [length]. lia.
Qed.

Lemma do_complete_command reg w pos :
  Forall (fun c => c < 0xC0) w -> tight w -> ~ In 32 w -> ~ In 92 w ->
  do_complete reg w pos =
    (do l <- omap (fun c => runes_of_bytes_from (c ++ [32]) pos)
                  (filter_by_prefix (command_names reg) w);
     Ok (l, pos)).
Proof.
  intros H T B E. unfold do_complete. rewrite parse_word by assumption. cbn [p_command p_params].
  assert (L : (last w 0 =? 32) = false).
  { apply eqb_false. destruct w as [|c w]; [discriminate|]. apply tight_last_ne; [discriminate|exact T]. }
  rewrite L. reflexivity.
Qed.

(* ------------------------------------------------------------------ *)
(** ** Any line at all *)

Lemma bytes_from_panic s : forall pos, bytes_from s pos = Panic <-> (length (utf8_encode s) < pos)%nat.
Proof.
  induction s as [|c s IH]; intros pos; destruct pos as [|p]; cbn [bytes_from];
    try (split; [discriminate|lia]).
  - cbn. split; [lia|reflexivity].
  - assert (E : length (utf8_encode (c :: s)) = (length (utf8_encode_rune c) + length (utf8_encode s))%nat).
    { unfold utf8_encode. cbn [flat_map]. apply app_length. }
    rewrite E. destruct (Nat.leb (length (utf8_encode_rune c)) (S p)) eqn:L.
    + apply Nat.leb_le in L. rewrite IH. lia.
    + apply Nat.leb_gt in L. split; [discriminate|lia].
Qed.

Lemma runes_of_bytes_panic s pos : (0 <= pos)%Z ->
  (runes_of_bytes_from s pos = Panic <-> (zlen (utf8_encode s) < pos)%Z).
Proof.
  intro H. unfold runes_of_bytes_from. replace (pos <? 0)%Z with false by (symmetry; apply Z.ltb_ge; lia).
  rewrite bytes_from_panic. unfold zlen. lia.
Qed.

Lemma slice_from_panic {A} (l : list A) i : (0 <= i)%Z -> (slice_from l i = Panic <-> (zlen l < i)%Z).
Proof.
  intro H. unfold slice_from. replace (i <? 0)%Z with false by (symmetry; apply Z.ltb_ge; lia). cbn [orb].
  destruct (zlen l <? i)%Z eqn:E; [apply Z.ltb_lt in E|apply Z.ltb_ge in E]; split; intro; try reflexivity; try discriminate; lia.
Qed.

Lemma obind_panic {A B} (x : outcome A) (f : A -> B) : (do l <- x; Ok (f l)) = Panic <-> x = Panic.
Proof. destruct x; cbn; split; congruence. Qed.
