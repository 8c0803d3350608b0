(** Proofs about the shell parser. *)
From Verif Require Import GoBase GoBaseFacts GoUtf8 GoUtf8Facts ParserModel ParserSpec.
Local Open Scope N_scope.

(* ------------------------------------------------------------------ *)
(** ** Reading as a function *)

Fixpoint read (l : text) : list piece :=
  match l with
  | [] => []
  | c :: r =>
      if c =? 92 then
        match r with
        | [] => [Chr 92]
        | d :: r' => if d =? 32 then Chr 32 :: read r'
                     else if d =? 92 then Chr 92 :: read r'
                     else Chr 92 :: read r
        end
      else if c =? 32 then Sep :: read r
      else Chr c :: read r
  end.

Ltac neqb := repeat match goal with
  | H : (_ =? _) = false |- _ => apply N.eqb_neq in H
  | H : (_ =? _) = true |- _ => apply N.eqb_eq in H
  end.

Lemma reads_read_aux n : forall l, (length l <= n)%nat -> reads l (read l).
Proof.
  induction n as [|n IH]; intros l Hl.
  - destruct l; [constructor|cbn in Hl; lia].
  - destruct l as [|c r]; [constructor|]. cbn in Hl. cbn [read].
    destruct (c =? 92) eqn:E; [neqb; subst c|].
    + destruct r as [|d r']; [apply R_esc_last|].
      destruct (d =? 32) eqn:E1; [neqb; subst d; apply R_esc_blank, IH; cbn in Hl; lia|].
      destruct (d =? 92) eqn:E2; [neqb; subst d; apply R_esc_esc, IH; cbn in Hl; lia|].
      neqb. apply R_esc_other; auto. apply IH. lia.
    + destruct (c =? 32) eqn:E1; neqb; [subst c; apply R_sep|apply R_plain; auto]; apply IH; lia.
Qed.

Lemma reads_read l : reads l (read l).
Proof. exact (reads_read_aux (length l) l (le_n _)). Qed.

Lemma eqb_false a b : a <> b -> (a =? b) = false.
Proof. apply N.eqb_neq. Qed.

Lemma reads_fun l ps : reads l ps -> read l = ps.
Proof.
  induction 1; unfold backslash, blank in *; try reflexivity.
  - cbn. now rewrite IHreads.
  - cbn. now rewrite IHreads.
  - change (read (92 :: c :: l)) with
      (if c =? 32 then Chr 32 :: read l else if c =? 92 then Chr 92 :: read l else Chr 92 :: read (c :: l)).
    rewrite (eqb_false c 32), (eqb_false c 92) by assumption. now rewrite IHreads.
  - cbn. now rewrite IHreads.
  - cbn [read]. rewrite (eqb_false c 32), (eqb_false c 92) by assumption. now rewrite IHreads.
Qed.

Theorem reads_total l : exists ps, reads l ps.
Proof. exists (read l). apply reads_read. Qed.

Theorem reads_unique l ps ps' : reads l ps -> reads l ps' -> ps = ps'.
Proof. intros A B. apply reads_fun in A, B. congruence. Qed.

(* ------------------------------------------------------------------ *)
(** ** Words *)

Lemma spelled_cons w ws : ws <> [] -> spelled (w :: ws) = map Chr w ++ Sep :: spelled ws.
Proof. destruct ws; [congruence|reflexivity]. Qed.

Lemma chr_inj w : forall v r r', map Chr w ++ Sep :: r = map Chr v ++ Sep :: r' -> w = v /\ r = r'.
Proof.
  induction w as [|c w IH]; intros [|d v] r r' H; cbn in H; try discriminate.
  - injection H as H. auto.
  - injection H as H1 H2. subst. apply IH in H2 as [-> ->]. auto.
Qed.

Lemma chr_nosep w v r : map Chr w ++ Sep :: r <> map Chr v.
Proof.
  revert v. induction w as [|c w IH]; intros [|d v] H; cbn in H; try discriminate.
  injection H as _ H. now apply IH in H.
Qed.

Lemma map_chr_inj w v : map Chr w = map Chr v -> w = v.
Proof.
  revert v. induction w as [|c w IH]; intros [|d v] H; cbn in H; try discriminate; auto.
  injection H as -> H. f_equal. auto.
Qed.

Lemma spelled_inj ws : forall vs, ws <> [] -> vs <> [] -> spelled ws = spelled vs -> ws = vs.
Proof.
  induction ws as [|w ws IH]; intros vs Hw Hv H; [congruence|].
  destruct vs as [|v vs]; [congruence|].
  destruct ws as [|w' ws], vs as [|v' vs].
  - cbn in H. f_equal. now apply map_chr_inj.
  - rewrite (spelled_cons v) in H by discriminate. symmetry in H. now apply chr_nosep in H.
  - rewrite (spelled_cons w) in H by discriminate. now apply chr_nosep in H.
  - rewrite !spelled_cons in H by discriminate.
    apply chr_inj in H as [-> H]. f_equal. apply IH; auto; discriminate.
Qed.

(* ------------------------------------------------------------------ *)
(** ** The listener *)

(** the character that arrives for the character [c] *)
Definition delivered (c : N) : N := last (utf8_encode_rune c) 0.

Lemma delivered_small c : c < 0xC0 -> delivered c = c.
Proof.
  intro H. unfold delivered, utf8_encode_rune.
  destruct (c <? 0x80) eqn:E; [reflexivity|].
  apply N.ltb_ge in E. replace (c <? 0x800) with true by (symmetry; apply N.ltb_lt; lia).
  cbn [last]. assert (c / 64 = 2) by (symmetry; apply (N.div_unique c 64 2 (c - 128)); lia).
  pose proof (N.div_mod c 64). lia.
Qed.

Lemma delivered_bound c : delivered c < 0xC0 \/ delivered c = c /\ c < 0x80.
Proof.
  unfold delivered, utf8_encode_rune.
  assert (c mod 64 < 64) by (apply N.mod_lt; lia).
  destruct (c <? 0x80) eqn:E; [right; apply N.ltb_lt in E; auto|left].
  destruct (c <? 0x800); [cbn [last]; lia|].
  destruct (c <? 0x10000); cbn [last]; lia.
Qed.

Lemma delivered_lt c : delivered c < 0xC0.
Proof. destruct (delivered_bound c) as [|[]]; lia. Qed.

Lemma delivered_iff c : delivered c = c <-> c < 0xC0.
Proof.
  split; [|apply delivered_small]. intro H. pose proof (delivered_lt c). lia.
Qed.

Lemma delivered_large c : 0x80 <= c -> 0x80 <= delivered c.
Proof.
  intro H. unfold delivered, utf8_encode_rune.
  replace (c <? 0x80) with false by (symmetry; apply N.ltb_ge; lia).
  destruct (c <? 0x800); [cbn [last]; lia|].
  destruct (c <? 0x10000); cbn [last]; lia.
Qed.

Lemma encode_rune_nonnil c : utf8_encode_rune c <> [].
Proof. unfold utf8_encode_rune. repeat destruct (_ <? _); discriminate. Qed.

Lemma rev_last {A} (l : list A) d : l <> [] -> exists r, rev l = last l d :: r.
Proof.
  intro H. destruct (exists_last H) as (l' & a & ->). exists (rev l').
  rewrite rev_app_distr, last_last. reflexivity.
Qed.

Lemma exit_character_one cur c :
  exit_character cur [lex_rune c] = cur ++ [delivered c].
Proof.
  unfold exit_character. cbn [map utf8_encode flat_map]. rewrite app_nil_r.
  replace (tok_rune (lex_rune c)) with c.
  - destruct (rev_last (utf8_encode_rune c) 0 (encode_rune_nonnil c)) as [r ->]. reflexivity.
  - unfold lex_rune. destruct (c =? 92) eqn:E; [neqb; now subst|].
    destruct (c =? 32) eqn:E1; [neqb; now subst|reflexivity].
Qed.

Lemma exit_character_app cur chr : exists x,
  exit_character cur chr = cur ++ x /\ exit_character [] chr = x.
Proof.
  unfold exit_character. destruct (rev (utf8_encode (map tok_rune chr))) as [|b r].
  - exists []. now rewrite app_nil_r.
  - exists [b]. auto.
Qed.

Lemma command_string_app cs : forall cur,
  fold_left exit_character cs cur = cur ++ command_string cs.
Proof.
  unfold command_string.
  induction cs as [|c cs IH]; intro cur; cbn [fold_left]; [now rewrite app_nil_r|].
  destruct (exit_character_app cur c) as (x & -> & Hx).
  rewrite Hx. rewrite (IH (cur ++ x)), (IH x). now rewrite app_assoc.
Qed.

Lemma command_string_cons c cs :
  command_string (c :: cs) = exit_character [] c ++ command_string cs.
Proof. unfold command_string at 1. cbn [fold_left]. apply command_string_app. Qed.

(* ------------------------------------------------------------------ *)
(** ** The parser *)

Lemma lex_rune_esc : lex_rune 92 = ESC. Proof. reflexivity. Qed.
Lemma lex_rune_space : lex_rune 32 = SPACE. Proof. reflexivity. Qed.
Lemma lex_rune_normal c : c <> 92 -> c <> 32 -> lex_rune c = NORMAL c.
Proof. intros A B. unfold lex_rune. now rewrite (eqb_false c 92), (eqb_false c 32). Qed.

Lemma raw_string_reads n : forall l, (length l <= n)%nat ->
  exists cs l' w, raw_string (map lex_rune l) = (cs, map lex_rune l') /\
    command_string cs = map delivered w /\
    ((l' = [] /\ read l = map Chr w) \/
     (exists l'', l' = 32 :: l'' /\ read l = map Chr w ++ Sep :: read l'' /\
        (length l'' < length l)%nat)).
Proof.
  induction n as [|n IH]; intros l Hl.
  - destruct l; [|cbn in Hl; lia]. exists [], [], []. cbn. auto.
  - destruct l as [|c r]; [exists [], [], []; cbn; auto|]. cbn in Hl.
    assert (P : forall x, exit_character [] [lex_rune x] = [delivered x])
      by (intro; apply exit_character_one).
    destruct (N.eq_dec c 92) as [->|Hc].
    + destruct r as [|d r'].
      { exists [[ESC]], [], [92]. split; [reflexivity|]. split; [reflexivity|]. left. auto. }
      destruct (N.eq_dec d 32) as [->|H32]; [|destruct (N.eq_dec d 92) as [->|H92]].
      * destruct (IH r') as (cs & l' & w & E & C & D); [cbn in Hl; lia|].
        exists ([ESC; SPACE] :: cs), l', (32 :: w). cbn [map]. rewrite lex_rune_esc, lex_rune_space.
        cbn [raw_string]. rewrite E. split; [reflexivity|]. split.
        -- rewrite command_string_cons, C. reflexivity.
        -- cbn [read]. change (92 =? 92) with true. change (32 =? 32) with true. cbv iota.
           destruct D as [[-> ->]|(l'' & -> & -> & L)]; [left; auto|right].
           exists l''. split; [auto|]. split; [reflexivity|cbn; lia].
      * destruct (IH r') as (cs & l' & w & E & C & D); [cbn in Hl; lia|].
        exists ([ESC; ESC] :: cs), l', (92 :: w). cbn [map]. rewrite lex_rune_esc.
        cbn [raw_string]. rewrite E. split; [reflexivity|]. split.
        -- rewrite command_string_cons, C. reflexivity.
        -- cbn [read]. change (92 =? 92) with true. change (92 =? 32) with false. cbv iota.
           destruct D as [[-> ->]|(l'' & -> & -> & L)]; [left; auto|right].
           exists l''. split; [auto|]. split; [reflexivity|cbn; lia].
      * destruct (IH (d :: r')) as (cs & l' & w & E & C & D); [cbn in Hl |- *; lia|].
        exists ([ESC] :: cs), l', (92 :: w). cbn [map] in *. rewrite lex_rune_esc.
        rewrite lex_rune_normal in * by assumption.
        split; [|split].
        -- change (raw_string (ESC :: NORMAL d :: map lex_rune r'))
             with (let '(cs0, rest) := raw_string (NORMAL d :: map lex_rune r') in ([ESC] :: cs0, rest)).
           rewrite E. reflexivity.
        -- rewrite command_string_cons, C. reflexivity.
        -- change (read (92 :: d :: r')) with
             (if d =? 32 then Chr 32 :: read r' else if d =? 92 then Chr 92 :: read r' else Chr 92 :: read (d :: r')).
           rewrite (eqb_false d 32), (eqb_false d 92) by assumption.
           destruct D as [[-> ->]|(l'' & -> & -> & L)]; [left; auto|right].
           exists l''. split; [auto|]. split; [reflexivity|cbn in *; lia].
    + destruct (N.eq_dec c 32) as [->|H32].
      * exists [], (32 :: r), []. split; [reflexivity|]. split; [reflexivity|].
        right. exists r. split; [reflexivity|]. split; [reflexivity|cbn; lia].
      * destruct (IH r) as (cs & l' & w & E & C & D); [lia|].
        exists ([NORMAL c] :: cs), l', (c :: w). cbn [map]. rewrite lex_rune_normal by assumption.
        cbn [raw_string]. rewrite E. split; [reflexivity|]. split.
        -- rewrite command_string_cons, C. rewrite <- (lex_rune_normal c) by assumption.
           rewrite P. reflexivity.
        -- cbn [read]. rewrite (eqb_false c 92), (eqb_false c 32) by assumption.
           destruct D as [[-> ->]|(l'' & -> & -> & L)]; [left; auto|right].
           exists l''. split; [auto|]. split; [reflexivity|cbn; lia].
Qed.

Lemma parameters_loop_reads fuel : forall l, (length l < fuel)%nat ->
  exists ws, ws <> [] /\ read l = spelled ws /\
    map command_string (parameters_loop fuel (SPACE :: map lex_rune l)) = map (map delivered) ws.
Proof.
  induction fuel as [|f IH]; intros l Hl; [lia|].
  cbn [parameters_loop].
  destruct (raw_string_reads (length l) l (le_n _)) as (cs & l' & w & E & C & D).
  rewrite E. cbn [map]. rewrite C.
  destruct D as [[-> R]|(l'' & -> & R & L)].
  - exists [w]. cbn [map]. split; [discriminate|]. split; [exact R|].
    destruct f; reflexivity.
  - destruct (IH l'') as (ws & N & RS & M); [lia|].
    exists (w :: ws). split; [discriminate|]. split.
    + rewrite spelled_cons by exact N. rewrite R, RS. reflexivity.
    + cbn [map]. f_equal. exact M.
Qed.

Lemma fold_exit_parameter ps : forall c,
  fold_left (fun c p => exit_parameter c (command_string p)) ps c =
  {| p_command := p_command c;
     p_params := p_params c ++ filter nonempty (map command_string ps) |}.
Proof.
  induction ps as [|p ps IH]; intros [c q]; cbn [fold_left map filter].
  - now rewrite app_nil_r.
  - rewrite IH. unfold exit_parameter. destruct (command_string p) as [|x s]; cbn [nonempty p_command p_params].
    + reflexivity.
    + rewrite <- app_assoc. reflexivity.
Qed.

(** What the parser does with any line whatsoever. *)
Theorem parse_command_reads l : exists w ws,
  reads l (spelled (w :: ws)) /\
  parse_command l =
    {| p_command := trim_space (map delivered w);
       p_params := map trim_space (map (map delivered) (filter nonempty ws)) |}.
Proof.
  unfold parse_command, parse_line, walk.
  destruct (raw_string_reads (length l) l (le_n _)) as (cs & l' & w & E & C & D).
  rewrite E. cbn [t_command t_parameters]. rewrite map_length.
  rewrite fold_exit_parameter. unfold exit_command. cbn [p_command p_params app].
  unfold exit_line. cbn [p_command p_params]. rewrite C.
  assert (F : forall vs : list text, filter nonempty (map (map delivered) vs) = map (map delivered) (filter nonempty vs)).
  { induction vs as [|v vs IH]; [reflexivity|]. cbn [map filter].
    destruct v; cbn [map nonempty]; [exact IH|cbn [map]; now rewrite IH]. }
  destruct D as [[-> R]|(l'' & -> & R & L)].
  - exists w, []. split.
    + cbn [spelled]. rewrite <- R. apply reads_read.
    + cbn [map]. destruct (length l); reflexivity.
  - destruct (parameters_loop_reads (length l) l'' L) as (ws & N & RS & M).
    exists w, ws. split.
    + rewrite spelled_cons by exact N. rewrite <- RS, <- R. apply reads_read.
    + cbn [map]. rewrite lex_rune_space, M, F. reflexivity.
Qed.

(* ------------------------------------------------------------------ *)
(** ** Trimming *)

Lemma is_space_white c : is_space c = true <-> white c.
Proof.
  unfold is_space, white, between.
  rewrite !Bool.orb_true_iff, !Bool.andb_true_iff, !N.leb_le, !N.eqb_eq. intuition lia.
Qed.

Lemma is_space_not_white c : is_space c = false <-> ~ white c.
Proof. rewrite <- is_space_white. destruct (is_space c); split; congruence. Qed.

Lemma trim_left_spec t : exists a, t = a ++ trim_left t /\ Forall white a /\
  (forall c r, trim_left t = c :: r -> ~ white c).
Proof.
  induction t as [|c t (a & E & F & H)]; cbn [trim_left].
  - exists []. split; [reflexivity|]. split; [constructor|]. discriminate.
  - destruct (is_space c) eqn:S.
    + exists (c :: a). split; [cbn; congruence|]. split; [|exact H].
      constructor; [now apply is_space_white|exact F].
    + exists []. split; [reflexivity|]. split; [constructor|].
      intros d r [= <- <-]. now apply is_space_not_white.
Qed.

Lemma trim_space_trimmed w : trimmed w (trim_space w).
Proof.
  unfold trim_space.
  destruct (trim_left_spec w) as (a & E & F & H).
  destruct (trim_left_spec (rev (trim_left w))) as (b & E' & F' & H').
  set (v := trim_left (rev (trim_left w))) in *.
  assert (V : trim_left w = rev v ++ rev b).
  { rewrite <- (rev_involutive (trim_left w)), E', rev_app_distr. reflexivity. }
  split; [split|].
  - intros c r Hc. apply (H c (r ++ rev b)). rewrite V, Hc. reflexivity.
  - intros c r Hc. apply (H' c (rev r)).
    rewrite <- (rev_involutive v), Hc, rev_app_distr. reflexivity.
  - exists a, (rev b). split; [rewrite <- V; exact E|]. split; [exact F|].
    now apply Forall_rev.
Qed.

Lemma forall_white_split a : Forall white a -> forall b v v' : text, a ++ v = b ++ v' ->
  Forall white b -> (forall c r, v = c :: r -> ~ white c) -> (forall c r, v' = c :: r -> ~ white c) ->
  (forall c, In c v -> True) -> a = b /\ v = v'.
Proof.
  intros Ha. induction Ha as [|x a Hx Ha IH]; intros b v v' E Hb Hv Hv' _.
  - destruct Hb as [|y b Hy Hb]; [auto|]. cbn in E. exfalso. exact (Hv _ _ E Hy).
  - destruct Hb as [|y b Hy Hb]; cbn in E.
    + exfalso. exact (Hv' x (a ++ v) (eq_sym E) Hx).
    + injection E as -> E. destruct (IH b v v' E Hb Hv Hv') as [-> ->]; auto.
Qed.

Lemma trimmed_unique w v v' : trimmed w v -> trimmed w v' -> v = v'.
Proof.
  intros [[T1 T2] (a & b & E & Fa & Fb)] [[T1' T2'] (a' & b' & E' & Fa' & Fb')].
  rewrite E' in E.
  destruct v as [|c v].
  - destruct v' as [|c' v']; [reflexivity|exfalso].
    assert (Forall white (a' ++ (c' :: v') ++ b')) by (rewrite E; apply Forall_app; auto).
    apply Forall_app in H as [_ H]. inversion H. now apply (T1' c' v').
  - destruct v' as [|c' v'].
    { exfalso. assert (H : Forall white (a ++ (c :: v) ++ b)) by (rewrite <- E; apply Forall_app; auto).
      apply Forall_app in H as [_ H]. inversion H. now apply (T1 c v). }
    destruct (forall_white_split a' Fa' a ((c' :: v') ++ b') ((c :: v) ++ b) E Fa) as [_ E2]; auto.
    { intros d r [= -> _]. now apply (T1' d v'). }
    { intros d r [= -> _]. now apply (T1 d v). }
    assert (R : rev b' ++ rev (c' :: v') = rev b ++ rev (c :: v)) by (rewrite <- !rev_app_distr; now f_equal).
    destruct (forall_white_split (rev b') (Forall_rev Fb') (rev b) (rev (c' :: v')) (rev (c :: v)) R (Forall_rev Fb))
      as [_ E3]; auto.
    { intros d r Hd. apply (T2' d (rev r)). rewrite <- (rev_involutive (c' :: v')), Hd. reflexivity. }
    { intros d r Hd. apply (T2 d (rev r)). rewrite <- (rev_involutive (c :: v)), Hd. reflexivity. }
    rewrite <- (rev_involutive (c :: v)), <- E3. now rewrite rev_involutive.
Qed.

Lemma tight_trimmed w : tight w -> trimmed w w.
Proof.
  intro T. split; [exact T|]. exists [], []. rewrite app_nil_r. auto.
Qed.

Lemma trim_space_tight w : tight w <-> trim_space w = w.
Proof.
  split; intro H.
  - apply (trimmed_unique w); [apply trim_space_trimmed|now apply tight_trimmed].
  - rewrite <- H. apply (trim_space_trimmed w).
Qed.

Lemma trimmed_trim_space w v : trimmed w v -> v = trim_space w.
Proof. intro H. exact (trimmed_unique w _ _ H (trim_space_trimmed w)). Qed.
