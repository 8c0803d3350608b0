(** C06, C07, C08: not only is there a history in which the property fails, it fails in
    every history of the kinds described here. *)
From Verif Require Import GoBase GoBaseFacts PlaylistModel PlaylistSpec PlaylistProofs PlaylistLoopProofs PlaylistProps.
From Coq Require Import ZifyBool ZifyNat ZifyN.
Local Open Scope Z_scope.

(** ** What the statements use *)
(** a song that cannot be streamed: the empty name, or a file that cannot be decoded *)
Definition unplayable (decode : song -> option (list sample)) (f : song) : Prop := f = [] \/ decode f = None.
(** the action queues no song that can be played *)
Definition queues_nothing_playable (decode : song -> option (list sample)) (a : action) : Prop :=
  match a with
  | AEdit (EAdd f) | AEdit (EInsert f _) => unplayable decode f
  | _ => True
  end.
Definition is_send (a : action) : bool := match a with ASetPosSend => true | _ => false end.
(** jump commands that came back *)
Definition jumps_returned (acts : list action) : nat := length (filter is_send acts).
(** for each announced song the number of blocks streamed before the next announcement *)
Fixpoint song_blocks (es : list event) : list nat :=
  match es with
  | [] => []
  | ENewSong _ _ _ :: r => block_count (before_first_song r) :: song_blocks r
  | _ :: r => song_blocks r
  end.

Ltac psimpl := cbn [at_pc songs position tokens pending_jumps playing playing_last current_song idx_write
  set_pc set_position set_current set_tokens set_playing set_playing_last set_songs pushed] in *.

Section Tight.
Variable decode : song -> option (list sample).
Variable nan_break : Z.
Notation pstep := (pstep decode nan_break).
Notation prun := (prun decode nan_break).

(* ================= C07 ================= *)
Definition InvStuck (s : pstate) : Prop :=
  Forall (unplayable decode) (songs s) /\
  match at_pc s with AtTop | Crashed => True | Opening f => decode f = None | _ => False end.

Lemma next_song_in l p pos f : next_song l p = Ok (pos, f) -> f <> [] -> In f l.
Proof.
  unfold next_song. destruct (zlen l =? 0); [intros [= <- <-]; congruence|].
  unfold slice_get. destruct (go_mod p (zlen l) <? 0); cbn [obind]; [discriminate|].
  destruct (nth_error l (Z.to_nat (go_mod p (zlen l)))) as [x|] eqn:E; cbn [obind]; [|discriminate].
  intros [= <- <-] _. eapply nth_error_In. exact E.
Qed.
Lemma edit_unplayable l e l' r :
  list_edit l e l' r -> queues_nothing_playable decode (AEdit e) -> Forall (unplayable decode) l ->
  Forall (unplayable decode) l'.
Proof.
  intros H Q F. destruct H as [l x|l x i l' H|i|l i x l' N H].
  - apply Forall_app. split; [exact F|apply Forall_cons; [exact Q|apply Forall_nil]].
  - destruct H as (b & a & -> & _ & ->). apply Forall_app in F as [F1 F2].
    apply Forall_app. split; [exact F1|apply Forall_cons; [exact Q|exact F2]].
  - apply Forall_nil.
  - destruct H as (b & a & -> & _ & ->). apply Forall_app in F as [F1 F2]. inversion F2; subst.
    apply Forall_app. split; assumption.
Qed.
Lemma step_stuck s a s' e :
  InvStuck s -> queues_nothing_playable decode a -> pstep s a = Some (s', e) ->
  InvStuck s' /\ tokens s' = (tokens s + if is_send a then 1 else 0)%nat /\ (is_send a = true -> (tokens s < 2)%nat).
Proof.
  intros [F Hpc] Q H. unfold InvStuck. apply pstep_stepped in H.
  destruct H; psimpl; cbn [is_send];
    try match goal with Hx : at_pc s = _ |- _ => rewrite Hx in Hpc end; try contradiction;
    try (split; [split; [assumption|try exact I; try exact Hpc]|split; [lia|congruence]]).
  - match goal with Hx : at_pc s = _ |- _ => rewrite Hx; exact I end.
  - match goal with Hn : next_song _ _ = Ok _ |- _ => pose proof (next_song_in _ _ _ _ Hn ltac:(assumption)) as Hi end.
    rewrite Forall_forall in F. destruct (F _ Hi); [congruence|assumption].
  - congruence.
  - split; [split; [|exact Hpc]|split; [lia|congruence]].
    eapply edit_unplayable; [eapply apply_edit_list_edit; eassumption|exact Q|exact F].
Qed.
Lemma run_stuck acts : forall s s' es,
  InvStuck s -> (tokens s <= 2)%nat -> Forall (queues_nothing_playable decode) acts -> prun s acts = Some (s', es) ->
  InvStuck s' /\ tokens s' = (tokens s + jumps_returned acts)%nat /\ (tokens s' <= 2)%nat.
Proof.
  induction acts as [|a acts IH]; intros s s' es HI Ht Q H; cbn [PlaylistModel.prun] in H.
  - injection H as <- <-. cbn. auto.
  - inversion Q as [|? ? Qa Qr]; subst.
    destruct (pstep s a) as [[s1 e1]|] eqn:E; [|discriminate].
    destruct (prun s1 acts) as [[s2 e2]|] eqn:E2; [|discriminate].
    injection H as <- <-. destruct (step_stuck s a s1 e1 HI Qa E) as (HI1 & Ht1 & Hb).
    assert (tokens s1 <= 2)%nat by (rewrite Ht1; destruct (is_send a); [specialize (Hb eq_refl)|]; lia).
    destruct (IH s1 s2 e2 HI1 ltac:(assumption) Qr E2) as (HI2 & Ht2 & Hb2).
    split; [exact HI2|]. split; [|exact Hb2]. rewrite Ht2, Ht1. unfold jumps_returned. cbn [filter].
    destruct (is_send a); cbn [length]; lia.
Qed.

(* ================= C06 ================= *)
Lemma song_blocks_quiet es e :
  new_songs_of e = [] -> block_count e = 0%nat -> song_blocks (es ++ e) = song_blocks es.
Proof.
  intros Hn Hb. assert (He : song_blocks e = []).
  { clear Hb. induction e as [|x e IH]; [reflexivity|]. destruct x; cbn in *; try discriminate; auto. }
  induction es as [|x es IH]; [exact He|]. cbn [app].
  destruct x; cbn [song_blocks]; rewrite IH; try reflexivity. f_equal.
  destruct (new_songs_of es) as [|y r] eqn:En.
  - rewrite (before_first_song_none (es ++ e)), (before_first_song_none es) by
      (rewrite ?new_songs_of_app, ?En, ?Hn; reflexivity).
    rewrite block_count_app, Hb. lia.
  - rewrite before_first_song_app by congruence. reflexivity.
Qed.
Lemma song_blocks_new es i f n : song_blocks (es ++ [ENewSong i f n]) = song_blocks es ++ [0%nat].
Proof.
  induction es as [|x es IH]; [reflexivity|]. cbn [app]. destruct x; cbn [song_blocks]; rewrite IH; try reflexivity.
  cbn [app]. f_equal. clear IH. f_equal.
  induction es as [|y es IH]; [reflexivity|]. cbn [app]. destruct y; cbn [before_first_song]; rewrite ?IH; reflexivity.
Qed.
Lemma song_blocks_nil es : new_songs_of es = [] -> song_blocks es = [].
Proof. induction es as [|x es IH]; [reflexivity|]. destruct x; cbn; try discriminate; auto. Qed.
Lemma song_blocks_block es b l n :
  song_blocks es = l ++ [n] -> song_blocks (es ++ [EBlock b]) = l ++ [S n].
Proof.
  revert l. induction es as [|x es IH]; intros l H; [destruct l; discriminate|].
  cbn [app]. destruct x; cbn [song_blocks] in *; try (apply IH; exact H).
  destruct (new_songs_of es) as [|y r] eqn:En.
  - rewrite song_blocks_nil in H by exact En. rewrite (song_blocks_nil (es ++ [EBlock b]))
      by (rewrite new_songs_of_app, En; reflexivity).
    destruct l as [|? [|? ?]]; cbn [app] in *; try discriminate. injection H as <-. f_equal.
    rewrite !before_first_song_none by (rewrite ?new_songs_of_app, ?En; reflexivity).
    rewrite block_count_app. cbn. lia.
  - rewrite before_first_song_app by congruence.
    destruct l as [|m l]; cbn [app] in *.
    + injection H as _ H. exfalso. clear - H En. destruct es as [|z es]; [discriminate|].
      revert H En. generalize (z :: es). clear. intros es. induction es as [|z es IH]; [discriminate|].
      destruct z; cbn; try discriminate; auto.
    + injection H as -> H. f_equal. apply IH. exact H.
Qed.

(** [t] tokens are left at the top of the loop (or will be, after the song streamed now). *)
Definition InvTok (l : list song) (p : Z) (t : nat) (s : pstate) (es : list event) : Prop :=
  let x := cyclic_song l p 0 in
  songs s = l /\ pending_jumps s = 0%nat /\ opening_ok s /\
  ((* the song that plays during the jumps *)
   (position s = p /\ tokens s = S t /\ new_songs_of es = [] /\ streaming (at_pc s) = true)
   \/
   (exists j u, (j + u = t)%nat /\ tokens s = u /\ (0 < u)%nat /\ 0 <= position s /\ position s mod zlen l = p mod zlen l /\
      match at_pc s with
      | AtTop => names_of es = repeat x j /\ song_blocks es = repeat 1%nat j
      | Opening f => f = x /\ names_of es = repeat x j /\ song_blocks es = repeat 1%nat j
      | InSong _ | TogStore _ | TogCall _ | BlockRead _ =>
          names_of es = repeat x j ++ [x] /\ song_blocks es = repeat 1%nat j ++ [0%nat]
      | Checking _ _ _ => names_of es = repeat x j ++ [x] /\ song_blocks es = repeat 1%nat j ++ [1%nat]
      | Crashed => False
      end)
   \/
   (exists e1 e2, es = e1 ++ e2 /\ names_of e1 = repeat x t /\ (exists r, song_blocks es = repeat 1%nat t ++ r) /\
      (names_of e2 = [] -> streaming (at_pc s) = false) /\ InvCyc decode l p s e2)).

Lemma repeat_snoc {A} (x : A) n : repeat x n ++ [x] = repeat x (S n).
Proof. induction n; cbn; [reflexivity|]. cbn in IHn. rewrite IHn. reflexivity. Qed.

Lemma song_blocks_grow es e m r :
  song_blocks es = repeat 1%nat m ++ r -> (length (new_songs_of es) > m \/ forall b, ~ In (EBlock b) e)%nat ->
  (length e <= 1)%nat -> exists r', song_blocks (es ++ e) = repeat 1%nat m ++ r'.
Proof.
  intros H Hc Hl. destruct e as [|x [|? ?]]; [| |cbn in Hl; lia].
  - rewrite app_nil_r. eauto.
  - destruct x as [i f n|b i|b|b].
    + rewrite song_blocks_new, H, <- app_assoc. eauto.
    + rewrite song_blocks_quiet by reflexivity. eauto.
    + destruct Hc as [Hc|Hc]; [|exfalso; apply (Hc b); left; reflexivity].
      assert (L : length (song_blocks es) = length (new_songs_of es)).
      { clear. induction es as [|x es IH]; [reflexivity|]. destruct x; cbn; rewrite ?IH; reflexivity. }
      rewrite H, app_length, repeat_length in L.
      destruct (@exists_last _ r ltac:(intros ->; cbn in L; lia)) as (r0 & k & ->).
      rewrite app_assoc in H. apply song_blocks_block with (b := b) in H. rewrite H, <- app_assoc. eauto.
    + rewrite song_blocks_quiet by reflexivity. eauto.
Qed.

Lemma step_tok l p t s es a s' e :
  l <> [] -> ~ In [] l -> 0 <= p -> decode (cyclic_song l p 0) <> None ->
  InvTok l p t s es -> quiet a -> pstep s a = Some (s', e) -> InvTok l p t s' (es ++ e).
Proof.
  intros Hne Hin Hp Hd (Hs & Hpj & Hop & HI) Hq H.
  assert (Hpl : 0 < zlen l) by (apply zlen_pos; assumption).
  assert (Hop' : opening_ok s').
  { eapply (step_idx decode nan_break (idx_write s) s []); [|exact H].
    split; [exact Hop|]. split; [unfold zlen; cbn; lia|exact I]. }
  assert (Hx : forall q, 0 <= q -> q mod zlen l = p mod zlen l ->
      next_song l q = Ok (p mod zlen l, cyclic_song l p 0)).
  { intros q Hq0 Hqm. rewrite next_song_nonneg by assumption. rewrite Hqm. f_equal. f_equal.
    apply cyclic_cong. rewrite Z.add_0_r. exact Hqm. }
  assert (Hxne : cyclic_song l p 0 <> []) by (apply cyclic_nonempty; assumption).
  unfold InvTok. destruct HI as [HI|[HI|HI]].
  - destruct HI as (Hpos & Ht & Hn & Hst). destruct Hq as [Hj He]. apply pstep_stepped in H.
    destruct H; psimpl; try discriminate;
      try match goal with Hc : at_pc s = _ |- _ => rewrite Hc in Hst end; cbn [streaming] in Hst; try discriminate; try lia;
      try (repeat (split; [assumption|]); left;
           repeat split; try assumption; rewrite ?new_songs_of_app, Hn; reflexivity).
    repeat (split; [assumption|]). right.
    destruct t as [|t].
    + right. exists (es ++ [EGap (nan_samples nan_break)]), []. rewrite app_nil_r.
      split; [reflexivity|]. split; [rewrite names_of_app; unfold names_of; rewrite Hn; reflexivity|].
      split; [cbn; eauto|]. split; [reflexivity|].
      split; [assumption|]. split; [psimpl; lia|]. split; [assumption|]. split; [psimpl; lia|]. split; [assumption|].
      exists 0%nat. split; [reflexivity|]. psimpl. rewrite Hpos. f_equal. lia.
    + left. exists 0%nat, (S t). split; [lia|]. split; [lia|]. split; [lia|]. split; [lia|]. split; [rewrite Hpos; reflexivity|].
      split; [rewrite names_of_app; unfold names_of; rewrite Hn; reflexivity|].
      rewrite song_blocks_quiet by reflexivity. apply song_blocks_nil. exact Hn.
  - destruct HI as (j & u & Hju & Ht & Hu & Hp0 & Hpos & Hpc). destruct Hq as [Hj He]. apply pstep_stepped in H.
    destruct H; psimpl; try discriminate;
      try match goal with Hc : at_pc s = _ |- _ => rewrite Hc in Hpc end; try lia.
    + rewrite Hs, Hx in * by assumption. discriminate.
    + rewrite Hs, Hx in * by assumption. congruence.
    + rewrite Hs, Hx in * by assumption. match goal with Hy : Ok _ = Ok _ |- _ => injection Hy as <- <- end.
      split; [first [exact Hs|reflexivity]|]. repeat (split; [assumption|]). right. left. exists j, u. rewrite app_nil_r.
      repeat split; try assumption; try apply Hpc; [apply Z.mod_pos_bound; lia|apply Z.mod_mod; lia].
    + destruct Hpc as (-> & _). congruence.
    + destruct Hpc as (-> & Hn & Hb). repeat (split; [assumption|]). right. left. exists j, u.
      repeat (split; [assumption|]). rewrite names_of_app, song_blocks_new, Hn, Hb.
      unfold names_of. cbn. rewrite (Hop _ ltac:(eassumption)). auto.
    + repeat (split; [assumption|]). right. left. exists j, u. rewrite app_nil_r. auto 10.
    + repeat (split; [assumption|]). right. left. exists j, u. rewrite app_nil_r. auto 10.
    + repeat (split; [assumption|]). right. left. exists j, u. rewrite app_nil_r. auto 10.
    + repeat (split; [assumption|]). right. left. exists j, u. repeat (split; [assumption|]).
      rewrite names_of_app, song_blocks_quiet by reflexivity. cbn. rewrite app_nil_r. exact Hpc.
    + repeat (split; [assumption|]). right. left. exists j, u. repeat (split; [assumption|]).
      rewrite names_of_app. destruct Hpc as (Hn & Hb). split; [cbn; rewrite app_nil_r; exact Hn|].
      apply song_blocks_block. exact Hb.
    + repeat (split; [assumption|]). right. left. exists j, u. repeat (split; [assumption|]).
      rewrite names_of_app. destruct Hpc as (Hn & Hb). split; [cbn; rewrite app_nil_r; exact Hn|].
      apply song_blocks_block. exact Hb.
    + destruct Hpc as (Hn & Hb). repeat (split; [assumption|]). right.
      rewrite repeat_snoc in Hn. rewrite repeat_snoc in Hb.
      destruct (Nat.eq_dec u 1) as [->|Hu1].
      * right. exists (es ++ [EGap (nan_samples nan_break)]), []. rewrite app_nil_r.
        split; [reflexivity|]. replace t with (S j) by lia.
        split; [rewrite names_of_app, Hn; cbn; rewrite app_nil_r; reflexivity|].
        split; [exists []; rewrite app_nil_r, song_blocks_quiet by reflexivity; exact Hb|]. split; [reflexivity|].
        split; [assumption|]. split; [psimpl; lia|]. split; [assumption|]. split; [psimpl; lia|]. split; [assumption|].
        exists 0%nat. split; [reflexivity|]. psimpl. rewrite Hpos. f_equal. lia.
      * left. exists (S j), (tokens s - 1)%nat. split; [lia|]. split; [lia|]. split; [lia|].
        repeat (split; [assumption|]). rewrite names_of_app, song_blocks_quiet, Hn, Hb by reflexivity.
        cbn. rewrite app_nil_r. auto.
    + repeat (split; [assumption|]). right. left. exists j, u. rewrite app_nil_r. auto 10.
  - destruct HI as (e1 & e2 & -> & Hn & [r Hb] & Hst & Hc).
    pose proof (step_cyc decode nan_break l p s e2 a s' e Hne Hin Hc Hq H) as Hc'.
    pose proof Hc' as (Hs' & _ & Hp' & _). repeat (split; [assumption|]). right. right.
    exists e1, (e2 ++ e). rewrite <- app_assoc. split; [reflexivity|]. split; [exact Hn|].
    split.
    + rewrite app_assoc. eapply song_blocks_grow; [exact Hb| |].
      * destruct (names_of e2) as [|y ys] eqn:E2.
        -- right. intros b Hi. specialize (Hst eq_refl). apply pstep_stepped in H.
           destruct H; cbn [In] in Hi; try (destruct Hi as [Hi|Hi]); try discriminate; try contradiction;
           match goal with Hz : at_pc s = BlockRead _ |- _ => rewrite Hz in Hst; discriminate end.
        -- left. assert (length (names_of (e1 ++ e2)) = length (new_songs_of (e1 ++ e2))) by (unfold names_of; apply map_length).
           rewrite names_of_app, app_length, Hn, repeat_length, E2 in H0. cbn in H0. lia.
      * apply pstep_stepped in H. destruct H; cbn; lia.
    + split; [|exact Hc']. rewrite names_of_app. intros Hz. apply app_eq_nil in Hz as [Hz1 Hz2]. specialize (Hst Hz1).
      apply pstep_stepped in H. destruct H; psimpl; cbn [streaming]; try reflexivity; try exact Hst;
        try (exfalso; match goal with Hy : at_pc s = _ |- _ => rewrite Hy in Hst end; discriminate).

Qed.

(* ================= C08 and the race of C06 ================= *)
(** nothing announced since; the loop is about to choose the song of number [q], or has chosen it *)
Definition InvFirst (l : list song) (q : Z) (s : pstate) (es : list event) : Prop :=
  songs s = l /\ opening_ok s /\
  match names_of es with
  | [] => match at_pc s with
          | AtTop => position s = q
          | Opening f => f = cyclic_song l q 0
          | Crashed => True
          | _ => position s + 1 = q /\ tokens s = 0%nat /\ pending_jumps s = 0%nat
          end
  | f :: _ => f = cyclic_song l q 0
  end.
Definition may_send (a : action) : Prop := is_edit a = false /\ forall p, a <> ASetPosWrite p.
Lemma step_first l q s es a s' e :
  l <> [] -> ~ In [] l -> 0 <= q -> decode (cyclic_song l q 0) <> None ->
  InvFirst l q s es -> may_send a -> pstep s a = Some (s', e) -> InvFirst l q s' (es ++ e).
Proof.
  intros Hne Hin Hq Hd (Hs & Hop & HI) [He Hw] H.
  assert (Hop' : opening_ok s').
  { eapply (step_idx decode nan_break (idx_write s) s []); [|exact H].
    split; [exact Hop|]. split; [unfold zlen; cbn; lia|exact I]. }
  assert (Hx : next_song l q = Ok (q mod zlen l, cyclic_song l q 0)) by (apply next_song_nonneg; assumption).
  assert (Hxne : cyclic_song l q 0 <> []) by (apply cyclic_nonempty; assumption).
  unfold InvFirst. rewrite names_of_app.
  destruct (names_of es) as [|f0 r0].
  - apply pstep_stepped in H. destruct H; psimpl; try discriminate;
      try match goal with Hc : at_pc s = _ |- _ => rewrite Hc in HI end; cbn [app];
      try (repeat (split; [assumption|]); exact HI);
      try (exfalso; eapply Hw; reflexivity).
    + rewrite Hs, HI, Hx in *. discriminate.
    + rewrite Hs, HI, Hx in *. congruence.
    + rewrite Hs, HI, Hx in *. match goal with Hy : Ok _ = Ok _ |- _ => injection Hy as <- <- end.
      split; [first [exact Hs|reflexivity]|]. split; [exact Hop'|]. reflexivity.
    + congruence.
    + repeat (split; [assumption|]). cbn. rewrite (Hop _ ltac:(eassumption)). exact HI.
    + destruct HI as (_ & HI & _). lia.
    + repeat (split; [assumption|]). cbn. lia.
    + repeat (split; [assumption|]). cbn. destruct (at_pc s); try exact HI; destruct HI as (_ & _ & HI); lia.
  - cbn [app]. apply pstep_stepped in H. destruct H; psimpl; try discriminate; auto.
Qed.
(** before the next song is chosen, with edits *)
Definition InvDuring (p : Z) (s : pstate) (es : list event) : Prop :=
  tokens s = 0%nat /\ pending_jumps s = 0%nat /\ names_of es = [] /\
  match at_pc s with
  | AtTop => position s = p + 1
  | Opening _ => False
  | Crashed => True
  | _ => position s = p
  end.
Lemma step_during p s es a s' e :
  InvDuring p s es -> is_jump a = false /\ is_pnext a = false -> pstep s a = Some (s', e) -> InvDuring p s' (es ++ e).
Proof.
  intros (Ht & Hpj & Hn & Hpc) [Hj Hnx] H. unfold InvDuring. rewrite names_of_app, Hn.
  apply pstep_stepped in H. destruct H; psimpl; try discriminate;
      try match goal with Hc : at_pc s = _ |- _ => rewrite Hc in Hpc end; try contradiction; try lia;
      (split; [assumption|]; split; [assumption|]; split; [reflexivity|]); try exact I; try assumption; lia.
Qed.
Lemma crashed_end s acts s' es : at_pc s = Crashed -> prun s acts = Some (s', es) -> es = [].
Proof.
  intros C H. destruct acts as [|a acts]; cbn [PlaylistModel.prun] in H; [congruence|].
  unfold PlaylistModel.pstep in H. rewrite C in H. destruct a; discriminate.
Qed.
Lemma next_by_number p s a1 a2 s1 es1 s2 es2 :
  streaming (at_pc s) = true -> position s = p -> tokens s = 0%nat -> pending_jumps s = 0%nat ->
  Forall (fun a => is_jump a = false /\ is_pnext a = false) a1 -> Forall (fun a => is_jump a = false /\ is_edit a = false) a2 ->
  prun s a1 = Some (s1, es1) -> prun s1 a2 = Some (s2, es2) ->
  songs s1 <> [] -> ~ In [] (songs s1) -> 0 <= p -> decode (cyclic_song (songs s1) (p + 1) 0) <> None ->
  match new_songs_of (es1 ++ es2) with [] => True | (_, f, _) :: _ => f = cyclic_song (songs s1) (p + 1) 0 end.
Proof.
  intros Hst Hp Ht Hpj H1 H2 R1 R2 Hne Hin Hp0 Hd.
  assert (HD : InvDuring p s1 ([] ++ es1)).
  { eapply (prun_inv decode nan_break (InvDuring p)); [| |exact H1|exact R1].
    - intros s0 es0 a s0' e0 HI Hm HH. eapply step_during; [exact HI|exact Hm|exact HH].
    - split; [exact Ht|]. split; [exact Hpj|]. split; [reflexivity|]. destruct (at_pc s); try discriminate; exact Hp. }
  destruct HD as (Ht1 & Hpj1 & Hn1 & Hpc1). cbn [app] in Hn1.
  assert (HF : InvFirst (songs s1) (p + 1) s2 (es1 ++ es2)).
  { eapply (prun_inv decode nan_break (InvFirst (songs s1) (p + 1)) may_send); [| | |exact R2].
    - intros s0 es0 a s0' e0 HI Hm HH. eapply step_first; try eassumption. lia.
    - split; [reflexivity|]. split; [intros f Hf; rewrite Hf in Hpc1; contradiction|]. rewrite Hn1.
      destruct (at_pc s1); try contradiction; try exact I; try assumption; split; try lia; auto.
    - eapply Forall_impl; [|exact H2]. intros a [Hj He]. split; [exact He|]. intros q ->. discriminate. }
  destruct HF as (_ & _ & HF). unfold names_of in HF.
  destruct (new_songs_of (es1 ++ es2)) as [|[[i f] n] r]; [exact I|exact HF].
Qed.
End Tight.

(* ================= C06 ================= *)
(** Jumps in quick succession, and jumps made while nothing was streamed: the loop comes to
    its top with [t] of them not yet used up.  Then the song jumped to is announced
    [t] times too often, and each time but the last it is broken off after one block; only
    then the playlist goes on in order. *)
Theorem C06_leftover_jumps_refuted : forall decode nan_break l p t s acts s' es,
  l <> [] -> ~ In [] l -> 0 <= p -> decode (cyclic_song l p 0) <> None ->
  songs s = l -> position s = p -> pending_jumps s = 0%nat ->
  (at_pc s = AtTop /\ tokens s = t) \/ (streaming (at_pc s) = true /\ tokens s = S t) ->
  Forall (fun a => is_jump a = false /\ is_edit a = false) acts ->
  prun decode nan_break s acts = Some (s', es) ->
  (exists m k, map (fun x => snd (fst x)) (new_songs_of es) =
     firstn m (repeat (cyclic_song l p 0) t ++ played_in_order decode l p k)) /\
  ((t < length (new_songs_of es))%nat -> firstn t (song_blocks es) = repeat 1%nat t).
Proof.
  intros decode nb l p t s acts s' es Hne Hin Hp Hd Hs Hpos Hpj Hst Hq Hr.
  assert (HI : InvTok decode l p t s' ([] ++ es)).
  { eapply (prun_inv decode nb (InvTok decode l p t) quiet); [| |exact Hq|exact Hr].
    - intros s0 es0 a s0' e0 HI Hm HH. eapply step_tok; eassumption.
    - split; [exact Hs|]. split; [exact Hpj|].
      split; [intros f Hf; destruct Hst as [[Hst _]|[Hst _]]; [congruence|rewrite Hf in Hst; discriminate]|].
      destruct Hst as [[Hst Ht]|[Hst Ht]]; [right|left; auto].
      destruct t as [|t].
      + right. exists [], []. split; [reflexivity|]. split; [reflexivity|]. split; [exists []; reflexivity|].
        split; [intros _; rewrite Hst; reflexivity|]. split; [exact Hs|]. split; [exact Ht|]. split; [exact Hpj|].
        split; [lia|]. split; [intros f Hf; congruence|].
        exists 0%nat. split; [reflexivity|]. rewrite Hst. f_equal. lia.
      + left. exists 0%nat, (S t). rewrite Hst. repeat split; try assumption; try lia. rewrite Hpos. reflexivity. }
  cbn [app] in HI. destruct HI as (_ & _ & _ & [HI|[HI|HI]]).
  - destruct HI as (_ & _ & Hn & _). rewrite Hn. split; [exists 0%nat, 0%nat; reflexivity|cbn; lia].
  - destruct HI as (j & u & Hju & Ht & Hu & _ & _ & HI). set (x := cyclic_song l p 0) in *.
    assert (HN : names_of es = repeat x j \/ names_of es = repeat x (S j)).
    { rewrite <- (repeat_snoc x j). destruct (at_pc s'); try contradiction; destruct HI as [H1 H2]; auto; left; apply H2. }
    assert (HL : (length (new_songs_of es) <= t)%nat).
    { replace (length (new_songs_of es)) with (length (names_of es)) by (unfold names_of; apply map_length).
      destruct HN as [-> | ->]; rewrite repeat_length; lia. }
    split; [|lia]. fold (names_of es).
    exists (length (names_of es)), 0%nat. rewrite app_nil_r.
    assert (HF : forall i n, (i <= n)%nat -> repeat x i = firstn i (repeat x n)).
    { clear. induction i; intros n H; [reflexivity|]. destruct n; [lia|]. cbn. rewrite (IHi n) by lia.
      reflexivity. }
    destruct HN as [-> | ->]; rewrite repeat_length; apply HF; lia.
  - destruct HI as (e1 & e2 & -> & Hn & [r Hb] & _ & Hc). destruct Hc as (_ & _ & _ & _ & _ & k & Hk & _).
    split.
    + exists (length (names_of (e1 ++ e2))), k. rewrite <- Hk, <- Hn, <- names_of_app.
      rewrite firstn_all. reflexivity.
    + intros _. rewrite Hb. rewrite firstn_app, repeat_length, Nat.sub_diag, firstn_O, app_nil_r.
      rewrite <- (repeat_length 1%nat t) at 1. apply firstn_all.
Qed.
Print Assumptions C06_leftover_jumps_refuted.

(** [long] streams, two jumps to song 5 come: [long] is broken off, song 5 mod 2 is started,
    broken off after a block, and started again. *)
Example C06_leftover_example : exists s s' es,
  streaming (at_pc s) = true /\ tokens s = 2%nat /\ songs s = [sa; long] /\ position s = 5 /\
  ex_decode (cyclic_song [sa; long] 5 0) <> None /\
  prun ex_decode 3 s [PBlock; PCheck; PNext; POpen; PCmp; PBlock; PCheck; PNext; POpen; PCmp; PBlock; PCheck;
                      PCmp; PBlock; PCheck; PNext; POpen] = Some (s', es) /\
  map (fun x => snd (fst x)) (new_songs_of es) = [long; long; sa] /\ song_blocks es = [1; 2; 0]%nat.
Proof.
  exists {| songs := [sa; long]; position := 5; tokens := 2; pending_jumps := 0; playing := true;
            playing_last := true; current_song := long; idx_write := 0; at_pc := BlockRead (repeat (1%N,2%N) 600) |}.
  eexists. eexists. split; [reflexivity|]. split; [reflexivity|]. split; [reflexivity|]. split; [reflexivity|].
  split; [vm_compute; congruence|]. split; [vm_compute; reflexivity|]. split; vm_compute; reflexivity.
Qed.

(** A jump whose target is set just before the check that ends the song: whatever the
    moment at which the jump is then signalled, the song played next is the one after the target. *)
Theorem C06_race_skips_refuted : forall decode nan_break l p r n ok s acts s' es,
  l <> [] -> ~ In [] l -> 0 <= p -> decode (cyclic_song l p 1) <> None ->
  songs s = l -> at_pc s = Checking r n ok -> ok = false \/ (n < 512)%nat ->
  tokens s = 0%nat -> pending_jumps s = 0%nat ->
  Forall (fun a => is_edit a = false /\ forall q, a <> ASetPosWrite q) acts ->
  prun decode nan_break s (ASetPosWrite p :: PCheck :: acts) = Some (s', es) ->
  match new_songs_of es with [] => True | (_, f, _) :: _ => f = cyclic_song l p 1 end.
Proof.
  intros decode nb l p r n ok s acts s' es Hne Hin Hp Hd Hs Hpc Hend Ht Hpj Hok Hr.
  change (ASetPosWrite p :: PCheck :: acts) with ([ASetPosWrite p; PCheck] ++ acts) in Hr.
  rewrite prun_app in Hr.
  destruct (prun decode nb s [ASetPosWrite p; PCheck]) as [[s1 e1]|] eqn:E1; [|discriminate].
  destruct (prun decode nb s1 acts) as [[s2 e2]|] eqn:E2; [|discriminate]. injection Hr as -> <-.
  assert (G : at_pc s1 = AtTop /\ position s1 = p + 1 /\ songs s1 = l /\ new_songs_of e1 = []).
  { cbn [PlaylistModel.prun] in E1. unfold PlaylistModel.pstep at 1 in E1. rewrite Hpc in E1.
    unfold PlaylistModel.pstep at 1 in E1. psimpl. rewrite Hpc, Ht in E1. change (0 <? 0)%nat with false in E1. cbn iota in E1.
    assert (Eb : (negb ok || (n <? streamer_buffer_size)%nat)%bool = true).
    { destruct Hend as [-> |Hl]; [reflexivity|]. unfold streamer_buffer_size.
      destruct (Nat.ltb_spec n 512); [apply orb_true_r|lia]. }
    rewrite Eb in E1. injection E1 as <- <-. psimpl. auto. }
  destruct G as (G1 & G2 & G3 & G4).
  assert (HF : InvFirst l (p + 1) s' (e1 ++ e2)).
  { eapply (prun_inv decode nb (InvFirst l (p + 1)) may_send); [| |exact Hok|exact E2].
    - intros s0 es0 a s0' e0 HI Hm HH. eapply step_first; try eassumption; [lia|].
      rewrite cyclic_shift. exact Hd.
    - split; [exact G3|]. split; [intros f Hf; congruence|]. apply names_nil in G4. rewrite G4, G1. exact G2. }
  destruct HF as (_ & _ & HF). unfold names_of in HF. rewrite cyclic_shift in HF.
  destruct (new_songs_of (e1 ++ e2)) as [|[[i f] m] r']; [exact I|exact HF].
Qed.
Print Assumptions C06_race_skips_refuted.
Example C06_race_example : exists s s' es,
  at_pc s = Checking [] 1 true /\ songs s = [sa; sb; sc] /\
  prun ex_decode 3 s [ASetPosWrite 0; PCheck; PNext; ASetPosSend; POpen] = Some (s', es) /\
  map (fun x => snd (fst x)) (new_songs_of es) = [sb].
Proof.
  exists (set_pc (new_playlist [sa; sb; sc]) (Checking [] 1 true)).
  eexists. eexists. split; [reflexivity|]. split; [reflexivity|]. split; [vm_compute; reflexivity|reflexivity].
Qed.

(* ================= C07 ================= *)
(** As long as nothing that can be played is queued, at most two jumps ever come back: the third
    and every later one keeps its control session waiting. *)
Theorem C07_two_jumps_return_refuted : forall decode nan_break l acts s es,
  Forall (unplayable decode) l -> Forall (queues_nothing_playable decode) acts ->
  prun decode nan_break (new_playlist l) acts = Some (s, es) -> (jumps_returned acts <= 2)%nat.
Proof.
  intros decode nb l acts s es Hl Hq Hr.
  destruct (run_stuck decode nb acts (new_playlist l) s es) as (_ & Ht & Hb); try assumption;
    [split; [exact Hl|exact I]|cbn; lia|]. cbn [tokens new_playlist] in Ht. lia.
Qed.
Print Assumptions C07_two_jumps_return_refuted.
(** [sx] cannot be decoded. *)
Example C07_two_jumps_example : exists s es,
  Forall (unplayable ex_decode) [sx; sx] /\
  prun ex_decode 3 (new_playlist [sx; sx])
    [PNext; ASetPosWrite 1; ASetPosSend; POpen; ASetPosWrite 0; ASetPosSend; PNext; POpen; AEdit (EAdd sx); ASetPosWrite 1; PNext]
  = Some (s, es) /\ pending_jumps s = 1%nat /\ pstep ex_decode 3 s ASetPosSend = None.
Proof.
  eexists. eexists. split; [apply Forall_cons; [right; reflexivity|apply Forall_cons; [right; reflexivity|apply Forall_nil]]|].
  split; [vm_compute; reflexivity|]. split; reflexivity.
Qed.

(* ================= C08 ================= *)
(** The song that follows is the one which has number p+1 when the song now playing ends, whatever
    edits were made in the meantime. *)
Theorem C08_next_by_number : forall decode nan_break p s a1 a2 s1 es1 s2 es2,
  streaming (at_pc s) = true -> position s = p -> tokens s = 0%nat -> pending_jumps s = 0%nat ->
  Forall (fun a => is_jump a = false /\ is_pnext a = false) a1 ->
  Forall (fun a => is_jump a = false /\ is_edit a = false) a2 ->
  prun decode nan_break s a1 = Some (s1, es1) -> prun decode nan_break s1 a2 = Some (s2, es2) ->
  songs s1 <> [] -> ~ In [] (songs s1) -> 0 <= p -> decode (cyclic_song (songs s1) (p + 1) 0) <> None ->
  match new_songs_of (es1 ++ es2) with [] => True | (_, f, _) :: _ => f = cyclic_song (songs s1) (p + 1) 0 end.
Proof. exact next_by_number. Qed.
Print Assumptions C08_next_by_number.

Lemma one_edit decode nb s a1 e a2 s2 es :
  Forall (fun a => is_jump a = false /\ is_edit a = false /\ is_pnext a = false) a1 ->
  prun decode nb s (a1 ++ AEdit e :: a2) = Some (s2, es) ->
  exists s1 es1 es2, prun decode nb s (a1 ++ [AEdit e]) = Some (s1, es1) /\ prun decode nb s1 a2 = Some (s2, es2) /\
    es = es1 ++ es2 /\ ((exists r, apply_edit (songs s) e = Ok (songs s1, r)) \/ at_pc s1 = Crashed /\ apply_edit (songs s) e = Panic).
Proof.
  intros Ha Hr. change (AEdit e :: a2) with ([AEdit e] ++ a2) in Hr. rewrite app_assoc, prun_app in Hr.
  destruct (prun decode nb s (a1 ++ [AEdit e])) as [[s1 e1]|] eqn:E1; [|discriminate].
  destruct (prun decode nb s1 a2) as [[s3 e2]|] eqn:E2; [|discriminate]. injection Hr as -> <-.
  exists s1, e1, e2. repeat (split; [auto|]).
  rewrite prun_app in E1. destruct (prun decode nb s a1) as [[s0 e0]|] eqn:E0; [|discriminate].
  assert (Hs : songs s0 = songs s).
  { pose (I := fun (s' : pstate) (_ : list event) => songs s' = songs s).
    enough (I s0 ([] ++ e0)) by assumption.
    eapply (prun_inv decode nb I); [| |exact Ha|exact E0]; [|reflexivity].
    intros s3 es3 a s3' e3 HI (Hj & He & Hn) HH. unfold I in *. apply pstep_stepped in HH.
    destruct HH; psimpl; try discriminate; assumption. }
  cbn [PlaylistModel.prun] in E1. destruct (pstep decode nb s0 (AEdit e)) as [[s3 e3]|] eqn:E3; [|discriminate].
  injection E1 as <- <-. apply pstep_stepped in E3. rewrite <- Hs.
  inversion E3; subst; psimpl; [right; auto|left; eauto].
Qed.

(** Removing the song that plays or one before it always skips a song: number p+2 follows
    instead of number p+1 (provided it is there and can be played). *)
Theorem C08_removal_skips_refuted : forall decode nan_break p i y z s a1 a2 s' es,
  0 <= i <= p -> nth_error (songs s) (Z.to_nat (p + 1)) = Some y -> nth_error (songs s) (Z.to_nat (p + 2)) = Some z ->
  ~ In [] (songs s) -> decode z <> None ->
  streaming (at_pc s) = true -> position s = p -> tokens s = 0%nat -> pending_jumps s = 0%nat ->
  Forall (fun a => is_jump a = false /\ is_edit a = false /\ is_pnext a = false) a1 ->
  Forall (fun a => is_jump a = false /\ is_edit a = false) a2 ->
  prun decode nan_break s (a1 ++ AEdit (ERemove i) :: a2) = Some (s', es) ->
  match new_songs_of es with [] => True | (_, f, _) :: _ => f = z end.
Proof.
  intros decode nb p i y z s a1 a2 s' es Hi Hy Hz Hin Hd Hst Hp Ht Hpj H1 H2 Hr.
  destruct (one_edit decode nb s a1 (ERemove i) a2 s' es H1 Hr) as (s1 & es1 & es2 & R1 & R2 & -> & HE).
  assert (Hlt : (Z.to_nat (p + 2) < length (songs s))%nat) by (apply nth_error_Some; congruence).
  destruct HE as [[r HE]|[_ HE]].
  2: { exfalso. cbn [apply_edit] in HE. destruct (remove_song_spec (songs s) i) as (l' & x & E & _);
         [intros E; rewrite E in Hlt; cbn in Hlt; lia|unfold zlen; lia|]. rewrite E in HE. discriminate. }
  apply apply_edit_list_edit in HE.
  assert (Hrm : exists x, removed_at i x (songs s) (songs s1)).
  { inversion HE as [ | |i' E1 E2 E3 E4|l i' x l' Hne Hrm E1 E2 E3 E4]; subst; [rewrite <- E1 in Hlt; cbn in Hlt; lia|].
    exists x. replace (clip i (zlen (songs s) - 1)) with i in Hrm by (unfold clip, zlen; lia). exact Hrm. }
  destruct Hrm as (x & b & a & Hl & Hb & Hl').
  assert (Hq : cyclic_song (songs s1) (p + 1) 0 = z).
  { unfold cyclic_song. rewrite Hl', Z.add_0_r.
    assert (L : zlen (songs s) = zlen b + 1 + zlen a) by (rewrite Hl, zlen_app, zlen_cons; lia).
    assert (Lz : p + 2 < zlen (songs s)) by (unfold zlen; lia).
    rewrite Z.mod_small by (rewrite zlen_app; lia).
    rewrite Hl in Hz. unfold zlen in Hb. rewrite nth_error_app2 in Hz by lia.
    replace (Z.to_nat (p + 2) - length b)%nat with (S (Z.to_nat (p + 1) - length b)) in Hz by lia. cbn [nth_error] in Hz.
    rewrite app_nth2 by lia. apply nth_error_nth. exact Hz. }
  pose proof (next_by_number decode nb p s (a1 ++ [AEdit (ERemove i)]) a2 s1 es1 s' es2) as N. rewrite Hq in N.
  apply N; try assumption; try lia.
  - apply Forall_app. split; [eapply Forall_impl; [|exact H1]; intros c (Hc1 & _ & Hc2); split; assumption|].
    apply Forall_cons; [split; reflexivity|apply Forall_nil].
  - rewrite Hl'. rewrite Hl in Hlt. rewrite app_length in Hlt. cbn [length] in Hlt. intros E.
    apply (f_equal (@length _)) in E. rewrite app_length in E. cbn in E. unfold zlen in Hb. lia.
  - rewrite Hl'. rewrite Hl in Hin. intros Hn. apply Hin. apply in_app_iff in Hn. apply in_app_iff. cbn. tauto.
Qed.
Print Assumptions C08_removal_skips_refuted.
Example C08_removal_example : exists s s' es,
  songs s = [sa; sb; sc; sa] /\ position s = 1 /\ streaming (at_pc s) = true /\
  prun ex_decode 3 s [PCmp; AEdit (ERemove 0); PBlock; PCheck; PNext; POpen] = Some (s', es) /\
  map (fun x => snd (fst x)) (new_songs_of es) = [sa].
Proof.
  exists (set_pc (set_position (set_playing (new_playlist [sa; sb; sc; sa]) true) 1) (InSong [(1%N, 2%N)])).
  eexists. eexists. split; [reflexivity|]. split; [reflexivity|]. split; [reflexivity|].
  split; [vm_compute; reflexivity|reflexivity].
Qed.

(** Inserting a song before the one that plays, or in its place, always makes the song that plays start again. *)
Theorem C08_insertion_repeats_refuted : forall decode nan_break p i f0 x s a1 a2 s' es,
  0 <= i <= p -> f0 <> [] -> nth_error (songs s) (Z.to_nat p) = Some x ->
  ~ In [] (songs s) -> decode x <> None ->
  streaming (at_pc s) = true -> position s = p -> tokens s = 0%nat -> pending_jumps s = 0%nat ->
  Forall (fun a => is_jump a = false /\ is_edit a = false /\ is_pnext a = false) a1 ->
  Forall (fun a => is_jump a = false /\ is_edit a = false) a2 ->
  prun decode nan_break s (a1 ++ AEdit (EInsert f0 i) :: a2) = Some (s', es) ->
  match new_songs_of es with [] => True | (_, f, _) :: _ => f = x end.
Proof.
  intros decode nb p i f0 x s a1 a2 s' es Hi Hf0 Hx Hin Hd Hst Hp Ht Hpj H1 H2 Hr.
  destruct (one_edit decode nb s a1 (EInsert f0 i) a2 s' es H1 Hr) as (s1 & es1 & es2 & R1 & R2 & -> & HE).
  assert (Hlt : (Z.to_nat p < length (songs s))%nat) by (apply nth_error_Some; congruence).
  destruct HE as [[r HE]|[_ HE]].
  2: { exfalso. destruct (apply_edit_spec (songs s) (EInsert f0 i)) as (l2 & r2 & E & _); [cbn; auto|]. congruence. }
  apply apply_edit_list_edit in HE.
  assert (Hins : inserted_at i f0 (songs s) (songs s1)).
  { inversion HE as [ |l y i' l' Hins E1 E2 E3 E4| | ]; subst.
    replace (clip i (zlen (songs s))) with i in Hins by (unfold clip, zlen; lia). exact Hins. }
  destruct Hins as (b & a & Hl & Hb & Hl').
  assert (Hq : cyclic_song (songs s1) (p + 1) 0 = x).
  { unfold cyclic_song. rewrite Hl', Z.add_0_r.
    assert (L : zlen (songs s) = zlen b + zlen a) by (rewrite Hl, zlen_app; lia).
    assert (Lz : p < zlen (songs s)) by (unfold zlen; lia).
    rewrite Z.mod_small by (rewrite zlen_app, zlen_cons; lia).
    rewrite Hl in Hx. unfold zlen in Hb. rewrite nth_error_app2 in Hx by lia.
    rewrite app_nth2 by lia. replace (Z.to_nat (p + 1) - length b)%nat with (S (Z.to_nat p - length b)) by lia.
    cbn [nth]. apply nth_error_nth. exact Hx. }
  pose proof (next_by_number decode nb p s (a1 ++ [AEdit (EInsert f0 i)]) a2 s1 es1 s' es2) as N. rewrite Hq in N.
  apply N; try assumption; try lia.
  - apply Forall_app. split; [eapply Forall_impl; [|exact H1]; intros c (Hc1 & _ & Hc2); split; assumption|].
    apply Forall_cons; [split; reflexivity|apply Forall_nil].
  - rewrite Hl'. destruct b; discriminate.
  - rewrite Hl'. rewrite Hl in Hin. intros Hn. apply Hin. apply in_app_iff in Hn. apply in_app_iff. cbn in Hn.
    destruct Hn as [Hn|[Hn|Hn]]; [tauto|congruence|tauto].
Qed.
Print Assumptions C08_insertion_repeats_refuted.
Example C08_insertion_example : exists s s' es,
  songs s = [sa; sb; sc] /\ position s = 1 /\ streaming (at_pc s) = true /\
  prun ex_decode 3 s [PCmp; AEdit (EInsert sc 1); PBlock; PCheck; PNext; POpen] = Some (s', es) /\
  map (fun x => snd (fst x)) (new_songs_of es) = [sb].
Proof.
  exists (set_pc (set_position (set_playing (new_playlist [sa; sb; sc]) true) 1) (InSong [(1%N, 2%N)])).
  eexists. eexists. split; [reflexivity|]. split; [reflexivity|]. split; [reflexivity|].
  split; [vm_compute; reflexivity|reflexivity].
Qed.
