From Verif Require Import GoBase GoBaseFacts GoUtf8 GoFmt PlaylistModel PlaylistSpec PlaylistProofs PlaylistLoopProofs.
From Verif Require Import NumberSpec ParserModel ParserSpec ParserProofs ParserUnparseProofs CommandsModel CommandsSpec CommandsProofs CliProps.
From Verif Require Import ShellTextSpec.
Local Open Scope N_scope.

(** ** Plain texts *)

Definition plainb (t : text) : bool := forallb (fun c => (31 <? c) && ((c <? 127) || (159 <? c)))%bool t.

Lemma plainb_plain t : plainb t = true -> plain t.
Proof.
  intro H. unfold plainb in H. rewrite forallb_forall in H. apply Forall_forall. intros c Hc.
  specialize (H c Hc). apply andb_true_iff in H as [H1 H2]. apply orb_true_iff in H2.
  apply N.ltb_lt in H1. rewrite !N.ltb_lt in H2. unfold control. lia.
Qed.

Lemma plain_app a b : plain a -> plain b -> plain (a ++ b).
Proof. intros. apply Forall_app. now split. Qed.

Lemma plain_cons c t : plainb [c] = true -> plain t -> plain (c :: t).
Proof. intros H K. apply (plain_app [c] t); [now apply plainb_plain|exact K]. Qed.

Lemma lines_cons c t : plainb [c] = true \/ c = 10 -> plain_lines t -> plain_lines (c :: t).
Proof.
  intros [H| ->] K; apply Forall_cons; auto. right. apply plainb_plain in H.
  now apply Forall_cons_iff in H.
Qed.

Lemma plain_is_lines t : plain t -> plain_lines t.
Proof. apply Forall_impl. intros; now right. Qed.

Lemma lines_app a b : plain_lines a -> plain_lines b -> plain_lines (a ++ b).
Proof. intros. apply Forall_app. now split. Qed.

Lemma lines_newline : plain_lines [10].
Proof. apply Forall_cons; [now left|apply Forall_nil]. Qed.

Lemma plain_itoa z : plain (itoa z).
Proof.
  apply Forall_forall. intros c Hc. apply itoa_chars in Hc. unfold control.
  destruct Hc as [->|Hc]; [lia|]. unfold decimal_digit in Hc. lia.
Qed.

Lemma plain_repeat c n : ~ control c -> plain (repeat c n).
Proof. intro H. apply Forall_forall. intros x Hx. apply repeat_spec in Hx. now subst. Qed.

Lemma plain_itoa0 w z : plain (itoa0 w z).
Proof. apply plain_app; [apply plain_repeat; unfold control; lia|apply plain_itoa]. Qed.

Lemma plain_join_lines sep l : plain_lines sep -> Forall plain_lines l -> plain_lines (join sep l).
Proof.
  intros Hs. induction l as [|x l IH]; intro F; [apply Forall_nil|].
  apply Forall_cons_iff in F as [F1 F2]. destruct l as [|y l]; [exact F1|].
  change (join sep (x :: y :: l)) with (x ++ sep ++ join sep (y :: l)).
  apply lines_app; [exact F1|apply lines_app; [exact Hs|now apply IH]].
Qed.

Lemma plain_all_lines l : Forall plain l -> Forall plain_lines l.
Proof. apply Forall_impl. exact plain_is_lines. Qed.

(** ** What arrives of a line *)

Lemma delivered_harmless c : harmless c <-> ~ control c /\ ~ control (delivered c).
Proof.
  unfold harmless. destruct (N.lt_ge_cases c 0xC0) as [L|L].
  - rewrite delivered_small by exact L. tauto.
  - assert (E : delivered c = 128 + c mod 64).
    { unfold delivered, utf8_encode_rune.
      replace (c <? 0x80) with false by (symmetry; apply N.ltb_ge; lia).
      destruct (c <? 0x800); [reflexivity|]. destruct (c <? 0x10000); reflexivity. }
    rewrite E. assert (c mod 64 < 64) by (apply N.mod_lt; lia).
    unfold control. split; intros [A B]; (split; [exact A|]).
    + destruct B as [B|B]; [lia|]. lia.
    + right. lia.
Qed.

Lemma reads_chars l ps : reads l ps -> forall P : N -> Prop, Forall P l -> Forall P (chars ps).
Proof.
  induction 1; intros P F; cbn in *;
    repeat match goal with H : Forall _ (_ :: _) |- _ => inversion H; clear H; subst end; auto.
Qed.

Lemma plain_trim w : plain w -> plain (trim_space w).
Proof.
  intro H. destruct (trim_space_trimmed w) as (_ & a & b & E & _). rewrite E in H.
  apply Forall_app in H as [_ H]. apply Forall_app in H as [H _]. exact H.
Qed.

Lemma parse_plain line : Forall harmless line ->
  plain (p_command (parse_command line)) /\ Forall plain (p_params (parse_command line)).
Proof.
  intro H. destruct (parse_command_reads line) as (w & ws & R & ->). cbn [p_command p_params].
  pose proof (reads_chars _ _ R _ H) as G. rewrite chars_spelled in G.
  assert (K : forall v, In v (w :: ws) -> plain (map delivered v)).
  { intros v Hv. apply Forall_forall. intros c Hc. apply in_map_iff in Hc as (d & <- & Hd).
    rewrite Forall_forall in G. assert (I : harmless d) by (apply G, in_concat; eauto).
    apply delivered_harmless in I. apply I. }
  split; [apply plain_trim, K; now left|].
  apply Forall_forall. intros v Hv. apply in_map_iff in Hv as (u & <- & Hu).
  apply in_map_iff in Hu as (x & <- & Hx). apply filter_In in Hx as [Hx _].
  apply plain_trim, K. now right.
Qed.

(** ** The commands *)

Lemma ok_inj {A} (x y : A) : Ok x = Ok y -> y = x.
Proof. now intros [= ->]. Qed.
Lemma pair2 {A B} (a a' : A) (b b' : B) : (a, b) = (a', b') -> a = a' /\ b = b'.
Proof. now intros [= -> ->]. Qed.
Lemma pair3 {A B C} (a a' : A) (b b' : B) (c c' : C) : (a, b, c) = (a', b', c') -> a = a' /\ b = b' /\ c = c'.
Proof. now intros [= -> -> ->]. Qed.

Definition plain_state (st : cstate) : Prop := Forall plain (st_songs st) /\ plain (st_current st).
Definition plain_doc (d : cmd_doc) : Prop := plain (d_name d) /\ plain (d_usage d) /\ plain (d_info d).

Lemma insert_each_plain l : forall songs pos i r, Forall plain songs -> Forall plain l ->
  insert_each songs l pos i = Ok r -> Forall plain r.
Proof.
  induction l as [|s l IH]; intros songs pos i r Fs Fl E.
  - injection E as <-. exact Fs.
  - apply Forall_cons_iff in Fl as [F1 F2].
    cbn [insert_each] in E.
    destruct (insert_song_spec songs s (wrap64 (pos + i))) as (l' & E' & (b & a & -> & _ & ->)).
    rewrite E' in E. cbn [obind] in E. eapply IH; [|exact F2|exact E].
    apply Forall_app in Fs as [A B]. apply Forall_app. split; [exact A|now apply Forall_cons].
Qed.

Lemma remove_song_plain songs pos l x : Forall plain songs -> remove_song songs pos = Ok (l, x) ->
  Forall plain l /\ plain x.
Proof.
  intros F E.
  assert (A : apply_edit songs (ERemove pos) = Ok (l, Some x)) by (cbn [apply_edit]; now rewrite E).
  apply apply_edit_list_edit in A. inversion A as [| |i|l0 i x0 l1 Hn R]; subst.
  - split; [apply Forall_nil|apply Forall_nil].
  - destruct R as (b & a & -> & _ & ->). apply Forall_app in F as [F1 F2].
    apply Forall_cons_iff in F2 as [F2 F3]. split; [now apply Forall_app|exact F2].
Qed.

Lemma in_rev_find (P : cmd_doc -> bool) l c : find P (rev l) = Some c -> In c l.
Proof. intro H. apply find_some in H as [H _]. now apply in_rev. Qed.

Lemma doc_usage_plain d : plain_doc d -> plain (doc_usage d).
Proof.
  intros (Hn & Hu & Hi). unfold doc_usage. destruct (d_usage d) as [|c u].
  - apply plain_app; [now apply plainb_plain|]. apply plain_app; [exact Hn|now apply plainb_plain].
  - apply plain_app; [now apply plainb_plain|]. apply plain_app; [exact Hn|].
    apply plain_app; [now apply plainb_plain|exact Hu].
Qed.

Section Commands.
Variable glob : text -> text + list text.
Variable parse_float : text -> option f64.
Variable fmt_3f : f64 -> text.
Variable send_volume : f64 -> option text.
Variable all_files : text -> list text.
Hypothesis Hg : forall p, match glob p with inl e => plain e | inr fs => Forall plain fs end.
Hypothesis Hf : forall v, plain (fmt_3f v).
Hypothesis Hs : forall v e, send_volume v = Some e -> plain e.
Hypothesis Ha : forall d, Forall plain (all_files d).

Lemma filter_songs_plain l : Forall plain l -> Forall plain (filter_songs l).
Proof. intro F. rewrite Forall_forall in *. intros x Hx. apply filter_In in Hx as [Hx _]. auto. Qed.

Ltac pl := repeat first
  [ assumption | apply plain_itoa | apply plain_itoa0
  | (apply plainb_plain; vm_compute; reflexivity) | (apply plain_cons; [vm_compute; reflexivity|]) | apply plain_app ].

Lemma arg_plain args n a : Forall plain args -> nth_error args n = Some a -> plain a.
Proof. intros F E. rewrite Forall_forall in F. apply F. eapply nth_error_In; eauto. Qed.

Definition good (r : cresult) : Prop := plain_lines (fst (fst r)) /\ plain_state (snd r).

Lemma queue_plain args st r : Forall plain args -> plain_state st ->
  queue_exec glob args st = Ok r -> good r.
Proof.
  intros Fa Fs E. unfold queue_exec, parse_string_param in E.
  destruct (nth_error args 0) as [p|] eqn:Ep; [|apply ok_inj in E; subst r; split; [apply Forall_nil|exact Fs]].
  pose proof (arg_plain _ _ _ Fa Ep) as Hp. specialize (Hg p). destruct (glob p) as [e|fs].
  - apply ok_inj in E; subst r. split; [apply plain_is_lines; cbn [fst]; pl|exact Fs].
  - pose proof (filter_songs_plain fs Hg) as Hfs.
    destruct (filter_songs fs) as [|x found] eqn:Ef.
    + apply ok_inj in E; subst r. split; [apply plain_is_lines; cbn [fst]; pl|exact Fs].
    + match type of E with (obind ?a _ = _) => destruct a as [songs'|] eqn:Es end; try discriminate.
      cbn [obind] in E. apply ok_inj in E; subst r. split; cbn [fst snd].
      * apply lines_app; [apply plain_is_lines; pl|].
        apply lines_app; [apply plain_is_lines; pl|].
        apply plain_join_lines; [apply plain_is_lines; pl|now apply plain_all_lines].
      * destruct Fs as [F1 F2]. split; [|exact F2]. cbn [with_songs st_songs].
        destruct (parse_int_param args 1) as [pos|].
        -- eapply insert_each_plain; [exact F1| |exact Es]. exact Hfs.
        -- injection Es as <-. change (fold_left add_song found (add_song (st_songs st) x)) with
             (fold_left add_song (x :: found) (st_songs st)).
           rewrite fold_add_song. now apply Forall_app.
Qed.

Lemma entries_plain w l : forall i, Forall plain l -> Forall plain (playlist_entries w i l).
Proof.
  induction l as [|s l IH]; intros i F; [apply Forall_nil|]. apply Forall_cons_iff in F as [F1 F2].
  cbn [playlist_entries]. apply Forall_cons; [unfold playlist_entry; pl|now apply IH].
Qed.

Lemma playlist_plain args st r : plain_state st -> playlist_exec args st = Ok r -> good r.
Proof.
  intros [F1 F2] E. unfold playlist_exec in E. apply ok_inj in E; subst r. split; [|split; assumption]. cbn [fst].
  assert (A : plain_lines (if st_playing st then T "Playing" else T "Paused")).
  { apply plain_is_lines. destruct (st_playing st); pl. }
  assert (C : plain_lines (match st_current st with [] => T "None" | s => s end)).
  { apply plain_is_lines. destruct (st_current st); pl. }
  pose proof (entries_plain (length (itoa (zlen (st_songs st) - 1))) (st_songs st) 0 F1) as Fe.
  apply plain_all_lines in Fe.
  assert (B : plain_lines (match playlist_entries (length (itoa (zlen (st_songs st) - 1))) 0 (st_songs st) with
                           | [] => T "Empty"
                           | _ => [10] ++ join [10] (playlist_entries (length (itoa (zlen (st_songs st) - 1))) 0 (st_songs st)) end)).
  { destruct (playlist_entries _ 0 _) as [|e es]; [apply plain_is_lines; pl|].
    apply lines_app; [apply lines_newline|]. apply plain_join_lines; [apply lines_newline|exact Fe]. }
  apply lines_app; [apply plain_is_lines; pl|]. apply lines_app; [exact A|].
  apply lines_app; [apply plain_is_lines; pl|]. apply lines_app; [exact B|].
  apply lines_app; [apply lines_newline|]. apply lines_app; [apply plain_is_lines; pl|exact C].
Qed.

Lemma remove_plain args st r : plain_state st -> remove_exec args st = Ok r -> good r.
Proof.
  intros [F1 F2] E. unfold remove_exec in E. destruct (parse_int_param args 0) as [p|].
  - destruct (remove_song (st_songs st) p) as [[l x]|] eqn:Er; try discriminate.
    cbn [obind] in E. apply ok_inj in E; subst r.
    destruct (remove_song_plain _ _ _ _ F1 Er) as [G1 G2]. split; [apply plain_is_lines; cbn [fst]; pl|].
    split; assumption.
  - apply ok_inj in E; subst r. split; [apply Forall_nil|split; assumption].
Qed.

Lemma jump_plain args st r : plain_state st -> jump_exec args st = Ok r -> good r.
Proof.
  intros F E. unfold jump_exec in E. destruct (parse_int_param args 0) as [p|]; apply ok_inj in E; subst r.
  - split; [apply plain_is_lines; cbn [fst]; pl|exact F].
  - split; [apply Forall_nil|exact F].
Qed.

Lemma volume_plain args st r : plain_state st ->
  volume_exec parse_float fmt_3f send_volume args st = Ok r -> good r.
Proof.
  intros F E. unfold volume_exec in E. destruct (parse_float_param parse_float args 0) as [v ok].
  destruct ok; cbn [negb] in E.
  - pose proof (Hf v) as Hv. destruct (send_volume v) as [e|] eqn:Es; apply ok_inj in E; subst r.
    + pose proof (Hs v e Es) as He. split; [apply plain_is_lines; cbn [fst]; pl|exact F].
    + split; [apply plain_is_lines; cbn [fst]; pl|exact F].
  - apply ok_inj in E; subst r. split; [apply Forall_nil|exact F].
Qed.

Lemma playback_plain b args st r : plain_state st -> playback_exec b args st = Ok r -> good r.
Proof.
  intros F E. unfold playback_exec in E. apply ok_inj in E; subst r. split; [apply plain_is_lines; cbn [fst]|exact F].
  unfold playback_action. destruct b; pl.
Qed.

Lemma ls_plain args st r : plain_state st -> ls_exec all_files args st = Ok r -> good r.
Proof.
  intros F E. unfold ls_exec in E. apply ok_inj in E; subst r. split; [|exact F]. cbn [fst].
  apply plain_join_lines; [apply lines_newline|]. apply plain_all_lines, filter_songs_plain, Ha.
Qed.

Lemma help_plain docs args st r : Forall plain_doc docs -> Forall plain args -> plain_state st ->
  help_exec docs args st = Ok r -> good r.
Proof.
  intros Fd Fa F E. unfold help_exec in E. destruct args as [|a args].
  - apply ok_inj in E; subst r. split; [|exact F]. cbn [fst].
    apply plain_join_lines; [apply lines_newline|]. apply plain_all_lines. apply Forall_app. split.
    + apply Forall_forall. intros t Ht. apply in_map_iff in Ht as (d & <- & Hd).
      rewrite Forall_forall in Fd. destruct (Fd d Hd) as (D1 & D2 & D3).
      unfold pad15. pl. apply plain_repeat. unfold control. lia.
    + apply Forall_cons; [pl|]. apply Forall_cons; [pl|apply Forall_nil].
  - apply Forall_cons_iff in Fa as [Fa _].
    destruct (find _ (rev docs)) as [d|] eqn:Ed.
    + apply in_rev_find in Ed. rewrite Forall_forall in Fd. specialize (Fd d Ed).
      pose proof (doc_usage_plain d Fd) as Du. destruct Fd as (D1 & D2 & D3).
      apply ok_inj in E; subst r. split; [|exact F]. cbn [fst].
      repeat apply lines_app; try apply lines_newline; apply plain_is_lines; pl.
    + destruct (text_eqb a (T "clear")); [|destruct (text_eqb a (T "exit"))]; apply ok_inj in E; subst r;
        (split; [|exact F]); cbn [fst];
        repeat apply lines_app; try apply lines_newline; apply plain_is_lines; pl.
Qed.

Lemma command_plain docs c args st r : Forall plain_doc docs -> Forall plain args -> plain_state st ->
  In c (server_commands glob parse_float fmt_3f send_volume all_files docs) ->
  cmd_exec c args st = Ok r -> good r /\ plain (usage c).
Proof.
  intros Fd Fa F I E. cbn [server_commands In] in I.
  repeat destruct I as [<-|I]; [..|contradiction]; cbn [cmd_exec] in E;
    (split; [|apply plainb_plain; vm_compute; reflexivity]).
  - eapply help_plain; eauto.
  - eapply ls_plain; eauto.
  - eapply queue_plain; eauto.
  - eapply playlist_plain; eauto.
  - eapply remove_plain; eauto.
  - eapply jump_plain; eauto.
  - eapply volume_plain; eauto.
  - eapply playback_plain; eauto.
  - eapply playback_plain; eauto.
Qed.

(** ** The session *)

Lemma printed_lines msg out : printed msg out -> plain_lines msg -> plain_lines out.
Proof.
  intros [(m & -> & ->)|[_ ->]] H; [exact H|apply lines_app; [exact H|apply lines_newline]].
Qed.

Definition typed_ok (i : input) : Prop :=
  match i with Line l => Forall harmless l | Interrupt l => Forall harmless l | _ => True end.

Lemma handle_plain docs reg line st go st' out : Forall plain_doc docs -> Forall harmless line -> plain_state st ->
  (forall c, In c reg -> In c (server_commands glob parse_float fmt_3f send_volume all_files docs)) ->
  handle_line reg line st = Ok (go, st', out) -> (plain_lines out \/ out = cursor_home) /\ plain_state st'.
Proof.
  intros Fd Fl F HR E. destruct (parse_plain line Fl) as [P1 P2].
  unfold handle_line in E. destruct (command_named reg _) as [c|] eqn:Ec.
  - destruct (exec_command c (p_params (parse_command line)) st) as [[s o]|] eqn:Ex; try discriminate.
    cbn [obind] in E. apply ok_inj in E; apply pair3 in E as (? & ? & ?); subst.
    unfold exec_command in Ex.
    destruct (cmd_exec c (p_params (parse_command line)) st) as [[[msg ok] s1]|] eqn:Em; try discriminate.
    apply command_named_some in Ec as [Ic _].
    destruct (command_plain docs c _ _ _ Fd P2 F (HR _ Ic) Em) as [[G1 G2] G3]. cbn [fst snd] in G1, G2.
    cbn [obind] in Ex. destruct ok; apply ok_inj in Ex; apply pair2 in Ex as (? & ?); subst; (split; [left|exact G2]).
    + eapply printed_lines; [apply chomp_printed|exact G1].
    + apply lines_app; [now apply plain_is_lines|apply lines_newline].
  - destruct (text_eqb _ (T "clear")); [apply ok_inj in E; apply pair3 in E as (? & ? & ?); subst; split; [now right|exact F]|].
    destruct (text_eqb _ (T "exit")); apply ok_inj in E; apply pair3 in E as (? & ? & ?); subst; (split; [left|exact F]); [apply Forall_nil|].
    repeat apply lines_app; try apply lines_newline; apply plain_is_lines; pl.
Qed.

Lemma tame_out a b : (plain_lines a \/ a = cursor_home) -> tame b -> tame (a ++ b).
Proof. intros [H| ->] T; [now apply Tame_text|now apply Tame_clear]. Qed.

Lemma tame_one a : (plain_lines a \/ a = cursor_home) -> tame a.
Proof. intro H. rewrite <- (app_nil_r a). apply tame_out; [exact H|apply Tame_nothing]. Qed.

Lemma read_loop_tame docs reg ins : Forall plain_doc docs ->
  (forall c, In c reg -> In c (server_commands glob parse_float fmt_3f send_volume all_files docs)) ->
  forall st e st' out, plain_state st -> Forall typed_ok ins ->
  read_loop reg ins st = Ok (e, st', out) -> tame out.
Proof.
  intros Fd HR. induction ins as [|i ins IH]; intros st e st' out F Ft E.
  - apply ok_inj in E; apply pair3 in E as (? & ? & ?); subst. apply Tame_nothing.
  - apply Forall_cons_iff in Ft as [F1 F2].
    assert (ON : forall l, Forall harmless l ->
      (do '(go_on, st1, o) <- handle_line reg l st;
       if (go_on : bool) then
         do '(ended, st2, out2) <- read_loop reg ins st1; Ok (ended, st2, o ++ out2)
       else Ok (true, st1, o)) = Ok (e, st', out) -> tame out).
    { intros l Hl X. destruct (handle_line reg l st) as [[[go s1] o]|] eqn:Eh; try discriminate.
      destruct (handle_plain docs reg l st go s1 o Fd Hl F HR Eh) as [T1 T2]. cbn [obind] in X.
      destruct go.
      - destruct (read_loop reg ins s1) as [[[en s2] o2]|] eqn:El; try discriminate.
        cbn [obind] in X. apply ok_inj in X; apply pair3 in X as (? & ? & ?); subst. apply tame_out; [exact T1|]. eapply IH; eauto.
      - apply ok_inj in X; apply pair3 in X as (? & ? & ?); subst. now apply tame_one. }
    destruct i as [l|l| |]; cbn [typed_ok] in F1.
    + exact (ON l F1 E).
    + exact (ON l F1 E).
    + apply ok_inj in E; apply pair3 in E as (? & ? & ?); subst. apply Tame_nothing.
    + apply ok_inj in E; apply pair3 in E as (? & ? & ?); subst. apply Tame_nothing.
Qed.

End Commands.
