(** Property C121: what the control shell prints is text. *)
From Verif Require Import GoBase GoBaseFacts GoUtf8 GoFmt PlaylistModel.
From Verif Require Import ParserModel ParserSpec ParserProofs ParserUnparseProofs CommandsModel CommandsSpec CommandsProofs.
From Verif Require Import ShellTextSpec ShellTextProofs.
Local Open Scope N_scope.

(* ------------------------------------------------------------------ *)
(** ** C121: the shell's answers are plain text *)

(** With plain names of songs and files, plain error texts and plain help texts, a session whose
    typed characters are harmless prints lines of plain text, and ESC [ H where `clear` was asked
    for, whatever is typed and however the session ends. *)
Theorem C121_plain_answers_partial : forall glob parse_float fmt_3f send_volume all_files docs reg ins st e st' out,
  (forall p, match glob p with inl err => plain err | inr files => Forall plain files end) ->
  (forall v, plain (fmt_3f v)) -> (forall v err, send_volume v = Some err -> plain err) ->
  (forall d, Forall plain (all_files d)) ->
  Forall (fun d => plain (d_name d) /\ plain (d_usage d) /\ plain (d_info d)) docs ->
  (forall c, In c reg -> In c (server_commands glob parse_float fmt_3f send_volume all_files docs)) ->
  Forall plain (st_songs st) -> plain (st_current st) ->
  (forall i l, In i ins -> i = Line l \/ i = Interrupt l -> Forall harmless l) ->
  read_loop reg ins st = Ok (e, st', out) ->
  tame out.
Proof.
  intros glob pf ff sv af docs reg ins st e st' out Hg Hf Hs Ha Hd HR F1 F2 Hi E.
  eapply (read_loop_tame glob pf ff sv af Hg Hf Hs Ha docs reg ins Hd HR); [split; eassumption| |exact E].
  apply Forall_forall. intros i Ii. destruct i as [l|l| |]; cbn [typed_ok]; eauto.
Qed.

Lemma delivered_control c : 0xC0 <= c -> c mod 64 < 32 -> control (delivered c) /\ delivered c <> 10 /\ delivered c <> 27.
Proof.
  intros H M. assert (E : delivered c = 128 + c mod 64).
  { unfold delivered, utf8_encode_rune.
    replace (c <? 0x80) with false by (symmetry; apply N.ltb_ge; lia).
    destruct (c <? 0x800); [reflexivity|]. destruct (c <? 0x10000); reflexivity. }
  rewrite E. unfold control. lia.
Qed.

Lemma read_char_word c : c <> 32 -> c <> 92 ->
  parse_command (T "x" ++ [c] ++ T "x") = {| p_command := trim_space (120 :: delivered c :: [120]); p_params := [] |}.
Proof.
  intros H1 H2. destruct (parse_command_reads (T "x" ++ [c] ++ T "x")) as (v & vs & E & ->).
  apply reads_fun in E.
  assert (R : read (T "x" ++ [c] ++ T "x") = spelled [T "x" ++ [c] ++ T "x"]).
  { change (T "x" ++ [c] ++ T "x") with [120; c; 120].
    rewrite read_plain by discriminate. rewrite (read_plain c) by assumption. reflexivity. }
  rewrite R in E. apply spelled_inj in E; [|discriminate|discriminate]. injection E as <- <-.
  reflexivity.
Qed.

Lemma trim_x d : trim_space [120; d; 120] = [120; d; 120].
Proof.
  unfold trim_space. cbn [trim_left]. change (is_space 120) with false. cbn iota.
  cbn [rev app trim_left]. change (is_space 120) with false. cbn iota. reflexivity.
Qed.

(** Tame output has no control characters but newlines and the ESC of `clear`. *)
Lemma tame_chars t : tame t -> forall c, In c t -> control c -> c = 10 \/ c = 27.
Proof.
  induction 1 as [|t r Ht _ IH|r _ IH]; intros c I K; [contradiction| |].
  - apply in_app_or in I as [I|I]; [|now apply IH]. unfold plain_lines in Ht. rewrite Forall_forall in Ht.
    destruct (Ht c I); [now left|contradiction].
  - apply in_app_or in I as [I|I]; [|now apply IH]. cbn in I. unfold control in K.
    destruct I as [<-|[<-|[<-|[]]]]; [now right|lia|lia].
Qed.

(** Typing a character from U+00C0 on whose last UTF-8 byte lies below 0xA0 - half of them -
    makes the shell print a control character instead of it, in every
    state and with every set of plainly named commands. *)
Theorem C121_typed_text_becomes_control_refuted : forall reg st c,
  (forall k, In k reg -> plain (cmd_name k)) ->
  0xC0 <= c -> c mod 64 < 32 ->
  exists c' out, control c' /\ In c' out /\ ~ tame out /\
    out = T "Unknown command 'x" ++ [c'] ++ T "x'. Type 'help' for help." ++ [10] /\
    handle_line reg (T "x" ++ [c] ++ T "x") st = Ok (true, st, out).
Proof.
  intros reg st c Hr Hc Hm. exists (delivered c), (T "Unknown command 'x" ++ [delivered c] ++ T "x'. Type 'help' for help." ++ [10]).
  destruct (delivered_control c Hc Hm) as (K1 & K2 & K3). split; [exact K1|].
  assert (I : In (delivered c) (T "Unknown command 'x" ++ [delivered c] ++ T "x'. Type 'help' for help." ++ [10])).
  { apply in_or_app; right. apply in_or_app; left. now left. }
  split; [exact I|]. split.
  { intro Tm. destruct (tame_chars _ Tm _ I K1); contradiction. }
  split; [reflexivity|].
  unfold handle_line. rewrite read_char_word by lia. cbn [p_command p_params]. rewrite trim_x.
  destruct (command_named reg [120; delivered c; 120]) as [k|] eqn:Ek.
  - apply command_named_some in Ek as [Ik En]. specialize (Hr k Ik). rewrite En in Hr.
    apply Forall_cons_iff in Hr as [_ Hr]. apply Forall_cons_iff in Hr as [Hr _]. contradiction.
  - replace (text_eqb [120; delivered c; 120] (T "clear")) with false by reflexivity.
    replace (text_eqb [120; delivered c; 120] (T "exit")) with false by reflexivity.
    reflexivity.
Qed.

(** Û arrives as CSI: the unknown command `Û2J` is answered with the sequence that clears the
    screen, `Û6n` with the one that makes the terminal type an answer. *)
Example C121_clears_the_screen : forall st,
  handle_line [] (0xDB :: T "2J") st = Ok (true, st, T "Unknown command '" ++ [0x9B; 50; 74] ++ T "'. Type 'help' for help." ++ [10]).
Proof. intro st. vm_compute. reflexivity. Qed.

Lemma in_join (c : N) sep (s : text) l : In s l -> In c s -> In c (join sep l).
Proof.
  induction l as [|x l IH]; intros H I; [contradiction|].
  destruct l as [|y l].
  - destruct H as [-> |[]]. exact I.
  - change (join sep (x :: y :: l)) with (x ++ sep ++ join sep (y :: l)). apply in_or_app.
    destruct H as [-> |H]; [now left|]. right. apply in_or_app. right. now apply IH.
Qed.

Lemma chomp_keeps (c : N) m : c <> 10 -> In c m -> In c (chomp m ++ [10]).
Proof.
  intros N I. destruct (chomp_printed m) as [(x & E & ->)|[_ ->]]; [exact I|]. apply in_or_app. now left.
Qed.

Lemma entries_in w (s : text) l : forall i, In s l -> exists t, In t (playlist_entries w i l) /\ forall c : N, In c s -> In c t.
Proof.
  induction l as [|x l IH]; intros i H; [contradiction|]. cbn [playlist_entries].
  destruct H as [-> |H].
  - exists (playlist_entry w i s). split; [now left|]. intros c I. unfold playlist_entry.
    apply in_or_app; right. apply in_or_app; right. apply in_or_app; now right.
  - destruct (IH (i + 1)%Z H) as (t & I & J). exists t. split; [now right|exact J].
Qed.

(** The names of the songs are printed as they are: a control character in the name of a song in
    the playlist, of the song that plays, or of a file found by `ls` is sent to the terminal of
    everyone who asks. *)
Theorem C121_names_are_printed_raw_refuted : forall glob parse_float fmt_3f send_volume all_files docs st s c,
  c <> 10 -> In c s ->
  let reg := server_commands glob parse_float fmt_3f send_volume all_files docs in
  (In s (st_songs st) \/ s = st_current st ->
     exists st' out, handle_line reg (T "playlist") st = Ok (true, st', out) /\ In c out) /\
  (In (s ++ T ".mp3") (all_files []) ->
     exists st' out, handle_line reg (T "ls") st = Ok (true, st', out) /\ In c out).
Proof.
  intros glob pf ff sv af docs st s c Hc Is reg. split.
  - intro H.
    exists st. eexists. split.
    + unfold handle_line.
      replace (parse_command (T "playlist")) with {| p_command := T "playlist"; p_params := [] |} by (vm_compute; reflexivity).
      cbn [p_command p_params].
      replace (command_named reg (T "playlist")) with
        (Some {| cmd_doc_of := {| d_name := T "playlist"; d_usage := []; d_info := T "prints the current playlist" |}; cmd_exec := playlist_exec |})
        by (unfold reg; reflexivity).
      unfold exec_command. cbn [cmd_exec]. unfold playlist_exec. cbn [obind]. reflexivity.
    + apply chomp_keeps; [exact Hc|].
      apply in_or_app; right. apply in_or_app; right. apply in_or_app; right.
      destruct H as [H|H].
      * destruct (entries_in (length (itoa (zlen (st_songs st) - 1))) s (st_songs st) 0%Z H) as (t & I & J).
        apply in_or_app; left.
        destruct (playlist_entries _ 0 _) as [|e es]; [contradiction|].
        apply in_or_app; right. eapply in_join; [exact I|]. now apply J.
      * apply in_or_app; right. apply in_or_app; right. apply in_or_app; right.
        rewrite <- H. destruct s; [contradiction|exact Is].
  - intro H. exists st. eexists. split.
    + unfold handle_line.
      replace (parse_command (T "ls")) with {| p_command := T "ls"; p_params := [] |} by (vm_compute; reflexivity).
      cbn [p_command p_params].
      replace (command_named reg (T "ls")) with
        (Some {| cmd_doc_of := {| d_name := T "ls"; d_usage := T "[sub directory]"; d_info := T "lists all songs in the music (sub) directory" |}; cmd_exec := ls_exec af |})
        by (unfold reg; reflexivity).
      unfold exec_command. cbn [cmd_exec]. unfold ls_exec. cbn [obind]. reflexivity.
    + apply chomp_keeps; [exact Hc|]. apply (in_join c [10] (s ++ T ".mp3")).
      * unfold filter_songs. apply filter_In. split; [exact H|].
        apply has_suffix_spec. now exists s.
      * apply in_or_app; now left.
Qed.

(** A session with an accented letter that is harmless, a song, an unknown command and `clear`. *)
Example C121_nonvacuous :
  let st := {| st_songs := [T "a.mp3"]; st_position := 0; st_forced := 0; st_playing := true;
               st_current := T "a.mp3"; st_volume := 0; st_sent := [] |} in
  let reg := server_commands (fun _ => inr []) (fun _ => None) (fun _ => []) (fun _ => None) (fun _ => []) [] in
  let ins := [Line (T "playlist"); Line (T "queue " ++ [0xE9]); Line (T "nothing"); Line (T "clear"); Interrupt (T "exit")] in
  read_loop reg ins st =
    Ok (true, st, T "Current Playlist (Playing): " ++ [10] ++ T "  [0] a.mp3" ++ [10] ++ T "Current Song: a.mp3" ++ [10] ++
                  T "no song matches the glob pattern " ++ [0xA9; 10] ++
                  T "Unknown command 'nothing'. Type 'help' for help." ++ [10; 27; 91; 72]) /\
  Forall plain (st_songs st) /\ plain (st_current st) /\
  (forall i l, In i ins -> i = Line l \/ i = Interrupt l -> Forall harmless l).
Proof.
  cbv zeta. split; [vm_compute; reflexivity|].
  assert (P : plain (T "a.mp3")) by (apply plainb_plain; vm_compute; reflexivity).
  split; [apply Forall_cons; [exact P|apply Forall_nil]|]. split; [exact P|].
  assert (Hb : forall l, forallb (fun c => (plainb [c] && ((c <? 0xC0) || (32 <=? c mod 64)))%bool) l = true -> Forall harmless l).
  { intros l H. rewrite forallb_forall in H. apply Forall_forall. intros c Hc. specialize (H c Hc).
    apply andb_true_iff in H as [H1 H2]. apply orb_true_iff in H2. rewrite N.ltb_lt, N.leb_le in H2.
    apply plainb_plain in H1. apply Forall_cons_iff in H1 as [H1 _]. split; assumption. }
  intros i l I J. apply Hb.
  assert (K : forall a b, (Line a = Line b \/ Line a = Interrupt b) \/ (Interrupt a = Line b \/ Interrupt a = Interrupt b) -> a = b).
  { clear. intros a b [[H|H]|[H|H]]; try discriminate H; injection H; auto. }
  cbn [In] in I. destruct I as [<-|[<-|[<-|[<-|[<-|[]]]]]].
  - rewrite <- (K _ _ (or_introl J)). vm_compute. reflexivity.
  - rewrite <- (K _ _ (or_introl J)). vm_compute. reflexivity.
  - rewrite <- (K _ _ (or_introl J)). vm_compute. reflexivity.
  - rewrite <- (K _ _ (or_introl J)). vm_compute. reflexivity.
  - rewrite <- (K _ _ (or_intror J)). vm_compute. reflexivity.
Qed.

(** À, Û and the Cyrillic А among them *)
Example C121_typed_examples : Forall (fun c => 0xC0 <= c /\ c mod 64 < 32) [0xC0; 0xDB; 0x410].
Proof. repeat (apply Forall_cons; [split; vm_compute; congruence|]). apply Forall_nil. Qed.

Print Assumptions C121_plain_answers_partial.
Print Assumptions C121_typed_text_becomes_control_refuted.
Print Assumptions C121_names_are_printed_raw_refuted.
