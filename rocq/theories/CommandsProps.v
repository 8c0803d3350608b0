(** Properties C40-C43 and C71-C73: the control shell. *)
From Verif Require Import GoBase GoBaseFacts GoFmt PlaylistModel PlaylistSpec PlaylistProofs.
From Verif Require Import ParserModel ParserSpec ParserProofs ParserUnparseProofs ParserProps.
From Verif Require Import CommandsModel CommandsSpec CommandsProofs NumberSpec NumberProofs.
From Coq Require Import Sorting.Sorted Sorting.Permutation.
Local Open Scope Z_scope.

Lemma strongly_sorted_nth {A} (R : A -> A -> Prop) l : StronglySorted R l ->
  forall i j c d, (i < j)%nat -> nth_error l i = Some c -> nth_error l j = Some d -> R c d.
Proof.
  induction 1 as [|x l S IH F]; intros i j c d Hij Hc Hd; [destruct i; discriminate|].
  destruct j as [|j]; [lia|]. destruct i as [|i]; cbn in Hc, Hd.
  - injection Hc as ->. rewrite Forall_forall in F. apply F. eapply nth_error_In; eauto.
  - apply (IH i j); auto. lia.
Qed.

Definition mp3 (f : text) : bool := has_suffix f (T ".mp3").

(** A server state used by the examples. *)
Definition ex_state : cstate :=
  {| st_songs := [T "a.mp3"; T "b.mp3"]; st_position := 0; st_forced := 0; st_playing := true;
     st_current := T "a.mp3"; st_volume := 7%N; st_sent := [] |}.
Definition ex_glob (p : text) : text + list text :=
  if text_eqb p (T "*") then inr [T "x.mp3"; T "cover.png"; T "y.mp3"; T "z.mp3"] else inr [].

(* ================= C40 ================= *)
(** Without a position, or with one that is not a number, the matching songs are appended in
    order; the reply names exactly them. *)
Theorem C40_appended : forall glob pattern rest files st,
  glob pattern = inr files -> filter mp3 files <> [] ->
  (rest = [] \/ exists a r, rest = a :: r /\ ~ exists p, reads a p) ->
  let found := filter mp3 files in
  queue_exec glob (pattern :: rest) st =
    Ok (itoa (zlen found) ++ T " song(s) added to playlist: " ++ join (T ", ") found, true,
        with_songs st (st_songs st ++ found)).
Proof.
  intros glob pattern rest files st Hg Hf Hr found.
  unfold queue_exec. cbn [parse_string_param nth_error]. rewrite Hg.
  change (filter_songs files) with (filter mp3 files). unfold found in *.
  assert (P : parse_int_param (pattern :: rest) 1 = None).
  { unfold parse_int_param. destruct Hr as [->|(a & r & -> & A)]; cbn; [reflexivity|apply atoi_none; exact A]. }
  rewrite P. destruct (filter mp3 files) as [|f fs] eqn:E.
  - exfalso. now apply Hf.
  - cbn [obind]. rewrite fold_add_song. reflexivity.
Qed.

(** With a position they are inserted together, in order, behind the first [min p n] songs. *)
Theorem C40_inserted_partial : forall glob pattern a rest p files st,
  glob pattern = inr files -> filter mp3 files <> [] -> reads a p ->
  let found := filter mp3 files in
  0 <= p -> p + zlen found <= 2 ^ 63 ->
  exists before after,
    st_songs st = before ++ after /\ zlen before = clip p (zlen (st_songs st)) /\
    queue_exec glob (pattern :: a :: rest) st =
      Ok (itoa (zlen found) ++ T " song(s) added to playlist: " ++ join (T ", ") found, true,
          with_songs st (before ++ found ++ after)).
Proof.
  intros glob pattern a rest p files st Hg Hf Ha found Hp Hn. apply atoi_reads in Ha.
  set (k := Z.to_nat (Z.min p (zlen (st_songs st)))).
  exists (firstn k (st_songs st)), (skipn k (st_songs st)).
  pose proof (zlen_nonneg (st_songs st)) as L0.
  assert (Lb : zlen (firstn k (st_songs st)) = Z.min p (zlen (st_songs st))).
  { unfold zlen. rewrite firstn_length. unfold k, zlen in *. lia. }
  split; [symmetry; apply firstn_skipn|]. split; [unfold clip; lia|].
  unfold queue_exec. cbn [parse_string_param nth_error]. rewrite Hg.
  assert (P : parse_int_param (pattern :: a :: rest) 1 = Some p) by exact Ha.
  rewrite P. change (filter_songs files) with found.
  destruct found as [|f fs] eqn:E; [exfalso; now apply Hf|].
  pose proof (insert_each_spec (f :: fs) p 0 (firstn k (st_songs st)) (skipn k (st_songs st))) as I.
  rewrite firstn_skipn in I. rewrite I; [reflexivity|lia| |lia].
  destruct (Z.le_gt_cases p (zlen (st_songs st))) as [Hle|Hgt]; [left; lia|right].
  split; [|lia]. apply skipn_all2. unfold k, zlen in *. lia.
Qed.

(** With a negative position -k the songs do not stay in order: the first k of them end up
    reversed behind the others. *)
Theorem C40_negative_refuted : forall glob pattern a rest p files st,
  glob pattern = inr files -> filter mp3 files <> [] -> reads a p -> p < 0 ->
  let found := filter mp3 files in
  let k := Z.to_nat (- p) in
  zlen found < 2 ^ 62 ->
  exists reply,
    queue_exec glob (pattern :: a :: rest) st =
      Ok (reply, true, with_songs st (skipn k found ++ rev (firstn k found) ++ st_songs st)).
Proof.
  intros glob pattern a rest p files st Hg Hf Ha Hp found k Hn. apply atoi_reads in Ha.
  unfold queue_exec. cbn [parse_string_param nth_error]. rewrite Hg.
  assert (P : parse_int_param (pattern :: a :: rest) 1 = Some p) by exact Ha.
  rewrite P. change (filter_songs files) with found.
  pose proof (atoi_range _ _ Ha) as R. unfold in_int64 in R.
  destruct found as [|f fs] eqn:E; [exfalso; now apply Hf|].
  rewrite insert_each_neg by lia. cbn [obind]. rewrite Z.add_0_r. eexists. reflexivity.
Qed.

(** Nothing matches, or the pattern is malformed: nothing changes. *)
Theorem C40_no_match : forall glob pattern rest st,
  (exists err, glob pattern = inl err) \/ (exists files, glob pattern = inr files /\ filter mp3 files = []) ->
  exists reply, queue_exec glob (pattern :: rest) st = Ok (reply, true, st).
Proof.
  intros glob pattern rest st [[err E]|(files & E & F)]; unfold queue_exec; cbn [parse_string_param nth_error]; rewrite E.
  - eauto.
  - change (filter_songs files) with (filter mp3 files). rewrite F. eauto.
Qed.

Example C40_nonvacuous :
  (exists r, queue_exec ex_glob [T "*"; T "1"] ex_state =
     Ok (r, true, with_songs ex_state [T "a.mp3"; T "x.mp3"; T "y.mp3"; T "z.mp3"; T "b.mp3"])) /\
  queue_exec ex_glob [T "*"] ex_state =
     Ok (T "3 song(s) added to playlist: x.mp3, y.mp3, z.mp3", true,
         with_songs ex_state [T "a.mp3"; T "b.mp3"; T "x.mp3"; T "y.mp3"; T "z.mp3"]) /\
  (exists r, queue_exec ex_glob [T "*"; T "-5"] ex_state =
     Ok (r, true, with_songs ex_state [T "z.mp3"; T "y.mp3"; T "x.mp3"; T "a.mp3"; T "b.mp3"])).
Proof. split; [eexists; vm_compute; reflexivity|]. split; [vm_compute; reflexivity|eexists; vm_compute; reflexivity]. Qed.

(* ================= C41 ================= *)
(** Every command except volume: when the usage message is shown, nothing has changed and
    nothing was sent. *)
Theorem C41_other_commands_partial : forall glob pf ff sv af docs c args st msg st',
  In c (server_commands glob pf ff sv af docs) -> cmd_name c <> T "volume" ->
  cmd_exec c args st = Ok (msg, false, st') -> st' = st.
Proof.
  intros glob pf ff sv af docs c args st msg st' Hc Hn He.
  cbn in Hc. repeat destruct Hc as [<-|Hc]; [..|contradiction]; cbn [cmd_exec cmd_name cmd_doc_of d_name] in He, Hn.
  - unfold help_exec in He. destruct args as [|a r]; [discriminate|].
    destruct (find _ _); [discriminate|]. repeat destruct (text_eqb _ _); discriminate.
  - discriminate.
  - unfold queue_exec in He. destruct (parse_string_param args 0) as [p|]; [|now injection He].
    destruct (glob p) as [err|files]; [discriminate|].
    destruct (filter_songs files) as [|f fs]; [discriminate|].
    destruct (match parse_int_param args 1 with None => _ | Some pos => _ end); discriminate.
  - discriminate.
  - unfold remove_exec in He. destruct (parse_int_param args 0) as [p|]; [|now injection He].
    destruct (remove_song (st_songs st) p) as [[l r]|]; discriminate.
  - unfold jump_exec in He. destruct (parse_int_param args 0) as [p|]; [discriminate|now injection He].
  - exfalso. now apply Hn.
  - discriminate.
  - discriminate.
Qed.

(** `volume` with a missing or unreadable argument shows its usage message but has set the
    volume to 0: connected players keep the old volume, the next client gets 0. *)
Theorem C41_volume_refuted : forall pf ff sv args st,
  (args = [] \/ exists a r, args = a :: r /\ pf a = None) ->
  exists st', volume_exec pf ff sv args st = Ok ([], false, st') /\
    new_client_volume st' = 0%N /\ st_sent st' = st_sent st /\
    (st' = st <-> st_volume st = 0%N).
Proof.
  intros pf ff sv args st Ha. exists (with_volume st 0%N).
  assert (P : parse_float_param pf args 0 = (0%N, false)).
  { unfold parse_float_param. destruct Ha as [->|(a & r & -> & E)]; cbn; [reflexivity|now rewrite E]. }
  unfold volume_exec. rewrite P. split; [reflexivity|]. split; [reflexivity|]. split; [reflexivity|].
  destruct st as [a b c d e v g]; unfold with_volume; cbn. split.
  - intros [= H]. congruence.
  - intros ->. reflexivity.
Qed.

Example C41_nonvacuous :
  exists c, In c (server_commands ex_glob (fun _ => None) (fun _ => []) (fun _ => None) (fun _ => []) []) /\
    cmd_name c = T "jump" /\ cmd_exec c [T "12x"] ex_state = Ok ([], false, ex_state) /\
    st_volume ex_state <> 0%N.
Proof.
  eexists. split; [do 5 right; left; reflexivity|]. split; [reflexivity|]. split; [vm_compute; reflexivity|discriminate].
Qed.

(* ================= C42 ================= *)
(** Whatever is typed (without Ctrl-C), the session does exactly what [session] allows: each
    line runs the one command it names, prints its message or its usage message. *)
Theorem C42_session : forall reg ins st ended st' out,
  no_interrupt ins -> read_loop reg ins st = Ok (ended, st', out) ->
  session reg (fun l name args => parse_command l = {| p_command := name; p_params := args |}) ins st ended st' out.
Proof. intros. now apply read_loop_session. Qed.

(** What a line asks for: its words (see C44). *)
Theorem C42_meaning : forall line name args, Forall (fun c => c < 0xC0)%N line ->
  parse_command line = {| p_command := name; p_params := args |} -> asks_for line name args.
Proof.
  intros line name args H P. destruct (C44_line_split line H) as (w & ws & R & A & B).
  rewrite P in A, B. exists w, ws. auto.
Qed.

(** The session does not crash unless a command does. *)
Theorem C42_survives : forall reg ins st,
  (forall c args st, In c reg -> cmd_exec c args st <> Panic) ->
  exists ended st' out, read_loop reg ins st = Ok (ended, st', out).
Proof.
  intros reg ins st H. revert st.
  assert (HL : forall l st, exists go st' out, handle_line reg l st = Ok (go, st', out)).
  { intros l st. unfold handle_line.
    destruct (command_named reg _) as [c|] eqn:E.
    - apply command_named_some in E as [Hi _]. unfold exec_command.
      destruct (cmd_exec c _ st) as [[[m ok] st1]|] eqn:X.
      + cbn [obind]. destruct ok; cbn; eauto.
      + exfalso. now apply (H c (p_params (parse_command l)) st Hi).
    - repeat destruct (text_eqb _ _); eauto. }
  induction ins as [|i ins IH]; intro st; [cbn; eauto|].
  destruct i as [l|l| |]; cbn [read_loop]; eauto;
    (destruct (HL l st) as (go & st1 & out & ->); cbn [obind]; destruct go; eauto;
     destruct (IH st1) as (e & st2 & out2 & ->); cbn; eauto).
Qed.

(** Registering commands with different names, in any order: each one is found under its
    name, no other name is, and the registry is sorted. *)
Lemma text_ltb_false a b : text_ltb b a = false -> a <> b -> dict_before a b.
Proof.
  revert b. induction a as [|x a IH]; intros b L N.
  - destruct b as [|y b]; [now destruct N|]. exact (DB_shorter [] y b).
  - destruct b as [|y b]; [discriminate L|]. cbn in L.
    destruct (N.ltb_spec y x); [discriminate|]. destruct (N.eqb_spec y x) as [->|Ne].
    + assert (H1 : dict_before a b) by (apply IH; congruence).
      inversion H1; subst; [exact (DB_shorter (x :: a) c r)|exact (DB_letter (x :: p) c d r r' H0)].
    + apply (DB_letter [] x y a b). lia.
Qed.

Theorem C42_registry : forall cs reg, registered cs reg -> NoDup (map cmd_name cs) ->
  (forall c, In c cs -> command_named reg (cmd_name c) = Some c) /\
  (forall name, ~ In name (map cmd_name cs) -> command_named reg name = None) /\
  (forall i j c d, (i < j)%nat -> nth_error reg i = Some c -> nth_error reg j = Some d ->
     dict_before (cmd_name c) (cmd_name d)).
Proof.
  intros cs reg H N. apply registered_perm in H as [P S].
  assert (N' : NoDup (map cmd_name reg)) by (eapply Permutation_NoDup; [apply Permutation_map, P|exact N]).
  split; [|split].
  - intros c Hc. assert (Hr : In c reg) by (eapply Permutation_in; eauto).
    destruct (command_named reg (cmd_name c)) as [d|] eqn:E.
    + apply command_named_some in E as [Hd En]. f_equal. now apply (in_name_unique reg).
    + now apply command_named_none with (c := c) in E.
  - intros name Hn. destruct (command_named reg name) as [d|] eqn:E; [exfalso|reflexivity].
    apply command_named_some in E as [Hd <-]. apply Hn. apply in_map.
    eapply Permutation_in; [apply Permutation_sym, P|exact Hd].
  - intros i j c d Hij Hc Hd.
    apply text_ltb_false; [exact (strongly_sorted_nth _ _ S i j c d Hij Hc Hd)|]. intros E.
    rewrite NoDup_nth_error in N'. specialize (N' i j).
    assert (i = j); [|lia]. apply N'.
    + rewrite map_length. apply nth_error_Some. congruence.
    + rewrite !nth_error_map, Hc, Hd. cbn. congruence.
Qed.

(** The answer is unique when no two commands share their name. *)
Theorem C42_line_determined : forall known name args st go st1 out1 go' st2 out2,
  NoDup (map cmd_name known) ->
  line_does known name args st go st1 out1 -> line_does known name args st go' st2 out2 ->
  go = go' /\ st1 = st2 /\ out1 = out2.
Proof.
  intros known name args st go st1 out1 go' st2 out2 N A B.
  assert (PD : forall msg o o', printed msg o -> printed msg o' -> o = o').
  { intros msg o o' [(m & E & ->)|[E ->]] [(m' & E' & ->)|[E' ->]]; auto; exfalso; [now apply (E' m)|now apply (E m')]. }
  inversion A; subst; inversion B; subst;
    try (match goal with H1 : cmd_name ?c = cmd_name ?d, Hc : In ?c known, Hd : In ?d known |- _ =>
           assert (c = d) by (apply (in_name_unique known); auto); subst c end);
    try (match goal with H1 : cmd_exec _ _ _ = Ok _, H2 : cmd_exec _ _ _ = Ok _ |- _ =>
           rewrite H1 in H2; injection H2; intros; subst end);
    try discriminate; try congruence; repeat split; eauto;
    try (exfalso; match goal with H : forall c, In c known -> cmd_name c <> _, Hc : In ?c known |- _ => apply (H c Hc); congruence end).
Qed.

(** The commands of the server: nine different names. *)
Example C42_nonvacuous :
  let cs := server_commands ex_glob (fun _ => None) (fun _ => []) (fun _ => None) (fun _ => []) [] in
  NoDup (map cmd_name cs) /\
  read_loop cs [Line (T "jump 1"); Line (T "nope"); Line (T "exit"); Line (T "pause")] ex_state =
    Ok (true, with_pos ex_state 1,
        T "jumped to 1" ++ [10%N] ++ T "Unknown command 'nope'. Type 'help' for help." ++ [10%N]) /\
  no_interrupt [Line (T "jump 1"); Line (T "nope"); Line (T "exit"); Line (T "pause")].
Proof.
  cbv zeta. split; [|split].
  - cbn. repeat constructor; cbn; intro H; repeat destruct H as [H|H]; try discriminate; contradiction.
  - vm_compute. reflexivity.
  - repeat constructor; intros; discriminate.
Qed.

(* ================= C43 ================= *)
(** Ctrl-C runs the line typed so far exactly as Enter would, in every session. *)
Theorem C43_interrupt_runs_line_refuted : forall reg ins st,
  read_loop reg ins st = read_loop reg (map entered ins) st.
Proof. exact read_loop_interrupt. Qed.

(** A line starting with remove, abandoned with Ctrl-C, removes the song. *)
Theorem C43_removes_refuted :
  let cs := server_commands ex_glob (fun _ => None) (fun _ => []) (fun _ => None) (fun _ => []) [] in
  exists out, read_loop cs [Interrupt (T "remove 0")] ex_state = Ok (false, with_songs ex_state [T "b.mp3"], out).
Proof. eexists. vm_compute. reflexivity. Qed.

(** An empty line after Ctrl-C only prints the unknown-command message. *)
Theorem C43_empty_line_partial : forall reg ins st, command_named reg [] = None ->
  read_loop reg (Interrupt [] :: ins) st =
    (do '(e, st', out) <- read_loop reg ins st;
     Ok (e, st', T "Unknown command ''. Type 'help' for help." ++ [10%N] ++ out)).
Proof.
  intros reg ins st H. cbn [read_loop]. unfold handle_line.
  change (p_command (parse_command [])) with (@nil N). rewrite H.
  cbn [text_eqb T String.list_ascii_of_string map obind].
  destruct (read_loop reg ins st) as [[[e st'] out]|]; cbn [obind]; [|reflexivity].
  repeat f_equal. 
Qed.

(* ================= C71 ================= *)
(** The listing: a header with the play state, one entry per song in order (or "Empty"), the
    current song. *)
Definition listing (playing : bool) (entries : list text) (current : text) : text :=
  T "Current Playlist (" ++ (if playing then T "Playing" else T "Paused") ++ T "): " ++
  (match entries with [] => T "Empty" | _ => [10%N] ++ join [10%N] entries end) ++ [10%N] ++
  T "Current Song: " ++ (match current with [] => T "None" | _ => current end).

(** `playlist` changes nothing and shows every song, in order, with a label; given that label,
    `remove` removes that very song and `jump` goes to that very position. *)
Theorem C71_labels : forall args st, zlen (st_songs st) < 2 ^ 63 ->
  exists labels,
    length labels = length (st_songs st) /\
    playlist_exec args st =
      Ok (listing (st_playing st) (map (fun ls => T "  [" ++ fst ls ++ T "] " ++ snd ls) (combine labels (st_songs st)))
                  (st_current st), true, st) /\
    forall before s after, st_songs st = before ++ s :: after ->
      exists label, nth_error labels (length before) = Some label /\
        remove_exec [label] st =
          Ok (T "removed song " ++ s ++ T " at position " ++ itoa (zlen before) ++ T " from playlist", true,
              with_songs st (before ++ after)) /\
        jump_exec [label] st = Ok (T "jumped to " ++ itoa (zlen before), true, with_pos st (zlen before)).
Proof.
  intros args st Hl.
  set (w := length (itoa (zlen (st_songs st) - 1))).
  assert (LB : forall (l : list song) i, exists labels, length labels = length l /\
      playlist_entries w i l = map (fun ls => T "  [" ++ fst ls ++ T "] " ++ snd ls) (combine labels l) /\
      forall k, (k < length l)%nat -> nth_error labels k = Some (itoa0 w (i + Z.of_nat k))).
  { induction l as [|s l IH]; intro i.
    - exists []. split; [reflexivity|]. split; [reflexivity|]. cbn. intros; lia.
    - destruct (IH (i + 1)) as (ls & L1 & L2 & L3). exists (itoa0 w i :: ls).
      split; [cbn; lia|]. split; [cbn [playlist_entries combine map fst snd]; now rewrite L2|].
      intros [|k] Hk; cbn [nth_error].
      + now rewrite Z.add_0_r.
      + cbn in Hk. rewrite L3 by lia. do 2 f_equal. lia. }
  destruct (LB (st_songs st) 0) as (labels & L1 & L2 & L3).
  exists labels. split; [exact L1|]. split.
  - unfold playlist_exec. fold w. rewrite L2. unfold listing.
    destruct (map _ (combine labels (st_songs st))); destruct (st_current st); reflexivity.
  - intros before s after E. exists (itoa0 w (zlen before)).
    assert (B : 0 <= zlen before < 2 ^ 63).
    { pose proof (zlen_nonneg before). rewrite E, zlen_app, zlen_cons in Hl. pose proof (zlen_nonneg after). lia. }
    assert (A : parse_int_param [itoa0 w (zlen before)] 0 = Some (zlen before)).
    { unfold parse_int_param. cbn [nth_error]. now apply atoi_itoa0. }
    split; [|split].
    + rewrite L3 by (rewrite E, app_length; cbn; lia). reflexivity.
    + unfold remove_exec. rewrite A.
      destruct (remove_song_spec (st_songs st) (zlen before)) as (l' & x & R & (b' & a' & Eb & Lb & ->)).
      * rewrite E. destruct before; discriminate.
      * rewrite E, zlen_app, zlen_cons. pose proof (zlen_nonneg after). lia.
      * rewrite R. cbn [obind].
        assert (Lz : zlen b' = zlen before).
        { rewrite Lb. unfold clip. rewrite E, zlen_app, zlen_cons. pose proof (zlen_nonneg after). lia. }
        rewrite E in Eb. destruct (app_split_eq before b' (s :: after) (x :: a') Eb) as [<- [= <- <-]];
          [unfold zlen in Lz; lia|]. reflexivity.
    + unfold jump_exec. rewrite A. reflexivity.
Qed.

(** Eleven songs: the labels have two digits. *)
Example C71_nonvacuous :
  let st := with_songs ex_state (repeat (T "a.mp3") 10 ++ [T "b.mp3"]) in
  zlen (st_songs st) < 2 ^ 63 /\
  (exists out, playlist_exec [] st = Ok (T "Current Playlist (Playing): " ++ [10%N] ++ T "  [00] a.mp3" ++ [10%N] ++ T "  [01] a.mp3" ++ out, true, st)) /\
  remove_exec [T "03"] st = Ok (T "removed song a.mp3 at position 3 from playlist", true,
                                with_songs st (repeat (T "a.mp3") 9 ++ [T "b.mp3"])).
Proof.
  cbv zeta. split; [cbn; lia|]. split; [|vm_compute; reflexivity].
  eexists. unfold playlist_exec. cbn -[itoa0]. reflexivity.
Qed.

(* ================= C72 ================= *)
(** Everything but the named component. *)
Definition same_but_songs (a b : cstate) : Prop :=
  st_position b = st_position a /\ st_forced b = st_forced a /\ st_playing b = st_playing a /\
  st_current b = st_current a /\ st_volume b = st_volume a /\ st_sent b = st_sent a.

(** Each accepted command changes exactly what it is for. *)
Theorem C72_effects : forall glob pf ff sv af docs c args st msg st',
  In c (server_commands glob pf ff sv af docs) ->
  cmd_exec c args st = Ok (msg, true, st') ->
  (In (cmd_name c) [T "help"; T "ls"; T "playlist"] /\ st' = st) \/
  (cmd_name c = T "queue" /\ same_but_songs st st') \/
  (cmd_name c = T "remove" /\ same_but_songs st st' /\
     exists a r i x, args = a :: r /\ reads a i /\ list_edit (st_songs st) (ERemove i) (st_songs st') (Some x)) \/
  (cmd_name c = T "jump" /\ exists a r p, args = a :: r /\ reads a p /\
     st' = {| st_songs := st_songs st; st_position := p; st_forced := S (st_forced st); st_playing := st_playing st;
              st_current := st_current st; st_volume := st_volume st; st_sent := st_sent st |}) \/
  (cmd_name c = T "volume" /\ exists a r v, args = a :: r /\ pf a = Some v /\
     st' = {| st_songs := st_songs st; st_position := st_position st; st_forced := st_forced st; st_playing := st_playing st;
              st_current := st_current st; st_volume := v; st_sent := st_sent st ++ [v] |}) \/
  (exists b, cmd_name c = (if b : bool then T "resume" else T "pause") /\
     st' = {| st_songs := st_songs st; st_position := st_position st; st_forced := st_forced st; st_playing := b;
              st_current := st_current st; st_volume := st_volume st; st_sent := st_sent st |}).
Proof.
  intros glob pf ff sv af docs c args st msg st' Hc He.
  cbn in Hc. repeat destruct Hc as [<-|Hc]; [..|contradiction]; cbn [cmd_exec cmd_name cmd_doc_of d_name] in He |- *.
  - left. split; [left; reflexivity|]. unfold help_exec in He.
    destruct args as [|a r]; [now injection He|].
    destruct (find _ _); [now injection He|]. repeat destruct (text_eqb _ _); now injection He.
  - left. split; [right; left; reflexivity|]. now injection He.
  - right; left. split; [reflexivity|]. unfold queue_exec in He.
    destruct (parse_string_param args 0) as [p|]; [|discriminate].
    destruct (glob p) as [err|files]; [injection He as _ <-; repeat split|].
    destruct (filter_songs files) as [|f fs]; [injection He as _ <-; repeat split|].
    destruct (match parse_int_param args 1 with None => _ | Some pos => _ end); [|discriminate].
    cbn [obind] in He. injection He as _ <-. repeat split.
  - left. split; [right; right; left; reflexivity|]. now injection He.
  - right; right; left. split; [reflexivity|]. unfold remove_exec in He.
    destruct (parse_int_param args 0) as [p|] eqn:P; [|discriminate].
    destruct (remove_song (st_songs st) p) as [[l x]|] eqn:R; cbn [obind] in He; [|discriminate].
    injection He as _ <-. split; [repeat split|].
    unfold parse_int_param in P. destruct args as [|a r]; [discriminate|]. cbn in P.
    exists a, r, p, x. split; [reflexivity|]. split; [apply atoi_reads; exact P|]. cbn [st_songs with_songs].
    destruct (st_songs st) as [|s0 l0] eqn:E.
    + rewrite remove_song_empty in R. injection R as <- <-. constructor.
    + rewrite <- E in *. destruct (Z.eq_dec p (zlen (st_songs st))) as [->|Hp].
      * rewrite remove_song_at_len in R by congruence. discriminate.
      * destruct (remove_song_spec (st_songs st) p ltac:(congruence) Hp) as (l' & y & R' & D).
        rewrite R in R'. injection R' as <- <-. apply LE_remove; [congruence|exact D].
  - right; right; right; left. split; [reflexivity|]. unfold jump_exec in He.
    destruct (parse_int_param args 0) as [p|] eqn:P; [|discriminate]. injection He as _ <-.
    unfold parse_int_param in P. destruct args as [|a r]; [discriminate|]. cbn in P.
    exists a, r, p. split; [reflexivity|]. split; [apply atoi_reads; exact P|reflexivity].
  - do 4 right; left. split; [reflexivity|]. unfold volume_exec, parse_float_param in He.
    destruct args as [|a r]; cbn [nth_error] in He; [discriminate|].
    destruct (pf a) as [v|] eqn:E; cbn [negb] in He; [|discriminate].
    exists a, r, v. split; [reflexivity|]. split; [exact E|].
    destruct (sv v); injection He as _ <-; reflexivity.
  - do 5 right. exists false. injection He as _ <-. split; reflexivity.
  - do 5 right. exists true. injection He as _ <-. split; reflexivity.
Qed.

(** No command but remove can panic, and remove only with the position just past the end. *)
Theorem C72_crash_exact : forall glob pf ff sv af docs c args st,
  In c (server_commands glob pf ff sv af docs) ->
  (cmd_exec c args st = Panic <->
   cmd_name c = T "remove" /\ exists a r, args = a :: r /\ reads a (zlen (st_songs st)) /\ st_songs st <> []).
Proof.
  intros glob pf ff sv af docs c args st Hc.
  cbn in Hc. repeat destruct Hc as [<-|Hc]; [..|contradiction]; cbn [cmd_exec cmd_name cmd_doc_of d_name].
  all: try (split; [intro He; exfalso|intros [He _]; discriminate He]).
  - unfold help_exec in He. destruct args as [|a r]; [discriminate|].
    destruct (find _ _); [discriminate|]. repeat destruct (text_eqb _ _); discriminate.
  - discriminate.
  - unfold queue_exec in He.
    destruct (parse_string_param args 0) as [p|]; [|discriminate].
    destruct (glob p) as [err|files]; [discriminate|].
    destruct (filter_songs files) as [|f fs]; [discriminate|].
    destruct (parse_int_param args 1) as [p1|]; [|discriminate].
    destruct (insert_each_ok (f :: fs) (st_songs st) p1 0) as (q & Q & _). rewrite Q in He. discriminate.
  - discriminate.
  - unfold remove_exec, parse_int_param. destruct args as [|a r]; cbn [nth_error].
    { split; [discriminate|]. intros (_ & a & r & H & _). discriminate. }
    destruct (atoi a) as [p|] eqn:E.
    2: { split; [discriminate|]. intros (_ & a' & r' & [= <- <-] & H & _). apply atoi_reads in H. congruence. }
    destruct (remove_song (st_songs st) p) as [[l x]|] eqn:R; cbn [obind].
    + split; [discriminate|]. intros (_ & a' & r' & [= <- <-] & H & N). apply atoi_reads in H. rewrite E in H. injection H as ->.
      rewrite remove_song_at_len in R by exact N. discriminate.
    + split; [|reflexivity]. intros _. split; [reflexivity|]. exists a, r. split; [reflexivity|].
      destruct (st_songs st) as [|s0 l0] eqn:Es; [rewrite remove_song_empty in R; discriminate|].
      rewrite <- Es in *. assert (N : st_songs st <> []) by congruence. split; [|exact N].
      destruct (Z.eq_dec p (zlen (st_songs st))) as [->|Hp]; [apply atoi_reads; exact E|].
      destruct (remove_song_spec (st_songs st) p N Hp) as (l' & y & R' & _). congruence.
  - unfold jump_exec in He. destruct (parse_int_param args 0); discriminate.
  - unfold volume_exec in He. destruct (parse_float_param pf args 0) as [v ok]. destruct ok; cbn in He; [|discriminate].
    destruct (sv v); discriminate.
  - discriminate.
  - discriminate.
Qed.

Example C72_nonvacuous :
  exists c, In c (server_commands ex_glob (fun _ => Some 9%N) (fun _ => []) (fun _ => None) (fun _ => []) []) /\
    cmd_exec c [T "0.5"] ex_state = Ok (T "setting volume to ", true, with_sent (with_volume ex_state 9%N) 9%N).
Proof. eexists. split; [do 6 right; left; reflexivity|]. vm_compute. reflexivity. Qed.
Example C72_replies_example :
  ls_exec (fun d => if text_eqb d (T "sub") then [T "sub/a.mp3"; T "sub/cover.jpg"; T "sub/b.mp3"] else []) [T "sub"] ex_state
  = Ok (T "sub/a.mp3" ++ [10%N] ++ T "sub/b.mp3", true, ex_state).
Proof. reflexivity. Qed.

(** What a command answers. *)
Theorem C72_replies : forall glob pf ff sv af docs c args st msg st',
  In c (server_commands glob pf ff sv af docs) ->
  cmd_exec c args st = Ok (msg, true, st') ->
  (cmd_name c = T "pause" -> msg = T "playback paused") /\
  (cmd_name c = T "resume" -> msg = T "playback resumed") /\
  (cmd_name c = T "jump" -> forall a r p, args = a :: r -> reads a p -> msg = T "jumped to " ++ itoa p) /\
  (cmd_name c = T "remove" -> forall a r i, args = a :: r -> reads a i ->
     exists x, list_edit (st_songs st) (ERemove i) (st_songs st') (Some x) /\
       msg = T "removed song " ++ x ++ T " at position " ++ itoa i ++ T " from playlist") /\
  (cmd_name c = T "volume" -> forall a r v, args = a :: r -> pf a = Some v -> 
     msg = match sv v with
           | None => T "setting volume to " ++ ff v
           | Some err => T "failed to set volume to " ++ ff v ++ T ": " ++ err
           end) /\
  (cmd_name c = T "ls" -> msg = one_per_line (filter mp3 (af (match args with [] => [] | a :: _ => a end)))).
Proof.
  intros glob pf ff sv af docs c args st msg st' Hc He.
  assert (J : forall l, join [10%N] l = one_per_line l).
  { intros l. destruct l as [|x l]; [reflexivity|]. cbn [one_per_line]. revert x. induction l as [|y l IH]; intros x.
    - cbn. now rewrite app_nil_r.
    - change (join [10%N] (x :: y :: l)) with (x ++ [10%N] ++ join [10%N] (y :: l)). rewrite IH. reflexivity. }
  cbn in Hc. repeat destruct Hc as [<-|Hc]; [..|contradiction]; cbn [cmd_exec cmd_name cmd_doc_of d_name] in He |- *;
    repeat split; try (intros X; discriminate X).
  - intros _. unfold ls_exec in He. injection He as <- <-. rewrite J. reflexivity.
  - intros _ a r i -> Ha. apply atoi_reads in Ha. unfold remove_exec, parse_int_param in He. cbn [nth_error] in He. rewrite Ha in He.
    destruct (remove_song (st_songs st) i) as [[l x]|] eqn:R; [|discriminate He]. cbn [obind] in He. injection He as <- <-.
    exists x. split; [|reflexivity]. cbn [st_songs with_songs].
    destruct (st_songs st) as [|s0 l0] eqn:E.
    + rewrite remove_song_empty in R. injection R as <- <-. constructor.
    + rewrite <- E in *. destruct (Z.eq_dec i (zlen (st_songs st))) as [->|Hp].
      * rewrite remove_song_at_len in R by congruence. discriminate.
      * destruct (remove_song_spec (st_songs st) i ltac:(congruence) Hp) as (l' & y & R' & D).
        rewrite R in R'. injection R' as <- <-. apply LE_remove; [congruence|exact D].
  - intros _ a r p -> Ha. apply atoi_reads in Ha. unfold jump_exec, parse_int_param in He. cbn [nth_error] in He. rewrite Ha in He. now injection He as <- <-.
  - intros _ a r v -> Ha. unfold volume_exec, parse_float_param in He. cbn [nth_error] in He. rewrite Ha in He. cbn [negb] in He.
    destruct (sv v); now injection He as <- <-.
  - intros _. unfold playback_exec in He. now injection He as <- <-.
  - intros _. unfold playback_exec in He. now injection He as <- <-.
Qed.

(* ================= C73 ================= *)
(** `help` lists every registered command once, in registry order, then clear and exit;
    `help name` explains the command of that name. *)
Theorem C73_help : forall docs st,
  NoDup (map d_name docs) ->
  help_exec docs [] st =
    Ok (one_per_line (map (fun d => d_name d ++ repeat 32%N (15 - length (d_name d)) ++ T " " ++ d_info d) docs ++
          [T "clear           Clears the terminal"; T "exit            Closes the connection"]), true, st) /\
  (forall d r, In d docs ->
     help_exec docs (d_name d :: r) st =
       Ok (one_per_line [d_name d ++ T ": " ++ d_info d;
             match d_usage d with
             | [] => T "No usage information for command '" ++ d_name d ++ T "'"
             | u => T "Usage: " ++ d_name d ++ T " " ++ u
             end], true, st)) /\
  (forall r, ~ In (T "clear") (map d_name docs) ->
     help_exec docs (T "clear" :: r) st = Ok (one_per_line [T "clear: Clears the terminal"; T "clear"], true, st)) /\
  (forall r, ~ In (T "exit") (map d_name docs) ->
     help_exec docs (T "exit" :: r) st = Ok (one_per_line [T "exit: Closes the connection"; T "exit"], true, st)) /\
  (forall n r, ~ In n (map d_name docs) -> n <> T "clear" -> n <> T "exit" ->
     help_exec docs (n :: r) st = Ok (T "Command '" ++ n ++ T "' does not exist.", true, st)).
Proof.
  intros docs st N.
  assert (J : forall l, join [10%N] l = one_per_line l).
  { intros l. destruct l as [|x l]; [reflexivity|]. cbn [one_per_line]. revert x. induction l as [|y l IH]; intros x.
    - cbn. now rewrite app_nil_r.
    - change (join [10%N] (x :: y :: l)) with (x ++ [10%N] ++ join [10%N] (y :: l)). rewrite IH. reflexivity. }
  assert (NF : forall n, ~ In n (map d_name docs) -> find (fun c => text_eqb (d_name c) n) (rev docs) = None).
  { intros n Hn. destruct (find _ (rev docs)) as [e|] eqn:E; [|reflexivity].
    exfalso. apply find_some in E as [Hi En]. apply text_eqb_eq in En. apply in_rev in Hi.
    apply Hn. rewrite <- En. now apply in_map. }
  split; [|split; [|split; [|split]]].
  - unfold help_exec. rewrite J.
    assert (M : map (fun c => pad15 (d_name c) ++ T " " ++ d_info c) docs
                = map (fun d => d_name d ++ repeat 32%N (15 - length (d_name d)) ++ T " " ++ d_info d) docs).
    { apply map_ext. intros d. unfold pad15. now rewrite <- app_assoc. }
    rewrite M. reflexivity.
  - intros d r Hd. unfold help_exec.
    assert (F : find (fun c => text_eqb (d_name c) (d_name d)) (rev docs) = Some d).
    { destruct (find _ (rev docs)) as [e|] eqn:E.
      - apply find_some in E as [Hi En]. apply text_eqb_eq in En. apply in_rev in Hi. f_equal.
        clear -N Hd Hi En. induction docs as [|x l IH]; [contradiction|]. cbn in N. inversion N as [|? ? N1 N2]; subst.
        destruct Hd as [->|Hd], Hi as [->|Hi]; auto; exfalso; apply N1.
        + rewrite <- En. now apply in_map.
        + rewrite En. now apply in_map.
      - exfalso. pose proof (find_none _ _ E d) as X. cbv beta in X. rewrite text_eqb_refl in X.
        discriminate X. now apply -> in_rev. }
    rewrite F. cbn [one_per_line flat_map]. rewrite app_nil_r, <- !app_assoc. unfold doc_usage. destruct (d_usage d); reflexivity.
  - intros r Hn. unfold help_exec. now rewrite NF by exact Hn.
  - intros r Hn. unfold help_exec. now rewrite NF by exact Hn.
  - intros n r Hn H1 H2. unfold help_exec. rewrite NF by exact Hn.
    apply text_eqb_neq in H1, H2. now rewrite H1, H2.
Qed.

Example C73_nonvacuous :
  let docs := map cmd_doc_of (server_commands ex_glob (fun _ => None) (fun _ => []) (fun _ => None) (fun _ => []) []) in
  NoDup (map d_name docs) /\ length docs = 9%nat /\
  help_exec docs [T "jump"] ex_state = Ok (T "jump: jumps in the playlist" ++ [10%N] ++ T "Usage: jump position", true, ex_state).
Proof.
  cbv zeta. split; [|split].
  - cbn. repeat constructor; cbn; intro H; repeat destruct H as [H|H]; try discriminate; contradiction.
  - reflexivity.
  - vm_compute. reflexivity.
Qed.

(** The usage texts are true: a command with fewer arguments than its usage text demands is refused, one whose
    usage text demands none is never refused, and the arguments after those it names do not matter. *)
Theorem C73_usage : forall glob pf ff sv af docs c args st,
  In c (server_commands glob pf ff sv af docs) ->
  let u := d_usage (cmd_doc_of c) in
  ((length args < must_get u)%nat -> exists st', cmd_exec c args st = Ok ([], false, st')) /\
  (must_get u = 0%nat -> exists msg st', cmd_exec c args st = Ok (msg, true, st')) /\
  cmd_exec c args st = cmd_exec c (firstn (may_get u) args) st.
Proof.
  intros glob pf ff sv af docs c args st H. cbn [server_commands In] in H.
  repeat (destruct H as [<-|H]; [|]); [..|contradiction]; cbn [cmd_doc_of cmd_exec d_usage];
    match goal with |- context [must_get ?u] => let m := eval vm_compute in (must_get u) in change (must_get u) with m end;
    match goal with |- context [may_get ?u] => let m := eval vm_compute in (may_get u) in change (may_get u) with m end;
    (split; [intro L; try lia; (destruct args as [|? args]; [|cbn in L; lia])|split; [intro Z; try discriminate Z|destruct args as [|a [|a2 args]]; reflexivity]]);
    try (eexists; reflexivity); try (eexists _, _; reflexivity).
  unfold help_exec. destruct args as [|a args]; [eexists _, _; reflexivity|].
  destruct (find _ _); [eexists _, _; reflexivity|]. destruct (text_eqb a _); [eexists _, _; reflexivity|]. destruct (text_eqb a _); eexists _, _; reflexivity.
Qed.
Print Assumptions C73_usage.
Example C73_usage_nonvacuous :
  map (fun c => let u := d_usage (cmd_doc_of c) in (cmd_name c, must_get u, may_get u))
    (server_commands ex_glob (fun _ => None) (fun _ => []) (fun _ => None) (fun _ => []) []) =
  [(T "help", 0, 1); (T "ls", 0, 1); (T "queue", 1, 2); (T "playlist", 0, 0); (T "remove", 1, 1); (T "jump", 1, 1);
   (T "volume", 1, 1); (T "pause", 0, 0); (T "resume", 0, 0)]%nat.
Proof. vm_compute. reflexivity. Qed.

Print Assumptions C40_appended.
Print Assumptions C40_inserted_partial.
Print Assumptions C40_negative_refuted.
Print Assumptions C40_no_match.
Print Assumptions C41_other_commands_partial.
Print Assumptions C41_volume_refuted.
Print Assumptions C42_session.
Print Assumptions C42_meaning.
Print Assumptions C42_survives.
Print Assumptions C42_registry.
Print Assumptions C42_line_determined.
Print Assumptions C43_interrupt_runs_line_refuted.
Print Assumptions C43_removes_refuted.
Print Assumptions C43_empty_line_partial.
Print Assumptions C71_labels.
Print Assumptions C72_effects.
Print Assumptions C72_crash_exact.
Print Assumptions C73_help.
Print Assumptions C72_replies.
