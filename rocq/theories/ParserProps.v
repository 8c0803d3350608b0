(** Properties C44-C46: reading command lines. *)
From Verif Require Import GoBase GoBaseFacts GoUtf8 ParserModel ParserSpec ParserProofs ParserUnparseProofs.
Local Open Scope N_scope.

(* ------------------------------------------------------------------ *)
(** ** C44: command lines are split as documented *)

(** Every line of characters below U+00C0 (ASCII in particular) is read as [reads] says and
    cut into words at the separators; the first word, trimmed, is the command, the
    other non-empty words, trimmed, are the arguments, in order. *)
Theorem C44_line_split : forall line, Forall (fun c => c < 0xC0) line ->
  exists w ws,
    reads line (spelled (w :: ws)) /\
    trimmed w (p_command (parse_command line)) /\
    Forall2 trimmed (filter nonempty ws) (p_params (parse_command line)).
Proof.
  intros line H. destruct (parse_command_reads line) as (w & ws & R & ->).
  exists w, ws. split; [exact R|]. cbn [p_command p_params].
  assert (K : forall v, In v (w :: ws) -> map delivered v = v).
  { assert (G : forall l ps, reads l ps -> Forall (fun c => c < 0xC0) l -> Forall (fun c => c < 0xC0) (chars ps)).
    { clear. induction 1; intro F; cbn in *; repeat match goal with H : Forall _ (_ :: _) |- _ => inversion H; clear H; subst end;
        auto. }
    specialize (G _ _ R H). rewrite chars_spelled in G.
    intros v Hv. apply map_delivered_id. rewrite Forall_forall in *. intros c Hc. apply G.
    apply in_concat. eauto. }
  split.
  - rewrite K by (left; reflexivity). apply trim_space_trimmed.
  - assert (Q : forall vs, (forall v, In v vs -> map delivered v = v) ->
      Forall2 trimmed vs (map trim_space (map (map delivered) vs))).
    { induction vs as [|v vs IH]; intro Hv; cbn; constructor.
      - rewrite Hv by (left; reflexivity). apply trim_space_trimmed.
      - apply IH. intros; apply Hv; now right. }
    apply Q. intros v Hv. apply filter_In in Hv as [Hv _]. apply K. now right.
Qed.

(** The reading, the cut into words and the trimming are functions, so [C44_line_split]
    determines command and arguments. *)
Theorem C44_reading_determined : forall line,
  (exists ps, reads line ps) /\
  (forall ps ps', reads line ps -> reads line ps' -> ps = ps') /\
  (forall w ws v vs, spelled (w :: ws) = spelled (v :: vs) -> w = v /\ ws = vs) /\
  (forall w v v', trimmed w v -> trimmed w v' -> v = v').
Proof.
  intro line. split; [apply reads_total|]. split; [apply reads_unique|]. split; [|apply trimmed_unique].
  intros w ws v vs E. apply spelled_inj in E; [|discriminate|discriminate]. now injection E.
Qed.

(** A backslash, a doubled backslash, an escaped blank, runs of blanks and tabs. *)
Example C44_nonvacuous :
  parse_command (T "queue  my\ song\\x \y  ") =
    {| p_command := T "queue"; p_params := [T "my song\x"; T "\y"] |} /\
  Forall (fun c => c < 0xC0) (T "queue  my\ song\\x \y  ").
Proof.
  split; [vm_compute; reflexivity|].
  rewrite Forall_forall. intros c Hc. cbn in Hc. repeat destruct Hc as [<-|Hc]; [..|contradiction]; lia.
Qed.

(* ------------------------------------------------------------------ *)
(** ** C45: arguments reach commands unchanged *)

(** A word of ordinary characters is received unchanged exactly when all its characters lie
    below U+00C0. *)
Theorem C45_intact_iff_partial : forall w,
  w <> [] -> tight w -> ~ In blank w -> ~ In backslash w ->
  (p_params (parse_command (T "queue " ++ w)) = [w] <-> Forall (fun c => c < 0xC0) w).
Proof.
  intros w Hn Ht Hb Hs.
  assert (R : read w = map Chr w).
  { clear Hn Ht. induction w as [|c w IH]; [reflexivity|].
    cbn [map]. unfold blank, backslash in *. rewrite read_plain.
    - f_equal. apply IH; intro; [apply Hb|apply Hs]; now right.
    - intros ->. apply Hs. now left.
    - intros ->. apply Hb. now left. }
  assert (P : parse_command (T "queue " ++ w) =
    {| p_command := T "queue"; p_params := [trim_space (map delivered w)] |}).
  { destruct (parse_command_reads (T "queue " ++ w)) as (v & vs & E & ->).
    apply reads_fun in E.
    change (read (T "queue " ++ w)) with (map Chr (T "queue") ++ Sep :: read w) in E.
    rewrite R in E. change (map Chr (T "queue") ++ Sep :: map Chr w) with (spelled [T "queue"; w]) in E.
    apply spelled_inj in E; [|discriminate|discriminate]. injection E as <- <-.
    destruct w; [congruence|]. reflexivity. }
  rewrite P. cbn [p_params]. split.
  - intros [= H]. now apply trim_delivered_id.
  - intro F. rewrite map_delivered_id by exact F. f_equal. now apply trim_space_tight.
Qed.

(** An accented letter arrives as another character; different file names arrive as the same
    argument. *)
Theorem C45_accents_refuted :
  p_params (parse_command (T "queue " ++ [0xE9])) = [[0xA9]] /\
  p_params (parse_command (T "queue " ++ [0x129])) = [[0xA9]].
Proof. split; vm_compute; reflexivity. Qed.

(** ... and so does every character from U+00C0 on. *)
Theorem C45_every_later_character_refuted : forall c, scalar c -> 0xC0 <= c ->
  exists c', p_params (parse_command (T "x y" ++ [c] ++ T "z")) = [T "y" ++ [c'] ++ T "z"] /\ c' <> c /\ c' < 0xC0.
Proof.
  intros c Hs Hc. exists (delivered c).
  assert (Hd : delivered c < 0xC0) by apply delivered_lt.
  split; [|split; [lia|exact Hd]].
  destruct (parse_command_reads (T "x y" ++ [c] ++ T "z")) as (v & vs & E & ->).
  apply reads_fun in E.
  assert (R : read (T "x y" ++ [c] ++ T "z") = spelled [T "x"; T "y" ++ [c] ++ T "z"]).
  { change (T "x y" ++ [c] ++ T "z") with [120; 32; 121; c; 122].
    rewrite read_plain by discriminate.
    change (read [32; 121; c; 122]) with (Sep :: read [121; c; 122]).
    rewrite (read_plain 121) by discriminate. rewrite (read_plain c) by lia. reflexivity. }
  rewrite R in E. apply spelled_inj in E; [|discriminate|discriminate]. injection E as <- <-.
  cbn [p_params filter nonempty app]. cbn [T app map String.list_ascii_of_string nonempty filter].
  reflexivity.
Qed.

Example C45_nonvacuous :
  let w := T "song.mp3" in w <> [] /\ tight w /\ ~ In blank w /\ ~ In backslash w /\
  Forall (fun c => c < 0xC0) w.
Proof.
  cbv zeta. split; [discriminate|]. split; [apply trim_space_tight; reflexivity|].
  split; [|split].
  - intro H. cbn in H. repeat destruct H as [H|H]; try discriminate; contradiction.
  - intro H. cbn in H. repeat destruct H as [H|H]; try discriminate; contradiction.
  - rewrite Forall_forall. intros c Hc. cbn in Hc. repeat destruct Hc as [<-|Hc]; [..|contradiction]; lia.
Qed.

(* ------------------------------------------------------------------ *)
(** ** C46: Unparse is the inverse of parsing *)

(** Parsing an unparsed command gives it back exactly when no argument is empty, no word has
    white space at an end or a character from U+00C0 on, and no backslash in a word is
    followed by a backslash or a blank or ends the word. *)
Theorem C46_roundtrip_iff_partial : forall c,
  parse_command (unparse c) = c <->
  sound_word (p_command c) /\ Forall (fun p => p <> [] /\ sound_word p) (p_params c).
Proof. exact roundtrip_iff. Qed.

(** A doubled backslash loses one, an argument ending in a backslash merges with the next. *)
Theorem C46_backslash_refuted :
  parse_command (unparse {| p_command := T "queue"; p_params := [T "a\\b"] |})
    = {| p_command := T "queue"; p_params := [T "a\b"] |} /\
  parse_command (unparse {| p_command := T "queue"; p_params := [T "a\"; T "3"] |})
    = {| p_command := T "queue"; p_params := [T "a 3"] |}.
Proof. split; vm_compute; reflexivity. Qed.

Example C46_nonvacuous :
  let c := {| p_command := T "queue"; p_params := [T "my \best song.mp3"; T "-3"] |} in
  sound_word (p_command c) /\ Forall (fun p => p <> [] /\ sound_word p) (p_params c).
Proof. cbv zeta. apply (proj1 (C46_roundtrip_iff_partial _)). vm_compute. reflexivity. Qed.

Print Assumptions C44_line_split.
Print Assumptions C44_reading_determined.
Print Assumptions C45_intact_iff_partial.
Print Assumptions C45_accents_refuted.
Print Assumptions C45_every_later_character_refuted.
Print Assumptions C46_roundtrip_iff_partial.
Print Assumptions C46_backslash_refuted.
