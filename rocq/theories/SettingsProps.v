(** C120: the clients work with every setting they accept. *)
From Verif Require Import GoBase GoBaseFacts GoUtf8 WireModel InfoerModel DrawModel LifeModel CliModel SettingsModel.
From Coq Require Import ZifyBool ZifyNat ZifyN.
Local Open Scope Z_scope.

Lemma div_go_ok a b : b <> 0 -> div_go a b = Ok (go_div a b).
Proof. intros H. unfold div_go. now replace (b =? 0) with false by lia. Qed.
Lemma remove_go sr now l : sr <> 0 -> remove_old_chunks_go sr now l = Ok (remove_old_chunks sr now l).
Proof.
  intros H. induction l as [|c l IH]; [reflexivity|]. cbn [remove_old_chunks_go remove_old_chunks]. unfold end_time_go. rewrite div_go_ok by exact H.
  cbn [obind]. unfold end_time, chunk_length. destruct (now <=? _); [reflexivity|exact IH].
Qed.
Lemma info_go_ok sr now s : sr <> 0 -> info_go sr now s = Ok (fst (get_info sr now s)).
Proof.
  intros H. unfold info_go, get_info. rewrite remove_go by exact H. cbn [obind]. cbv zeta.
  destruct (pauses_in_song _ _ _) as [pz playing]. cbn [fst]. unfold make_info.
  destruct (negb _ && _)%bool; cbn [andb]; [|reflexivity]. rewrite !div_go_ok by exact H. cbn [obind].
  unfold samples_to_ns. f_equal.
Qed.

(** With any sample rate but 0 and any history size the command line takes - except the seven
    largest - the info client draws what the other theorems about it speak of, whatever it has
    received and however large the terminal is. *)
Theorem C120_info_partial : forall sr history w h now s,
  sr <> 0 -> - 2 ^ 63 <= history < 2 ^ 63 - 7 -> 0 <= h < 2 ^ 31 ->
  redraw_go sr history w h now s = Ok (fst (get_info sr now s), redraw history w h (fst (get_info sr now s))).
Proof.
  intros sr history w h now s Hs Hh Hz. unfold redraw_go, redraw. rewrite info_go_ok by exact Hs. cbn [obind].
  set (i := fst (get_info sr now s)). clearbody i. unfold draw_lyrics_go, draw_lyrics.
  assert (E : lyrics_height_go history h = lyrics_height history h).
  { unfold lyrics_height_go, lyrics_height. rewrite (wrap64_id (h - 7)) by (unfold in_int64; lia). destruct (Z.leb_spec (- 2 ^ 63) (history + 7)).
    - rewrite (wrap64_id (history + 7)) by (unfold in_int64; lia). reflexivity.
    - lia. }
  cbv zeta. rewrite E. destruct (0 <? lyrics_height history h) eqn:P; [|reflexivity].
  replace (can_make (lyrics_height history h) 16) with true; [reflexivity|].
  unfold can_make, lyrics_height, max_alloc in *. destruct (h <? history + 7) eqn:Q; lia.
Qed.
Print Assumptions C120_info_partial.

(** With a sample rate of 0 the info client crashes at the first redraw after a chunk was
    announced. *)
Theorem C120_rate_refuted : forall history w h now s, chunks s <> [] -> redraw_go 0 history w h now s = Panic.
Proof.
  intros history w h now s H. unfold redraw_go, info_go. destruct (chunks s) as [|c l]; [contradiction|]. reflexivity.
Qed.
Print Assumptions C120_rate_refuted.

(** With one of the seven largest history sizes it crashes at the first redraw, whatever has
    been received. *)
Theorem C120_history_refuted : forall sr history w h now s, sr <> 0 -> 2 ^ 63 - 7 <= history < 2 ^ 63 -> 0 <= h ->
  redraw_go sr history w h now s = Panic.
Proof.
  intros sr history w h now s Hs Hh Hz. unfold redraw_go. rewrite info_go_ok by exact Hs. cbn [obind].
  assert (E : lyrics_height_go history h = history).
  { unfold lyrics_height_go.
    assert (W : wrap64 (history + 7) = history + 7 - 2 ^ 64).
    { unfold wrap64. replace (history + 7 + 2 ^ 63) with (history + 7 - 2 ^ 63 + 1 * 2 ^ 64) by lia. rewrite Z.mod_add by lia. rewrite Z.mod_small; lia. }
    rewrite W. replace (h <? history + 7 - 2 ^ 64) with false by lia. reflexivity. }
  unfold draw_lyrics_go. cbv zeta. rewrite E. replace (0 <? history) with true by lia.
  replace (can_make history 16) with false by (unfold can_make, max_alloc; lia). reflexivity.
Qed.
Print Assumptions C120_history_refuted.

(** The player plays a tenth of a second at a time, and its queue takes two seconds, with every
    sample rate from 10 on. *)
Theorem C120_player_partial : forall sr, 10 <= sr <= 2 ^ 32 ->
  player_fate_of sr = PlaysBuffers (sr / 10) (2 * sr) /\ 0 < sr / 10 < 2 * sr.
Proof.
  intros sr H. split; [|pose proof (Z.div_str_pos sr 10); pose proof (Z.div_lt sr 10); lia].
  unfold player_fate_of. rewrite (wrap64_id (2 * sr)), (wrap64_id (100000000 * sr)) by (unfold in_int64; lia).
  assert (E : go_div (100000000 * sr) 1000000000 = sr / 10).
  { unfold go_div. rewrite Z.quot_div_nonneg by lia. replace 1000000000 with (100000000 * 10) by lia. apply Z.div_mul_cancel_l; lia. }
  rewrite E. pose proof (Z.div_str_pos sr 10). pose proof (Z.div_lt sr 10).
  replace (can_make (2 * sr) 24) with true by (unfold can_make, max_alloc; lia).
  replace (can_make (sr / 10) 16) with true by (unfold can_make, max_alloc; lia).
  cbn [andb negb]. replace (sr =? 0) with false by lia. replace (sr / 10 =? 0) with false by lia. reflexivity.
Qed.
Print Assumptions C120_player_partial.

(** Sample rates below 10 do not work: the player crashes, or it never plays anything. *)
Theorem C120_player_refuted : forall sr,
  (- 2 ^ 62 <= sr < 0 -> player_fate_of sr = PlayerCrashes)
  /\ (sr = 0 -> player_fate_of sr = CrashesAtChunk)
  /\ (1 <= sr < 10 -> player_fate_of sr = Silent).
Proof.
  intros sr. split; [|split].
  - intros H. unfold player_fate_of. rewrite (wrap64_id (2 * sr)) by (unfold in_int64; lia).
    replace (can_make (2 * sr) 24) with false by (unfold can_make; lia). reflexivity.
  - intros ->. reflexivity.
  - intros H. assert (sr = 1 \/ sr = 2 \/ sr = 3 \/ sr = 4 \/ sr = 5 \/ sr = 6 \/ sr = 7 \/ sr = 8 \/ sr = 9) as C by lia.
    repeat (destruct C as [->|C]; [reflexivity|]). subst sr. reflexivity.
Qed.
Print Assumptions C120_player_refuted.

(** All these settings are accepted. *)
Definition settings_of (f : fate client_config) : option (Z * Z) :=
  match f with Runs c => Some (cc_sample_rate c, cc_history c) | _ => None end.
Example C120_accepted :
  settings_of (infoer_main [T "--sample-rate"; T "0"]) = Some (0, 5)
  /\ settings_of (infoer_main [T "--lyrics-history-size"; T "9223372036854775807"]) = Some (44100, 2 ^ 63 - 1)
  /\ settings_of (infoer_main [T "--lyrics-history-size"; T "9223372036854775800"]) = Some (44100, 2 ^ 63 - 8)
  /\ settings_of (player_main [T "--sample-rate"; T "0"]) = Some (0, 0)
  /\ settings_of (player_main [T "--sample-rate=-44100"]) = Some (-44100, 0)
  /\ settings_of (player_main []) = Some (44100, 0) /\ player_fate_of 44100 = PlaysBuffers 4410 88200.
Proof. vm_compute. repeat split; reflexivity. Qed.
(** A redraw with a chunk and a song. *)
Example C120_redraw_example :
  let s := {| songs := [{| filename := T "a"; startIndex := 5; length_ := 100; lyrics := []; metadata := ([], [], []) |}];
              chunks := [{| c_startTime := 0; c_startIndex := 0; c_size := 100000 |}]; pauses := []; volume := 0 |} in
  redraw_go 0 5 80 24 1000 s = Panic /\ match redraw_go 44100 5 80 24 1000000000 s with Ok (i, ws) => i_sample i = 44100 | Panic => False end.
Proof. vm_compute. split; reflexivity. Qed.

(* ================= C94 ================= *)
(** Without options server and clients start with the same settings for the time
    synchronisation, and with the same sample rate; no program but the server knows an option
    for it. *)
Theorem C94_command_line_refuted : exists s p i,
  CliModel.server_main [] = CliModel.Runs s /\ CliModel.player_main [] = CliModel.Runs p /\ CliModel.infoer_main [] = CliModel.Runs i /\
  let none := LifeModel.Build_sync_flags None None None None in
  LifeModel.server_vars none = Some (LifeModel.Build_sched_vars (CliModel.sc_sync_interval s) (CliModel.sc_sync_cycles s) (CliModel.sc_sync_delay s) (CliModel.sc_sample_rate s)) /\
  LifeModel.client_vars none = LifeModel.server_vars none /\ LifeModel.server_vars none = Some LifeModel.default_vars /\
  CliModel.cc_sample_rate p = CliModel.sc_sample_rate s /\ CliModel.cc_sample_rate i = CliModel.sc_sample_rate s /\
  forall o v, In o [T "--time-sync-interval"; T "--time-sync-cycles"; T "--time-sync-cycle-delay"] ->
    v <> T "--generate-bash-completion" ->
    CliModel.player_main [o; v] = CliModel.Refused /\ CliModel.infoer_main [o; v] = CliModel.Refused.
Proof.
  do 3 eexists. split; [vm_compute; reflexivity|]. split; [vm_compute; reflexivity|]. split; [vm_compute; reflexivity|].
  split; [vm_compute; reflexivity|]. split; [reflexivity|]. split; [vm_compute; reflexivity|]. split; [reflexivity|]. split; [reflexivity|].
  intros o v Ho Hv.
  assert (E : text_eqb v CliModel.completion_arg = false).
  { destruct (text_eqb v CliModel.completion_arg) eqn:E; [apply text_eqb_eq in E; now destruct Hv|reflexivity]. }
  destruct Ho as [<-|[<-|[<-|[]]]]; unfold CliModel.player_main, CliModel.infoer_main, CliModel.app_run, CliModel.shell_complete;
    cbn [rev app]; rewrite E; split; vm_compute; reflexivity.
Qed.
Print Assumptions C94_command_line_refuted.
