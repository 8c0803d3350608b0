(** Property C113: the info client's screen follows the terminal, and the terminal is given
    back. *)
From Verif Require Import GoBase GoBaseFacts PlaylistModel InfoerModel DrawModel ScreenModel ScreenSpec ScreenProofs.
From Coq Require Import ZifyBool ZifyNat.
Local Open Scope Z_scope.

(** Once the changes of the terminal's size have been noticed and the size does not change any
    more, every frame shown is exactly the screen (C83-C87) for that size - except for a frame
    that was being drawn at that time. *)
Theorem C113_right_size : forall history sz acts s later s',
  run history (start sz) acts = Some s -> noticed s -> no_resize later -> run history s later = Some s' ->
  exists frames, shown s' = shown s ++ frames /\ Forall (right_frame history (size s)) (tl frames) /\
    (between_redraws s -> Forall (right_frame history (size s)) frames).
Proof.
  intros history sz acts s later s' H [Nr E] NR H'.
  assert (I : size_inv s) by (apply (size_run history (start sz) acts); [intros _; destruct sz; reflexivity|exact H]).
  specialize (I Nr).
  destruct (frames_run history (size s) later s s') as (fs & F1 & F2 & F3); [|exact NR|exact H'|].
  { split; [reflexivity|]. destruct E as [E|[E|E]]; rewrite E in *; auto. }
  exists fs. repeat split; auto. intros [B|B]; apply F3; unfold drawn; rewrite B; exact Logic.I.
Qed.
Print Assumptions C113_right_size.

(** The changes are noticed: whatever the drawing is doing, the event goroutine alone gets to
    the point where they are (unless it reads Ctrl-C first). *)
Theorem C113_noticed : forall history sz acts s,
  run history (start sz) acts = Some s -> ended s = None -> ev s = EPoll -> ~ In TOther (queue s) ->
  exists n s', run history s (repeat AEv n) = Some s' /\ (noticed s' \/ ev s' = EQuit) /\ size s' = size s.
Proof.
  intros history sz acts s H En E NO. destruct (reads history (queue s) s En E eq_refl NO) as (n & s' & A & B & C & D & _).
  exists n, s'. split; [exact A|]. split; [|exact D]. destruct C as [(C1 & C2 & _)|C]; [left|now right].
  split; [rewrite C2; intros []|now left].
Qed.
Print Assumptions C113_noticed.

(** How the client ends: with status 0 and the terminal given back, once, only after Ctrl-C was
    read; with status 1 only when another part of the client gave up; by a crash only when an
    unexpected event was read.  No other key has any part in it. *)
Theorem C113_how_it_ends_partial : forall history sz acts s, run history (start sz) acts = Some s ->
  match ended s with
  | None => (restored s <= 1)%nat /\ (restored s = 1%nat -> In (TKey true) (polled s))
  | Some (Exit n) => n = 0 /\ In (TKey true) (polled s) /\ restored s = 1%nat \/ n = 1 /\ In AKill acts
  | Some Crash => In TOther (polled s)
  end.
Proof.
  intros history sz acts s H. destruct (end_run history acts [] _ _ (end_start sz) H) as (I1 & I2 & I3 & I4 & I5 & I6 & I7).
  destruct (ended s) as [[n|]|] eqn:E.
  - destruct (I6 n eq_refl) as [[-> M]|[-> K]]; [left|right; auto]. rewrite M in *. repeat split; auto.
  - auto.
  - split; [destruct (main s); lia|]. intros R. apply I2. right. apply I4. right. destruct (main s); congruence.
Qed.
Print Assumptions C113_how_it_ends_partial.

(** After Ctrl-C: when the event goroutine has stopped the loop, at most one more frame is
    shown, whatever else happens, and the main goroutine needs nobody to get to
    the end, whatever there is to draw. *)
Theorem C113_ctrl_c : forall history sz acts s (i : info),
  run history (start sz) acts = Some s -> running s = false -> ended s = None ->
  (forall later s', run history s later = Some s' -> exists frames, shown s' = shown s ++ frames /\ (length frames <= 1)%nat) /\
  (exists n s', run history s (repeat (AMain i) n) = Some s' /\ ended s' = Some (Exit 0) /\ restored s' = 1%nat).
Proof.
  intros history sz acts s i H R En. split.
  - intros later s' H'. destruct (shown_grows history later s s' H') as [fs F]. exists fs. split; [exact F|].
    destruct (stopping_run history later s s' R H') as [_ L]. rewrite F, app_length in L.
    assert (frames_left s <= 1)%nat by (unfold frames_left; destruct (main s); lia). lia.
  - destruct (ends history i s En R) as (n & s' & A & B). exists n, s'. split; [exact A|]. split; [exact B|].
    assert (H2 : run history (start sz) (acts ++ repeat (AMain i) n) = Some s') by (rewrite run_app, H; exact A).
    destruct (end_run history _ [] _ _ (end_start sz) H2) as (_ & _ & I3 & _ & _ & I6 & _).
    destruct (I6 0 B) as [[_ M]|[X _]]; [rewrite M in I3; exact I3|discriminate].
Qed.
Print Assumptions C113_ctrl_c.

(** Ctrl-C is read and stops the loop: from every state in which it is waiting (and no
    unexpected event is before it), the event goroutine alone gets there. *)
Theorem C113_ctrl_c_noticed : forall history sz acts s,
  run history (start sz) acts = Some s -> ended s = None -> ev s = EPoll -> In (TKey true) (queue s) -> ~ In TOther (queue s) ->
  exists n s', run history s (repeat AEv n) = Some s' /\ running s' = false /\ ended s' = None.
Proof.
  intros history sz acts s _ En E C NO. destruct (reads history (queue s) s En E eq_refl NO) as (n & s' & A & B & [(D1 & D2 & D3)|D] & _ & _); [contradiction|].
  exists (n + 1)%nat. eexists. rewrite repeat_app, run_app, A. cbn. unfold step. rewrite B. unfold ev_step. rewrite D. repeat split.
Qed.
Print Assumptions C113_ctrl_c_noticed.

(** Refuted: when the client leaves because of the connection to the server (status 1), or
    crashes because of an unexpected event such as the loss of the terminal, the terminal is
    not given back. *)
Theorem C113_not_restored_refuted : forall history sz acts s,
  run history (start sz) acts = Some s -> ended s = None ->
  (~ In (TKey true) (polled s) ->
   exists s', run history s [AKill] = Some s' /\ ended s' = Some (Exit 1) /\ restored s' = 0%nat) /\
  (ev s = EPoll -> queue s = [] ->
   exists s', run history s [AEvent TOther; AEv] = Some s' /\ ended s' = Some Crash /\ restored s' = 0%nat).
Proof.
  intros history sz acts s H En. destruct (end_run history acts [] _ _ (end_start sz) H) as (I1 & I2 & I3 & I4 & _).
  assert (Z0 : running s = true -> restored s = 0%nat).
  { intros R. rewrite I3. destruct (main s); auto. rewrite I4 in R by auto. discriminate. }
  split.
  - intros NK. eexists. cbn. unfold step. rewrite En. split; [reflexivity|]. split; [reflexivity|]. cbn.
    apply Z0. destruct (running s) eqn:R; [reflexivity|]. exfalso. apply NK, I2. auto.
  - intros E Q. eexists. cbn. unfold step at 1. rewrite En. cbn. unfold step. cbn. unfold ev_step. cbn. rewrite E, Q. cbn.
    split; [reflexivity|]. split; [reflexivity|]. cbn. apply Z0. destruct (running s) eqn:R; [reflexivity|]. rewrite I1 in E by reflexivity. discriminate.
Qed.
Print Assumptions C113_not_restored_refuted.

(** Non-vacuity: a frame at 20 x 12; the terminal becomes 30 x 14 while the second one is drawn,
    and another key is pressed.  That frame was drawn for the new width and partly for the old
    height and is wrong; the third is right.  Then Ctrl-C ends the client. *)
Definition x_info : info :=
  {| i_song := {| filename := T "a.mp3"; startIndex := 0; length_ := 100; lyrics := [[(0, T "la")]]; metadata := (T "song", T "artist", []) |};
     i_sample := 50; i_pauses := 0; i_now := 0; i_playing := true; i_volume := 0x3FE0000000000000%N; i_songLength := 60000000000;
     i_timeInSong := 30000000000; i_progress := (50, 100) |}.
Definition mains (n : nat) : list act := repeat (AMain x_info) n.
Definition x_acts : list act :=
  mains 215 ++ [AResize 30 14; AEvent (TKey false); AEv; AEv; AEv; AEv] ++ mains 2 ++ [AEv; AEv].
Definition x_later : list act := mains 600 ++ [AEvent (TKey true); AEv; AEv].
Definition after (s : st) (l : list act) : st := match run 3 s l with Some s' => s' | None => s end.
Lemma run_ok s l : (match run 3 s l with Some _ => true | None => false end) = true -> run 3 s l = Some (after s l).
Proof. unfold after. intros H. destruct (run 3 s l); [reflexivity|discriminate H]. Qed.
Example C113_nonvacuous :
  let s := after (start (20, 12)) x_acts in let s' := after s x_later in let e := after s' (mains 181) in
  run 3 (start (20, 12)) x_acts = Some s /\ noticed s /\ size s = (30, 14) /\ Datatypes.length (shown s) = 1%nat /\
  no_resize x_later /\ run 3 s x_later = Some s' /\ Datatypes.length (shown s') = 3%nat /\
  (exists torn right, shown s' = shown s ++ [torn; right] /\ right_frame 3 (30, 14) right /\ ~ right_frame 3 (30, 14) torn) /\
  running s' = false /\ run 3 s' (mains 181) = Some e /\ ended e = Some (Exit 0).
Proof.
  cbv zeta. pose proof (run_ok (start (20, 12)) x_acts ltac:(vm_compute; reflexivity)) as R1.
  pose proof (run_ok (after (start (20, 12)) x_acts) x_later ltac:(vm_compute; reflexivity)) as R2.
  set (s := after (start (20, 12)) x_acts) in *. set (s' := after s x_later) in *.
  assert (Nt : noticed s) by (split; [vm_compute; intuition discriminate|left; vm_compute; reflexivity]).
  assert (Sz : size s = (30, 14)) by (vm_compute; reflexivity).
  assert (L1 : Datatypes.length (shown s) = 1%nat) by (vm_compute; reflexivity).
  assert (L2 : Datatypes.length (shown s') = 3%nat) by (vm_compute; reflexivity).
  assert (T1 : nth 1 (map (fun f => snd f 14 10) (shown s')) None = Some 32%N) by (vm_compute; reflexivity).
  assert (T2 : nth 1 (map fst (shown s')) x_info = x_info) by (vm_compute; reflexivity).
  assert (Rn : running s' = false) by (vm_compute; reflexivity).
  assert (Ed : ended (after s' (mains 181)) = Some (Exit 0)) by (vm_compute; reflexivity).
  assert (Rd : run 3 s' (mains 181) = Some (after s' (mains 181))) by (apply run_ok; vm_compute; reflexivity).
  set (e := after s' (mains 181)) in *. clearbody e. clearbody s'. clearbody s.
  assert (NR : no_resize x_later).
  { intros w h X. unfold x_later, mains in X. apply in_app_or in X as [X|X]; [apply repeat_spec in X; discriminate|].
    cbn in X. intuition discriminate. }
  destruct (C113_right_size 3 (20, 12) x_acts s x_later s' R1 Nt NR R2) as (fs & F1 & F2 & _).
  repeat (split; [assumption|]). split; [|split; [exact Rn|split; [exact Rd|exact Ed]]].
  rewrite F1, app_length, L1 in L2. destruct fs as [|t [|r [|]]]; try discriminate L2. exists t, r.
  split; [exact F1|]. cbn [tl] in F2. apply Forall_inv in F2. rewrite Sz in F2. split; [exact F2|].
  intros W. specialize (W 14 10). cbn [fst snd] in W.
  rewrite F1, map_app in T1. destruct (shown s) as [|f0 [|]]; try discriminate L1. cbn [map app nth] in T1. rewrite T1 in W.
  rewrite F1, map_app in T2. cbn [map app nth] in T2. rewrite T2 in W. revert W.
  assert (V : screen_after 3 30 14 x_info 14 10 = Some 86%N) by (vm_compute; reflexivity). rewrite V. intros W. discriminate W.
Qed.
