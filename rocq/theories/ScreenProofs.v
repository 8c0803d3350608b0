(** Proofs about the info client's screen loop. *)
From Verif Require Import GoBase GoBaseFacts InfoerModel DrawModel ScreenModel ScreenSpec.
From Coq Require Import ZifyBool ZifyNat.
Local Open Scope Z_scope.

(** A drawing program that sees one size. *)
Fixpoint eval (w h : Z) (p : draw) : list (Z * Z * N) :=
  match p with
  | DDone => []
  | DGetW k => eval w h (k w)
  | DGetH k => eval w h (k h)
  | DWrite ws k => ws ++ eval w h k
  end.

Lemma eval_lines w h ls k : eval w h (prog_lines ls k) =
  concat (map (fun p => draw_string 1 (h - 7 - Z.of_nat (fst p)) (snd p)) ls) ++ eval w h k.
Proof. induction ls as [|p ls IH]; [reflexivity|]. cbn [prog_lines fold_right eval map concat]. fold (prog_lines ls k). now rewrite IH, app_assoc. Qed.

Lemma eval_redraw history w h i : eval w h (redraw_prog history i) = redraw history w h i.
Proof.
  unfold redraw_prog, redraw, prog_playback_info. cbn zeta. cbn [eval].
  assert (L : eval w h (prog_lyrics history i DDone) = draw_lyrics history w h i).
  { unfold prog_lyrics, draw_lyrics, lyrics_height. cbn [eval].
    assert (B : forall height, eval w h (prog_lyrics_box height i DDone) =
      if 0 <? height then
        let lines := lyrics_history (Z.to_nat height) (lyrics (i_song i)) (i_timeInSong i) in
        concat (map (fun p => draw_string 1 (h - 7 - Z.of_nat (fst p)) (snd p)) (combine (seq 0 (length lines)) lines))
        ++ draw_box 0 (h - 7 - height) w (height + 2) ++ draw_string 2 (h - 7 - height) (T "Lyrics")
      else []).
    { intros height. unfold prog_lyrics_box. destruct (0 <? height); [|reflexivity]. cbn zeta. rewrite eval_lines. cbn [eval]. now rewrite app_nil_r. }
    destruct (h <? history + 7); cbn [eval]; rewrite B; reflexivity. }
  rewrite L. unfold draw_playback_info. cbn zeta. rewrite <- !app_assoc. reflexivity.
Qed.

Lemma last_write_filter sz ws x y : inside sz (x, y, 0%N) = true -> last_write (filter (inside sz) ws) x y = last_write ws x y.
Proof.
  intros H. induction ws as [|[[a b] r] ws IH]; [reflexivity|]. cbn [filter last_write].
  destruct (inside sz (a, b, r)) eqn:E; cbn [last_write]; rewrite IH; [reflexivity|].
  destruct (last_write ws x y); [reflexivity|]. destruct ((a =? x) && (b =? y)) eqn:E2; [|reflexivity].
  assert (a = x /\ b = y) as [-> ->] by lia. unfold inside in *. congruence.
Qed.

Lemma cell_filter sz ws x y : cell (fst sz) (snd sz) (filter (inside sz) ws) x y = cell (fst sz) (snd sz) ws x y.
Proof.
  unfold cell. destruct ((0 <=? x) && (x <? fst sz) && (0 <=? y) && (y <? snd sz)) eqn:E; [|reflexivity].
  rewrite last_write_filter by exact E. reflexivity.
Qed.

Section Loop.
Variable history : Z.
Notation step := (step history). Notation run := (run history).

Lemma run_app s l1 l2 : run s (l1 ++ l2) = match run s l1 with Some s' => run s' l2 | None => None end.
Proof. revert s. induction l1 as [|a l1 IH]; intros s; [reflexivity|]. cbn [app ScreenModel.run]. destruct (step s a); [apply IH|reflexivity]. Qed.

(* ------------------------------------------------------------------ *)
(** ** The size *)

(** the drawer's size is right as soon as no resize is pending *)
Definition size_inv (s : st) : Prop :=
  (~ In TResize (queue s) ->
   match ev s with
   | ESync | ESize => True
   | EStoreW w h => (w, h) = size s
   | EStoreH h => (d_w s, h) = size s
   | _ => (d_w s, d_h s) = size s
   end).

Lemma size_step s a s' : size_inv s -> step s a = Some s' -> size_inv s'.
Proof.
  unfold size_inv, step. intros I H. destruct (ended s); [discriminate|]. destruct a as [w h|e|i| |].
  - injection H as <-. cbn. intros N. exfalso. apply N. apply in_or_app. right. now left.
  - injection H as <-. cbn. intros N. apply I. intros X. apply N. apply in_or_app. now left.
  - unfold main_step in H.
    destruct (main s) as [| | | |j [|k|k|[|c ws] k]|j| |]; injection H as <-; cbn; exact I.
  - unfold ev_step in H. destruct (ev s) as [| | |w h|h| |] eqn:E.
    + destruct (queue s) as [|e q] eqn:Q; [discriminate|].
      destruct e as [[|]| |]; injection H as <-; cbn; intros N; try exact Logic.I; apply I; intros [X|X]; try discriminate; auto.
    + injection H as <-. cbn. auto.
    + injection H as <-. cbn. intros _. destruct (size s); reflexivity.
    + injection H as <-. cbn. exact I.
    + injection H as <-. cbn. exact I.
    + injection H as <-. cbn. exact I.
    + discriminate.
  - injection H as <-. cbn. exact I.
Qed.

Lemma size_run s l s' : size_inv s -> run s l = Some s' -> size_inv s'.
Proof.
  revert s. induction l as [|a l IH]; intros s I H; cbn in H; [injection H as <-; exact I|].
  destruct (step s a) as [s1|] eqn:E; [|discriminate]. exact (IH s1 (size_step _ _ _ I E) H).
Qed.

(* ------------------------------------------------------------------ *)
(** ** Frames *)

(** the size does not change any more *)
Definition steady (sz : Z * Z) (s : st) : Prop :=
  size s = sz /\ (d_w s, d_h s) = sz /\
  match ev s with EStoreW w h => (w, h) = sz | EStoreH h => h = snd sz | _ => True end.

(** the cells drawn so far, when the redraw started with a steady size *)
Definition drawn (sz : Z * Z) (s : st) : Prop :=
  match main s with
  | MInfo => cells s = []
  | MDraw j p => cells s ++ filter (inside sz) (eval (fst sz) (snd sz) p) = filter (inside sz) (redraw history (fst sz) (snd sz) j)
  | MShow j => cells s = filter (inside sz) (redraw history (fst sz) (snd sz) j)
  | _ => True
  end.

Lemma frame_step sz s a s' : steady sz s -> (forall w h, a <> AResize w h) -> step s a = Some s' ->
  steady sz s' /\
  ((shown s' = shown s /\ (drawn sz s -> drawn sz s')) \/
   (drawn sz s' /\ exists f, shown s' = shown s ++ [f] /\ (drawn sz s -> right_frame history sz f))).
Proof.
  unfold steady, step. intros (S1 & S2 & S3) NR H. destruct (ended s); [discriminate|].
  assert (W : d_w s = fst sz) by (rewrite <- S2; reflexivity). assert (Hh : d_h s = snd sz) by (rewrite <- S2; reflexivity).
  destruct a as [w h|e|i| |].
  - exfalso. exact (NR w h eq_refl).
  - injection H as <-. cbn [size d_w d_h ev shown main cells]. split; [auto|]. left. split; [reflexivity|]. unfold drawn. cbn [main cells]. auto.
  - unfold main_step in H. destruct (main s) as [| | | |j [|k|k|[|c ws] k]|j| |] eqn:M; injection H as <-; cbn [size d_w d_h ev shown];
      (split; [auto|]); unfold drawn; cbn [main cells]; rewrite ?M.
    + left. auto.
    + left. split; [reflexivity|]. destruct (running s); auto.
    + left. auto.
    + left. split; [reflexivity|]. intros ->. rewrite eval_redraw. reflexivity.
    + left. split; [reflexivity|]. cbn [eval filter]. now rewrite app_nil_r.
    + left. split; [reflexivity|]. cbn [eval]. now rewrite W.
    + left. split; [reflexivity|]. cbn [eval]. now rewrite Hh.
    + left. split; [reflexivity|]. cbn [eval]. auto.
    + left. split; [reflexivity|]. cbn [eval app filter]. rewrite S1. destruct (inside sz c); [|auto].
      intros <-. now rewrite <- app_assoc.
    + right. split; [exact Logic.I|]. eexists. split; [reflexivity|]. intros D x y. cbn [fst snd]. rewrite S1, D, cell_filter. reflexivity.
    + left. auto.
    + left. auto.
  - unfold ev_step in H.
    cut ((size s' = sz /\ (d_w s', d_h s') = sz /\ match ev s' with EStoreW w h => (w, h) = sz | EStoreH h => h = snd sz | _ => True end) /\ shown s' = shown s /\ main s' = main s /\ cells s' = cells s).
    { intros (A & B & C & D). split; [exact A|]. left. split; [exact B|]. unfold drawn. rewrite C, D. auto. }
    destruct (ev s) as [| | |w h|h| |] eqn:E.
    + destruct (queue s) as [|e q] eqn:Q; [discriminate|].
      destruct e as [[|]| |]; injection H as <-; cbn [size d_w d_h ev shown main cells]; auto.
    + injection H as <-. cbn [size d_w d_h ev shown main cells]. auto.
    + injection H as <-. cbn [size d_w d_h ev shown main cells]. rewrite S1. repeat split; auto. destruct sz; reflexivity.
    + injection H as <-. cbn [size d_w d_h ev shown main cells]. rewrite <- S3 in *. cbn [fst snd] in *. repeat split; auto. now rewrite Hh.
    + injection H as <-. cbn [size d_w d_h ev shown main cells]. repeat split; auto. rewrite W, S3. destruct sz; reflexivity.
    + injection H as <-. cbn [size d_w d_h ev shown main cells]. auto.
    + discriminate.
  - injection H as <-. cbn [size d_w d_h ev shown main cells]. split; [auto|]. left. split; [reflexivity|]. unfold drawn. cbn [main cells]. auto.
Qed.

Lemma frames_run sz l : forall s s', steady sz s -> no_resize l -> run s l = Some s' ->
  exists fs, shown s' = shown s ++ fs /\ Forall (right_frame history sz) (tl fs) /\ (drawn sz s -> Forall (right_frame history sz) fs).
Proof.
  induction l as [|a l IH]; intros s s' St NR H; cbn in H.
  - injection H as <-. exists []. rewrite app_nil_r. repeat split; constructor.
  - destruct (step s a) as [s1|] eqn:E; [|discriminate].
    destruct (frame_step sz s a s1 St) as [St1 [[Sh D]|[D (f & Sh & R)]]]; [intros w h ->; apply (NR w h); now left|exact E| |].
    + destruct (IH s1 s' St1) as (fs & F1 & F2 & F3); [intros w h X; apply (NR w h); now right|exact H|].
      exists fs. rewrite F1, Sh. repeat split; auto.
    + destruct (IH s1 s' St1) as (fs & F1 & F2 & F3); [intros w h X; apply (NR w h); now right|exact H|].
      exists (f :: fs). rewrite F1, Sh, <- app_assoc. split; [reflexivity|]. cbn [tl]. split; [auto|]. intros Dr. constructor; auto.
Qed.

(* ------------------------------------------------------------------ *)
(** ** The end *)

Definition end_inv (l : list act) (s : st) : Prop :=
  (running s = false -> ev s = EDone) /\
  ((ev s = EQuit \/ running s = false) -> In (TKey true) (polled s)) /\
  (restored s = match main s with MReturned => 1%nat | _ => 0%nat end) /\
  (main s = MFini \/ main s = MReturned -> running s = false) /\
  (ended s = Some Crash -> In TOther (polled s)) /\
  (forall n, ended s = Some (Exit n) -> n = 0 /\ main s = MReturned \/ n = 1 /\ In AKill l) /\
  (ev s = EDone -> running s = false \/ ended s = Some Crash).

Lemma end_step l s a s' : end_inv l s -> step s a = Some s' -> end_inv (l ++ [a]) s'.
Proof.
  unfold end_inv, step. intros (I1 & I2 & I3 & I4 & I5 & I6 & I7) H. destruct (ended s) eqn:En; [discriminate|].
  assert (I7' : ev s = EDone -> running s = false) by (intros X; destruct (I7 X) as [Y|Y]; [exact Y|discriminate]).
  assert (P : forall e, In (TKey true) (polled s) -> In (TKey true) (polled s ++ [e])) by (intros; apply in_or_app; now left).
  assert (Q : forall e, In e (polled s ++ [e])) by (intros; apply in_or_app; right; now left).
  clear I5 I6 I7.
  destruct a as [w h|e|i| |].
  - injection H as <-. cbn. intuition congruence.
  - injection H as <-. cbn. intuition congruence.
  - unfold main_step in H. destruct (main s) as [| | | |j [|k|k|[|c ws] k]|j| |] eqn:M; injection H as <-; cbn [running ev queue polled main restored ended];
      try (intuition congruence).
    destruct (running s); intuition congruence.
  - unfold ev_step in H. destruct (ev s) as [| | |w h|h| |] eqn:E; try discriminate.
    + destruct (queue s) as [|e q] eqn:Qe; [discriminate|].
      destruct e as [[|]| |]; injection H as <-; cbn; intuition try congruence.
      all: apply Q.
    + injection H as <-. cbn. intuition congruence.
    + injection H as <-. cbn. intuition congruence.
    + injection H as <-. cbn. intuition congruence.
    + injection H as <-. cbn. intuition congruence.
    + injection H as <-. cbn. intuition congruence.
  - injection H as <-. cbn. intuition try congruence. right. split; [congruence|]. apply in_or_app. right. now left.
Qed.

Lemma end_run l : forall l0 s s', end_inv l0 s -> run s l = Some s' -> end_inv (l0 ++ l) s'.
Proof.
  induction l as [|a l IH]; intros l0 s s' I H; cbn in H; [injection H as <-; now rewrite app_nil_r|].
  destruct (step s a) as [s1|] eqn:E; [|discriminate]. change (a :: l) with ([a] ++ l). rewrite app_assoc.
  exact (IH _ s1 s' (end_step _ _ _ _ I E) H).
Qed.

Lemma end_start sz : end_inv [] (start sz).
Proof. unfold end_inv, start; cbn. repeat split; try discriminate; intros [X|X]; discriminate. Qed.

(** how many more frames can be shown when the loop is to stop *)
Definition frames_left (s : st) : nat :=
  match main s with MClear | MInfo | MDraw _ _ | MShow _ => 1 | _ => 0 end.

Lemma stopping_step s a s' : running s = false -> step s a = Some s' ->
  running s' = false /\ (length (shown s') + frames_left s' <= length (shown s) + frames_left s)%nat.
Proof.
  unfold step, frames_left. intros R H. destruct (ended s); [discriminate|]. destruct a as [w h|e|i| |].
  - injection H as <-. cbn. auto.
  - injection H as <-. cbn. auto.
  - unfold main_step in H. destruct (main s) as [| | | |j [|k|k|[|c ws] k]|j| |] eqn:M; injection H as <-; cbn; rewrite ?R, ?app_length; cbn; split; auto; lia.
  - unfold ev_step in H. destruct (ev s) as [| | |w h|h| |] eqn:E; try discriminate.
    all: try (injection H as <-; cbn; auto; fail).
    destruct (queue s) as [|[[|]| |] q]; try discriminate; injection H as <-; cbn; auto.
  - injection H as <-. cbn. auto.
Qed.
Lemma stopping_run l : forall s s', running s = false -> run s l = Some s' ->
  running s' = false /\ (length (shown s') + frames_left s' <= length (shown s) + frames_left s)%nat.
Proof.
  induction l as [|a l IH]; intros s s' R H; cbn in H; [injection H as <-; auto|].
  destruct (step s a) as [s1|] eqn:E; [|discriminate]. destruct (stopping_step _ _ _ R E) as [R1 L1].
  destruct (IH s1 s' R1 H) as [R2 L2]. split; [exact R2|lia].
Qed.

Lemma shown_grows l : forall s s', run s l = Some s' -> exists fs, shown s' = shown s ++ fs.
Proof.
  induction l as [|a l IH]; intros s s' H; cbn in H; [injection H as <-; exists []; now rewrite app_nil_r|].
  destruct (step s a) as [s1|] eqn:E; [|discriminate]. destruct (IH _ _ H) as [fs F].
  assert (G : exists g, shown s1 = shown s ++ g).
  { unfold step in E. destruct (ended s); [discriminate|]. destruct a as [w h|e|i| |].
    - injection E as <-. exists []. cbn. now rewrite app_nil_r.
    - injection E as <-. exists []. cbn. now rewrite app_nil_r.
    - unfold main_step in E. destruct (main s) as [| | | |j [|k|k|[|c ws] k]|j| |]; injection E as <-; cbn; try (exists []; now rewrite app_nil_r). eexists; reflexivity.
    - unfold ev_step in E. destruct (ev s) as [| | |w h|h| |]; try discriminate; try (injection E as <-; exists []; cbn; now rewrite app_nil_r).
      destruct (queue s) as [|[[|]| |] q]; try discriminate; injection E as <-; exists []; cbn; now rewrite app_nil_r.
    - injection E as <-. exists []. cbn. now rewrite app_nil_r. }
  destruct G as [g G]. exists (g ++ fs). now rewrite F, G, app_assoc.
Qed.

(** the main goroutine gets to the end on its own *)
Variable i0 : info.
Lemma draw_ends p : forall s j, ended s = None -> main s = MDraw j p ->
  exists n s', run s (repeat (AMain i0) n) = Some s' /\ ended s' = None /\ main s' = MShow j /\ running s' = running s.
Proof.
  induction p as [|k IH|k IH|ws k IH]; intros s j En M.
  - exists 1%nat. eexists. cbn. unfold step. rewrite En. cbn. unfold main_step. rewrite M. repeat split.
  - assert (E : exists s1, step s (AMain i0) = Some s1 /\ ended s1 = None /\ main s1 = MDraw j (k (d_w s)) /\ running s1 = running s).
    { eexists. unfold step. rewrite En. unfold main_step. rewrite M. repeat split. }
    destruct E as (s1 & E1 & E2 & E3 & E4). destruct (IH _ s1 j E2 E3) as (n & s' & R & A & B & C).
    exists (S n), s'. cbn. rewrite E1. repeat split; congruence.
  - assert (E : exists s1, step s (AMain i0) = Some s1 /\ ended s1 = None /\ main s1 = MDraw j (k (d_h s)) /\ running s1 = running s).
    { eexists. unfold step. rewrite En. unfold main_step. rewrite M. repeat split. }
    destruct E as (s1 & E1 & E2 & E3 & E4). destruct (IH _ s1 j E2 E3) as (n & s' & R & A & B & C).
    exists (S n), s'. cbn. rewrite E1. repeat split; congruence.
  - revert s En M. induction ws as [|c ws IHw]; intros s En M.
    + assert (E : exists s1, step s (AMain i0) = Some s1 /\ ended s1 = None /\ main s1 = MDraw j k /\ running s1 = running s).
      { eexists. unfold step. rewrite En. unfold main_step. rewrite M. repeat split. }
      destruct E as (s1 & E1 & E2 & E3 & E4). destruct (IH s1 j E2 E3) as (n & s' & R & A & B & C).
      exists (S n), s'. cbn. rewrite E1. repeat split; congruence.
    + assert (E : exists s1, step s (AMain i0) = Some s1 /\ ended s1 = None /\ main s1 = MDraw j (DWrite ws k) /\ running s1 = running s).
      { eexists. unfold step. rewrite En. unfold main_step. rewrite M. repeat split. }
      destruct E as (s1 & E1 & E2 & E3 & E4). destruct (IHw s1 E2 E3) as (n & s' & R & A & B & C).
      exists (S n), s'. cbn. rewrite E1. repeat split; congruence.
Qed.

Lemma chain s m s1 : ended s = None -> running s = false -> step s (AMain i0) = Some s1 -> ended s1 = None -> main s1 = m -> running s1 = false ->
  (forall t, ended t = None -> main t = m -> running t = false ->
     exists n s', run t (repeat (AMain i0) n) = Some s' /\ ended s' = Some (Exit 0)) ->
  exists n s', run s (repeat (AMain i0) n) = Some s' /\ ended s' = Some (Exit 0).
Proof.
  intros En R E E1 M1 R1 K. destruct (K s1 E1 M1 R1) as (n & s' & A & B). exists (S n), s'. cbn. rewrite E. auto.
Qed.

Lemma ends s : ended s = None -> running s = false ->
  exists n s', run s (repeat (AMain i0) n) = Some s' /\ ended s' = Some (Exit 0).
Proof.
  assert (Ret : forall t, ended t = None -> main t = MReturned -> running t = false ->
     exists n s', run t (repeat (AMain i0) n) = Some s' /\ ended s' = Some (Exit 0)).
  { intros t En M R. exists 1%nat. eexists. cbn. unfold step. rewrite En. unfold main_step. rewrite M. split; reflexivity. }
  assert (Fin : forall t, ended t = None -> main t = MFini -> running t = false ->
     exists n s', run t (repeat (AMain i0) n) = Some s' /\ ended s' = Some (Exit 0)).
  { intros t En M R. eapply chain; [exact En|exact R|unfold step; rewrite En; unfold main_step; rewrite M; reflexivity|reflexivity|reflexivity|exact R|exact Ret]. }
  assert (Chk : forall t, ended t = None -> main t = MCheck -> running t = false ->
     exists n s', run t (repeat (AMain i0) n) = Some s' /\ ended s' = Some (Exit 0)).
  { intros t En M R. eapply chain; [exact En|exact R|unfold step; rewrite En; unfold main_step; rewrite M, R; reflexivity|reflexivity|reflexivity|reflexivity|exact Fin]. }
  assert (Tck : forall t, ended t = None -> main t = MTick -> running t = false ->
     exists n s', run t (repeat (AMain i0) n) = Some s' /\ ended s' = Some (Exit 0)).
  { intros t En M R. eapply chain; [exact En|exact R|unfold step; rewrite En; unfold main_step; rewrite M; reflexivity|reflexivity|reflexivity|exact R|exact Chk]. }
  assert (Shw : forall t j, ended t = None -> main t = MShow j -> running t = false ->
     exists n s', run t (repeat (AMain i0) n) = Some s' /\ ended s' = Some (Exit 0)).
  { intros t j En M R. eapply chain; [exact En|exact R|unfold step; rewrite En; unfold main_step; rewrite M; reflexivity|reflexivity|reflexivity|exact R|exact Tck]. }
  assert (Drw : forall t j p, ended t = None -> main t = MDraw j p -> running t = false ->
     exists n s', run t (repeat (AMain i0) n) = Some s' /\ ended s' = Some (Exit 0)).
  { intros t j p En M R. destruct (draw_ends p t j En M) as (n & t' & A & B & C & D).
    destruct (Shw t' j B C) as (m & s' & E1 & E2); [congruence|]. exists (n + m)%nat, s'. rewrite repeat_app, run_app, A. auto. }
  assert (Inf : forall t, ended t = None -> main t = MInfo -> running t = false ->
     exists n s', run t (repeat (AMain i0) n) = Some s' /\ ended s' = Some (Exit 0)).
  { intros t En M R. eapply chain; [exact En|exact R|unfold step; rewrite En; unfold main_step; rewrite M; reflexivity|reflexivity|reflexivity|exact R|].
    intros t' En' M' R'. exact (Drw t' _ _ En' M' R'). }
  assert (Clr : forall t, ended t = None -> main t = MClear -> running t = false ->
     exists n s', run t (repeat (AMain i0) n) = Some s' /\ ended s' = Some (Exit 0)).
  { intros t En M R. eapply chain; [exact En|exact R|unfold step; rewrite En; unfold main_step; rewrite M; reflexivity|reflexivity|reflexivity|exact R|exact Inf]. }
  intros En R. destruct (main s) as [| | | |j p|j| |] eqn:M; eauto.
Qed.

(** the event goroutine reads its queue on its own *)
Lemma reads q : forall s, ended s = None -> ev s = EPoll -> queue s = q -> ~ In TOther q ->
  exists n s', run s (repeat AEv n) = Some s' /\ ended s' = None /\ (ev s' = EPoll /\ queue s' = [] /\ ~ In (TKey true) q \/ ev s' = EQuit) /\ size s' = size s /\ main s' = main s.
Proof.
  induction q as [|e q IH]; intros s En E Q NO.
  - exists 0%nat, s. cbn. repeat split; auto.
  - destruct e as [[|]| |].
    + exists 1%nat. eexists. cbn. unfold step. rewrite En. unfold ev_step. rewrite E, Q. repeat split; auto.
    + assert (X : exists s1, step s AEv = Some s1 /\ ended s1 = None /\ ev s1 = EPoll /\ queue s1 = q /\ size s1 = size s /\ main s1 = main s).
      { eexists. unfold step. rewrite En. unfold ev_step. rewrite E, Q. repeat split. }
      destruct X as (s1 & X1 & X2 & X3 & X4 & X5 & X6). destruct (IH s1 X2 X3 X4) as (n & s' & A & B & C & D & F); [intros Y; apply NO; now right|].
      exists (S n), s'. cbn. rewrite X1. repeat split; try congruence. destruct C as [(C1 & C2 & C3)|C]; [left|now right]. repeat split; auto. intros [Y|Y]; [discriminate|auto].
    + assert (X : exists s1, run s (repeat AEv 5) = Some s1 /\ ended s1 = None /\ ev s1 = EPoll /\ queue s1 = q /\ size s1 = size s /\ main s1 = main s).
      { eexists. cbn. unfold step at 1. rewrite En. unfold ev_step at 1. rewrite E, Q. cbn. repeat split. }
      destruct X as (s1 & X1 & X2 & X3 & X4 & X5 & X6). destruct (IH s1 X2 X3 X4) as (n & s' & A & B & C & D & F); [intros Y; apply NO; now right|].
      exists (5 + n)%nat, s'. rewrite repeat_app, run_app, X1. repeat split; try congruence. destruct C as [(C1 & C2 & C3)|C]; [left|now right]. repeat split; auto. intros [Y|Y]; [discriminate|auto].
    + exfalso. apply NO. now left.
Qed.

End Loop.
