(** C12: the stream goes on. *)
From Verif Require Import GoBase GoBaseFacts PlaylistModel PlaylistSpec PlaylistProofs PlaylistLoopProofs.
From Coq Require Import ZifyBool ZifyNat ZifyN.
Local Open Scope Z_scope.

(** What may happen while we wait: steps of the loop, and pausing and resuming. *)
Definition waiting_action (a : action) : bool := is_loop_action a || match a with ASetPlaying _ => true | _ => false end.
Definition loop_steps (acts : list action) : nat := length (filter is_loop_action acts).

Ltac psimpl := cbn [at_pc songs position tokens pending_jumps playing playing_last current_song idx_write
  set_pc set_position set_current set_tokens set_playing set_playing_last set_songs pushed] in *.

Section Alive.
Variable decode : song -> option (list sample).
Variable nan_break : Z.
Notation pstep := (pstep decode nan_break).
Notation prun := (prun decode nan_break).

(** samples come before the present song ends *)
Definition yields (l : list sample) : bool := negb (length l =? 0)%nat || (0 <? nan_break).
Definition good (p : pc) : bool :=
  match p with
  | AtTop | Crashed => false
  | Opening f => match decode f with Some l => yields l | None => false end
  | InSong l | TogStore l | TogCall l | BlockRead l => yields l
  | Checking _ _ _ => 0 <? nan_break
  end.
Definition steps_left (p : pc) : nat :=
  match p with
  | AtTop | Crashed => 8
  | Opening _ => 6 | InSong _ => 5 | TogStore _ => 4 | TogCall _ => 3 | BlockRead _ => 2
  | Checking _ n ok => if (negb ok || (n <? streamer_buffer_size)%nat)%bool then 1 else 6
  end%nat.
Variable len k : Z.       (* of the playlist; index of a song that yields samples *)
Definition dist (p : Z) : nat := if len =? 0 then 0%nat else Z.to_nat ((k - p) mod len).
Definition to_go (s : pstate) : nat :=
  match at_pc s with
  | AtTop => dist (position s) + tokens s
  | p => if good p then 0 else (if (dist (position s) =? 0)%nat then Nat.max 1 (Z.to_nat len) else dist (position s)) + tokens s
  end%nat.
Definition measure (s : pstate) : nat := (8 * to_go s + steps_left (at_pc s))%nat.

Lemma dist_bound p : 0 <= len -> (dist p < Nat.max 1 (Z.to_nat len))%nat.
Proof.
  intros L. unfold dist. destruct (Z.eqb_spec len 0) as [->|N]; [lia|]. pose proof (Z.mod_pos_bound (k - p) len ltac:(lia)). lia.
Qed.
Lemma dist_mod p : 0 < len -> dist (p mod len) = dist p.
Proof. intros L. unfold dist. destruct (Z.eqb_spec len 0); [lia|]. now rewrite Zminus_mod_idemp_r. Qed.
(** after the song at [p] the distance is smaller, or the longest *)
Lemma dist_next p : 0 <= len -> (dist (p + 1) < if (dist p =? 0)%nat then Nat.max 1 (Z.to_nat len) else dist p)%nat.
Proof.
  intros L. pose proof (dist_bound (p + 1) L) as B. destruct (Nat.eqb_spec (dist p) 0) as [|N]; [exact B|].
  unfold dist in *. destruct (Z.eqb_spec len 0); [lia|]. replace (k - (p + 1)) with (k - p - 1) by lia.
  pose proof (Z.mod_pos_bound (k - p) len ltac:(lia)). rewrite <- (Zminus_mod_idemp_l (k - p) 1).
  rewrite (Z.mod_small ((k - p) mod len - 1)) by lia. lia.
Qed.
Lemma dist_same p : 0 <= len -> (dist p <= if (dist p =? 0)%nat then Nat.max 1 (Z.to_nat len) else dist p)%nat.
Proof. intros L. pose proof (dist_bound p L). destruct (Nat.eqb_spec (dist p) 0); lia. Qed.

Hypothesis Hlen : 0 <= len.
Definition fine (s : pstate) : Prop :=
  zlen (songs s) = len /\ 0 <= position s /\ (len = 0 \/ 0 <= k < len /\ exists l, decode (nth (Z.to_nat k) (songs s) []) = Some l /\ yields l = true).

Lemma gap_some z : 0 < z -> stream_of [EGap (nan_samples z)] <> [].
Proof. intros L E. rewrite stream_of_cons in E. cbn [samples_of_event] in E. apply app_eq_nil in E as [E _]. now apply nan_samples_nonempty in E. Qed.

Lemma enough_some nb : (0 <? nb) = true -> 0 < nb. Proof. lia. Qed.
Lemma alive_step s a s' e : fine s -> waiting_action a = true -> pstep s a = Some (s', e) ->
  fine s' /\ (stream_of e <> [] \/ measure s' + (if is_loop_action a then 1 else 0) <= measure s)%nat.
Proof.
  intros (HL & HP & HK) Ha H.
  destruct a; try discriminate; cbn [is_loop_action]; unfold PlaylistModel.pstep in H.
  - (* PNext *) destruct (at_pc s) eqn:E; try discriminate.
    destruct (Z.eqb_spec (zlen (songs s)) 0) as [Z0|NZ].
    + unfold next_song in H. rewrite (proj2 (Z.eqb_eq _ _) Z0) in H. injection H as <- <-. split; [now repeat split|]. left. apply gap_some. reflexivity.
    + assert (NE : songs s <> []) by (intros X; rewrite X in NZ; now destruct NZ).
      rewrite (next_song_nonneg (songs s) (position s) NE HP) in H.
      pose proof (Z.mod_pos_bound (position s) (zlen (songs s)) ltac:(lia)) as MB.
      destruct (cyclic_song (songs s) (position s) 0) as [|c f] eqn:EC.
      * injection H as <- <-. split; [|left; apply gap_some; reflexivity]. repeat split; psimpl; auto; lia.
      * injection H as <- <-. split; [repeat split; psimpl; auto; lia|]. right. unfold measure, to_go. psimpl. rewrite E, HL. cbn [steps_left].
        rewrite dist_mod by lia. destruct (Nat.eqb_spec (dist (position s)) 0) as [D0|D0].
        -- assert (G : good (Opening (c :: f)) = true); [|rewrite G; lia].
           destruct HK as [HK|(HK & l & Dl & Y)]; [lia|]. rewrite <- EC. unfold cyclic_song. rewrite Z.add_0_r, HL.
           assert (KE : position s mod len = k).
           { unfold dist in D0. destruct (Z.eqb_spec len 0); [lia|]. pose proof (Z.mod_pos_bound (k - position s) len ltac:(lia)).
             assert (Z0 : (k - position s) mod len = 0) by lia. apply Z.mod_divide in Z0; [|lia]. destruct Z0 as [q Q].
             replace (position s) with (k + (- q) * len) by lia. rewrite Z.mod_add by lia. now apply Z.mod_small. }
           rewrite KE. cbn [good]. now rewrite Dl.
        -- destruct (good _); lia.
  - (* POpen *) destruct (at_pc s) as [ |f|r|r|r|r|r n ok| ] eqn:E; try discriminate. destruct (decode f) as [l|] eqn:D; injection H as <- <-; (split; [repeat split; psimpl; auto; lia|]).
    + right. unfold measure, to_go. psimpl. rewrite E. cbn [steps_left good]. rewrite D. destruct (yields l); lia.
    + right. unfold measure, to_go. psimpl. rewrite E. cbn [steps_left good]. rewrite D. pose proof (dist_next (position s) Hlen). destruct (Nat.eqb_spec (dist (position s)) 0); lia.
  - (* PCmp *) destruct (at_pc s) as [ |f|r|r|r|r|r n ok| ] eqn:E; try discriminate.
    destruct (Bool.eqb _ _); injection H as <- <-; (split; [repeat split; psimpl; auto; lia|]); right; unfold measure, to_go; psimpl; rewrite E; cbn [steps_left good]; destruct (yields r); lia.
  - (* PTogStore *) destruct (at_pc s) as [ |f|r|r|r|r|r n ok| ] eqn:E; try discriminate.
    injection H as <- <-. split; [repeat split; psimpl; auto; lia|]. right. unfold measure, to_go. psimpl. rewrite E. cbn [steps_left good]. destruct (yields r); lia.
  - (* PTogCall *) destruct (at_pc s) as [ |f|r|r|r|r|r n ok| ] eqn:E; try discriminate.
    injection H as <- <-. split; [repeat split; psimpl; auto; lia|]. right. unfold measure, to_go. psimpl. rewrite E. cbn [steps_left good]. destruct (yields r); lia.
  - (* PBlock *) destruct (at_pc s) as [ |f|r|r|r|r|r n ok| ] eqn:E; try discriminate. destruct (playing s).
    + injection H as <- <-. split; [repeat split; psimpl; auto; lia|]. destruct r as [|x r].
      * right. unfold measure, to_go. psimpl. rewrite E. cbn [firstn skipn length Nat.eqb negb orb steps_left good yields]. 
        replace (yields []) with (0 <? nan_break) by reflexivity. destruct (0 <? nan_break); lia.
      * left. rewrite stream_of_cons. cbn. discriminate.
    + injection H as <- <-. split; [repeat split; psimpl; auto; lia|]. left. rewrite stream_of_cons. cbn [samples_of_event]. intros X. apply app_eq_nil in X as [X _].
      apply nan_samples_nonempty in X; [exact X|]. unfold streamer_buffer_size. lia.
  - (* PCheck *) destruct (at_pc s) as [ |f|r|r|r|r|r n ok| ] eqn:E; try discriminate.
    destruct (Nat.ltb_spec 0 (tokens s)) as [T0|T0].
    + injection H as <- <-. split; [repeat split; psimpl; auto; lia|]. destruct (0 <? nan_break) eqn:NB; [left; apply gap_some; lia|].
      right. unfold measure, to_go. psimpl. rewrite E. cbn [steps_left good]. rewrite NB. pose proof (dist_same (position s) Hlen). destruct (_ || _)%bool; lia.
    + destruct (negb ok || (n <? streamer_buffer_size)%nat)%bool eqn:Done; injection H as <- <-; (split; [repeat split; psimpl; auto; lia|]).
      * destruct (0 <? nan_break) eqn:NB; [left; apply gap_some; lia|]. right. unfold measure, to_go. psimpl. rewrite E. cbn [steps_left good]. rewrite NB, Done.
        pose proof (dist_next (position s) Hlen). destruct (Nat.eqb_spec (dist (position s)) 0); lia.
      * right. unfold measure, to_go. psimpl. rewrite E. cbn [steps_left good]. rewrite Done. unfold yields. destruct (0 <? nan_break); [rewrite orb_true_r; lia|].
        generalize (if (dist (position s) =? 0)%nat then Nat.max 1 (Z.to_nat len) else dist (position s)). intros m. destruct (length r =? 0)%nat; cbn [negb orb]; lia.
  - (* ASetPlaying *) destruct (at_pc s) eqn:E; try discriminate; injection H as <- <-; (split; [now repeat split|]); right; unfold measure, to_go; psimpl; rewrite E; lia.
Qed.

Lemma alive_run acts : forall s s' es, fine s -> Forall (fun a => waiting_action a = true) acts -> prun s acts = Some (s', es) ->
  stream_of es <> [] \/ (measure s' + loop_steps acts <= measure s)%nat.
Proof.
  induction acts as [|a acts IH]; intros s s' es F W R; cbn [PlaylistModel.prun] in R.
  - injection R as <- <-. right. cbn. lia.
  - inversion W as [|? ? Wa W']; subst. destruct (pstep s a) as [[s1 e1]|] eqn:S; [|discriminate]. destruct (prun s1 acts) as [[s2 e2]|] eqn:R2; [|discriminate].
    injection R as <- <-. destruct (alive_step s a s1 e1 F Wa S) as (F1 & [P|M]).
    + left. rewrite stream_of_app. intros X. now apply app_eq_nil in X as [X _].
    + destruct (IH s1 s2 e2 F1 W' R2) as [P|M2].
      * left. rewrite stream_of_app. intros X. now apply app_eq_nil in X as [_ X].
      * right. unfold loop_steps in *. cbn [filter]. destruct (is_loop_action a); cbn [length]; lia.
Qed.
Lemma measure_bound s : (measure s <= 8 * (Nat.max 1 (Z.to_nat len) + tokens s) + 8)%nat.
Proof.
  unfold measure, to_go. pose proof (dist_bound (position s) Hlen) as B.
  assert (S : (steps_left (at_pc s) <= 8)%nat) by (destruct (at_pc s); cbn; try lia; destruct (_ || _)%bool; lia).
  destruct (at_pc s); try (destruct (good _)); try (destruct (Nat.eqb_spec (dist (position s)) 0)); lia.
Qed.
End Alive.

(** From every state (in whatever way it was reached): if the playlist is empty, or holds a song
    that decodes to at least one sample (or to nothing at all, if there are breaks between
    songs), then within 8 (n + t) + 16 further steps of the loop samples appear; n is the length of the
    playlist and t the number of jumps not yet noticed, and meanwhile playback may be paused and resumed at
    will. *)
Theorem C12_stream_goes_on decode nan_break s acts s' es :
  0 <= position s ->
  (songs s = [] \/ exists x l, In x (songs s) /\ decode x = Some l /\ (l <> [] \/ 0 < nan_break)) ->
  Forall (fun a => waiting_action a = true) acts ->
  (8 * (length (songs s) + tokens s) + 16 < loop_steps acts)%nat ->
  prun decode nan_break s acts = Some (s', es) -> stream_of es <> [].
Proof.
  intros P K W N R.
  assert (F : exists k, fine decode nan_break (zlen (songs s)) k s).
  { destruct K as [K|(x & l & I & D & Y)].
    - exists 0. repeat split; auto. left. now rewrite K.
    - apply (In_nth _ _ []) in I as (i & Hi & E). exists (Z.of_nat i). repeat split; auto. right. split; [unfold zlen; lia|]. exists l. rewrite Nat2Z.id, E. split; [exact D|].
      unfold yields. destruct Y as [Y|Y]; [destruct l; [contradiction|reflexivity]|]. apply orb_true_iff. right. lia. }
  destruct F as (k & F). pose proof (measure_bound decode nan_break (zlen (songs s)) k ltac:(unfold zlen; lia) s) as B.
  destruct (alive_run decode nan_break (zlen (songs s)) k ltac:(unfold zlen; lia) acts s s' es F W R) as [Q|Q]; [exact Q|]. unfold zlen in *. lia.
Qed.

(** Such runs go on for ever: the loop can always take its next step and never crashes, the
    playlist and a position that is not negative stay as they are meanwhile, so that
    C12_stream_goes_on applies again and again. *)
Theorem C12_loop_goes_on decode nan_break s acts s' es :
  0 <= position s -> at_pc s <> Crashed ->
  Forall (fun a => waiting_action a = true) acts -> prun decode nan_break s acts = Some (s', es) ->
  0 <= position s' /\ songs s' = songs s /\ at_pc s' <> Crashed /\
  exists a, is_loop_action a = true /\ pstep decode nan_break s' a <> None.
Proof.
  intros P C W R.
  set (I := fun (s1 : pstate) (es1 : list event) => 0 <= position s1 /\ songs s1 = songs s /\ at_pc s1 <> Crashed).
  assert (HI : I s' ([] ++ es)).
  { eapply (prun_inv decode nan_break I (fun a => waiting_action a = true)); [| |exact W|exact R].
    - intros s1 es1 a s2 e (Hp & Hs & Hc) Ha H. unfold I.
      destruct a as [| | | | | | |b| | |]; try discriminate Ha; unfold pstep in H; destruct (at_pc s1) as [ |f|r|r|r|r|r n ok| ] eqn:E; try discriminate H; try congruence.
      all: try (injection H as <- <-; psimpl; repeat split; auto; rewrite ?E; discriminate).
      + destruct (songs s1) as [|x0 xs] eqn:ES.
        * change (next_song [] (position s1)) with (Ok (position s1, [] : song)) in H. revert H. generalize (nan_samples (Z.of_N no_song_nan_sample_count)). intros g H.
          injection H as <- <-. psimpl. rewrite ES, E. repeat split; auto; congruence.
        * rewrite (next_song_nonneg (x0 :: xs) (position s1) ltac:(discriminate) Hp) in H.
          pose proof (Z.mod_pos_bound (position s1) (zlen (x0 :: xs)) ltac:(unfold zlen; cbn [length]; lia)).
          destruct (cyclic_song (x0 :: xs) (position s1) 0) as [|c f]; injection H as <- <-; psimpl; rewrite ?ES; repeat split; auto; try lia; try congruence; rewrite ?E; discriminate.
      + destruct (decode f); injection H as <- <-; psimpl; repeat split; auto; try lia; discriminate.
      + destruct (Bool.eqb _ _); injection H as <- <-; psimpl; repeat split; auto; discriminate.
      + destruct (playing s1); injection H as <- <-; psimpl; repeat split; auto; discriminate.
      + destruct (0 <? tokens s1)%nat; [|destruct (negb ok || _)%bool]; injection H as <- <-; psimpl; repeat split; auto; try lia; discriminate.
    - unfold I. auto. }
  destruct HI as (A & B & D). repeat split; auto. apply loop_progress. exact D.
Qed.

(** And the condition is needed: while playing, with no break between songs, and nothing but
    songs that cannot be decoded or are empty, no sample ever appears. *)
Theorem C12_nothing_to_play decode nan_break s acts s' es :
  nan_break <= 0 -> at_pc s = AtTop -> playing s = true -> songs s <> [] -> ~ In [] (songs s) -> 0 <= position s ->
  (forall x l, In x (songs s) -> decode x = Some l -> l = []) ->
  Forall (fun a => is_loop_action a = true) acts -> prun decode nan_break s acts = Some (s', es) -> stream_of es = [].
Proof.
  intros NB Hpc Hpl Hne Hin Hpos Hd Hl Hr.
  assert (G0 : nan_samples nan_break = []) by (unfold nan_samples; replace (Z.to_nat nan_break) with 0%nat by lia; reflexivity).
  set (I := fun (s1 : pstate) (es1 : list event) =>
    songs s1 = songs s /\ 0 <= position s1 /\ playing s1 = true /\ stream_of es1 = [] /\
    match at_pc s1 with AtTop => True | Opening f => In f (songs s) | InSong l | TogStore l | TogCall l | BlockRead l => l = [] | Checking l n ok => n = 0%nat /\ ok = false | Crashed => False end).
  assert (HI : I s' ([] ++ es)).
  { eapply (prun_inv decode nan_break I (fun a => is_loop_action a = true)); [| |exact Hl|exact Hr].
    - intros s1 es1 a s2 e (Hs & Hp & Hy & He & Hc) Ha H. unfold I. rewrite stream_of_app, He. cbn [app].
      destruct a; try discriminate; unfold pstep in H; destruct (at_pc s1) as [ |f|r|r|r|r|r n ok| ] eqn:E; try discriminate.
      + rewrite Hs, next_song_nonneg in H by assumption. destruct (cyclic_song (songs s) (position s1) 0) as [|c f] eqn:EC.
        { exfalso. eapply cyclic_nonempty; [exact Hne|exact Hin|exact EC]. }
        injection H as <- <-. pose proof (zlen_pos (songs s) Hne). pose proof (Z.mod_pos_bound (position s1) (zlen (songs s)) ltac:(lia)). psimpl.
        repeat split; auto; try lia. rewrite <- EC. unfold cyclic_song. apply nth_In. rewrite Z.add_0_r. unfold zlen in *. lia.
      + destruct (decode f) as [l|] eqn:D; injection H as <- <-; psimpl; repeat split; auto; try lia. now apply (Hd f l).
      + destruct (Bool.eqb _ _); injection H as <- <-; psimpl; repeat split; auto.
      + injection H as <- <-; psimpl; repeat split; auto.
      + injection H as <- <-; psimpl; repeat split; auto.
      + rewrite Hy, Hc in H. injection H as <- <-. psimpl. repeat split; auto.
      + destruct Hc as [-> ->]. rewrite G0 in H. destruct (0 <? tokens s1)%nat; injection H as <- <-; psimpl; repeat split; auto; lia.
    - unfold I. rewrite Hpc. repeat split; auto. }
  apply HI.
Qed.

Example C12_alive_nonvacuous :
  let decode := fun f : song => if text_eqb f (T "a") then Some [] else if text_eqb f (T "b") then Some [(1%N, 2%N)] else None in
  let s := set_playing (new_playlist [T "x"; T "a"; T "b"]) true in
  exists acts s' es, Forall (fun a => waiting_action a = true) acts /\ loop_steps acts = 13%nat /\
    prun decode 0 s acts = Some (s', es) /\ stream_of es = [(1%N, 2%N)].
Proof.
  exists [PNext; POpen; PNext; POpen; PCmp; PBlock; PCheck; PNext; POpen; PCmp; PBlock; PCheck; PNext]. eexists. eexists.
  split; [repeat constructor|]. split; [reflexivity|]. split; vm_compute; reflexivity.
Qed.
Print Assumptions C12_stream_goes_on.
Print Assumptions C12_loop_goes_on.
Print Assumptions C12_nothing_to_play.
