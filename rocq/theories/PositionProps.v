(** C126: a jump takes effect at whatever moment it comes. *)
From Verif Require Import GoBase GoBaseFacts PlaylistModel PlaylistSpec PlaylistProofs PositionModel PositionSpec PositionProofs.
Local Open Scope nat_scope.

(** Partial: as long as no jump is made while the loop is between reading the position and writing
    it back, the playlist does what PlaylistModel says, with the same jumps: what C04-C12 say
    holds.  And PlaylistModel does nothing that the playlist cannot do. *)
Theorem C126_other_moments_partial : forall decode nan_break l,
  (forall acts s es, jrun decode nan_break (fresh_playlist l) acts = Some (s, es) ->
     held s = None -> at_pc (inner s) <> Crashed -> no_late_jump false acts ->
     exists acts', prun decode nan_break (new_playlist l) acts' = Some (inner s, es)
       /\ same_but_late_jumps None acts acts' /\ jumps_of acts' = jumps_asked acts)
  /\ (forall acts p es, prun decode nan_break (new_playlist l) acts = Some (p, es) ->
     exists jacts s, jrun decode nan_break (fresh_playlist l) jacts = Some (s, es)
       /\ inner s = p /\ held s = None /\ no_late_jump false jacts /\ jumps_asked jacts = jumps_of acts).
Proof.
  intros decode nan_break l. split.
  - intros acts s es R H C N. destruct (sim decode nan_break acts _ _ _ R H C) as (acts' & L & P).
    exists acts'. split; [exact P|]. split; [exact L|]. now apply (late_none _ _ _ L).
  - intros acts p es R. exact (prun_jrun decode nan_break acts (fresh_playlist l) p es eq_refl R).
Qed.

(** A jump at such a moment is, to all that can be observed, a jump to the place the loop was about
    to write: in any schedule, the playlist does what PlaylistModel says, with as many jumps. *)
Theorem C126_any_moment_partial : forall decode nan_break l acts s es,
  jrun decode nan_break (fresh_playlist l) acts = Some (s, es) ->
  held s = None -> at_pc (inner s) <> Crashed ->
  exists acts', prun decode nan_break (new_playlist l) acts' = Some (inner s, es)
    /\ same_but_late_jumps None acts acts' /\ length (jumps_of acts') = length (jumps_asked acts).
Proof.
  intros decode nan_break l acts s es R H C. destruct (sim decode nan_break acts _ _ _ R H C) as (acts' & L & P).
  exists acts'. split; [exact P|]. split; [exact L|]. now apply (late_none _ _ _ L).
Qed.

(** Refuted: the place asked for is forgotten.  Whenever the loop has read the position, a jump to
    [t] and one to [t'] have the same effect for ever, whatever happens otherwise. *)
Theorem C126_target_forgotten_refuted : forall decode nan_break s s1 t t' acts s' es,
  at_pc (inner s) <> Crashed ->
  jstep decode nan_break s JLoad = Some (s1, []) ->
  jrun decode nan_break s1 (JAct (ASetPosWrite t) :: acts) = Some (s', es) ->
  held s' = None -> at_pc (inner s') <> Crashed ->
  jrun decode nan_break s1 (JAct (ASetPosWrite t') :: acts) = Some (s', es).
Proof.
  intros decode nan_break s s1 t t' acts s' es Cs L R H C. cbn [jstep] in L.
  destruct (held s) as [v|] eqn:Hh; [discriminate|]. destruct (about_to_load decode (inner s)); [|discriminate]. injection L as <-.
  cbn [jrun jstep held inner by_loop PlaylistModel.pstep] in R |- *.
  assert (E : forall z, match at_pc (inner s) with Crashed => None | _ => Some (set_tokens (set_position (inner s) z) (tokens (inner s)) (S (pending_jumps (inner s))), @nil event) end
    = Some (set_tokens (set_position (inner s) z) (tokens (inner s)) (S (pending_jumps (inner s))), [])).
  { intro z. destruct (at_pc (inner s)); reflexivity || congruence. }
  rewrite E in R. rewrite E. 
  match type of R with context [jrun decode nan_break ?a acts] => set (a0 := a) in R end.
  match goal with |- context [jrun decode nan_break ?b acts] => set (b0 := b) end.
  destruct (jrun decode nan_break a0 acts) as [[s2 e2]|] eqn:R2; [|discriminate]. injection R as <- <-.
  rewrite (blind_run decode nan_break acts a0 b0 s2 e2); [reflexivity| |exact R2|exact H|exact C].
  unfold a0, b0. split; [reflexivity|]. split; [discriminate|]. split; [exists t'; reflexivity|exact Cs].
Qed.

Lemma jrun_cons decode nan_break s a r s1 e1 s' es : jstep decode nan_break s a = Some (s1, e1) ->
  jrun decode nan_break s1 r = Some (s', es) -> jrun decode nan_break s (a :: r) = Some (s', e1 ++ es).
Proof. intros A B. cbn [jrun]. now rewrite A, B. Qed.

Section Steps.
Variable decode : song -> option (list sample).
Variable nan_break : Z.
Variable l : list song.
Notation jstep := (jstep decode nan_break).
Definition st (p : Z) (tk pj : nat) (c : song) (i : Z) (w : pc) (h : option Z) : jstate :=
  {| inner := {| songs := l; position := p; tokens := tk; pending_jumps := pj; playing := true; playing_last := true;
                 current_song := c; idx_write := i; at_pc := w |}; held := h |}.
Lemma s_load p tk pj c i : (zlen l =? 0)%Z = false -> jstep (st p tk pj c i AtTop None) JLoad = Some (st p tk pj c i AtTop (Some p), []).
Proof. intro Z0. unfold PositionModel.jstep, st; cbn. rewrite Z0. reflexivity. Qed.
Lemma s_write p tk pj c i v t : jstep (st p tk pj c i AtTop (Some v)) (JAct (ASetPosWrite t)) = Some (st t tk (S pj) c i AtTop (Some v), []).
Proof. reflexivity. Qed.
Lemma s_send p c i v : jstep (st p 0 1 c i AtTop (Some v)) (JAct ASetPosSend) = Some (st p 1 0 c i AtTop (Some v), []).
Proof. reflexivity. Qed.
Lemma s_store p tk pj c i v f0 f q : slice_get l (go_mod v (zlen l)) = Ok (f0 :: f) -> go_mod v (zlen l) = q ->
  jstep (st p tk pj c i AtTop (Some v)) JStore = Some (st q tk pj (f0 :: f) i (Opening (f0 :: f)) None, []).
Proof. intros E1 E2. unfold PositionModel.jstep, st, store. cbn [held inner at_pc songs]. rewrite E1, E2. reflexivity. Qed.
Lemma s_open p tk pj c i f x : decode f = Some x ->
  jstep (st p tk pj c i (Opening f) None) (JAct POpen) = Some (st p tk pj c i (InSong x) None, [ENewSong i c (zlen x)]).
Proof.
  intro D. unfold PositionModel.jstep, st, about_to_load. cbn [held inner at_pc by_loop]. rewrite D. cbn [andb PlaylistModel.pstep at_pc]. rewrite D. reflexivity.
Qed.
Lemma s_cmp p tk pj c i x : jstep (st p tk pj c i (InSong x) None) (JAct PCmp) = Some (st p tk pj c i (BlockRead x) None, []).
Proof. reflexivity. Qed.
Lemma s_block p tk pj c i x : exists j r n ok blk,
  jstep (st p tk pj c i (BlockRead x) None) (JAct PBlock) = Some (st p tk pj c j (Checking r n ok) None, [EBlock blk]).
Proof. repeat eexists. Qed.
Lemma s_check p pj c i r n ok : exists j gap,
  jstep (st p 1 pj c i (Checking r n ok) None) (JAct PCheck) = Some (st p 0 pj c j AtTop None, [EGap gap]).
Proof. repeat eexists. Qed.
End Steps.

(** So a jump to [t] that comes while the loop chooses the next song returns, and what it brings
    about is that this next song is broken off after one block and started again; [t] is not
    played. *)
Theorem C126_song_starts_again_refuted : forall decode nan_break s t,
  let l := songs s in let p := position s in let f := cyclic_song l p 0 in
  l <> [] -> ~ In [] l -> (0 <= p)%Z -> at_pc s = AtTop -> tokens s = 0 -> pending_jumps s = 0 ->
  playing s = true -> playing_last s = true -> decode f <> None ->
  exists acts s' es, jrun decode nan_break {| inner := s; held := None |} acts = Some (s', es)
    /\ jumps_asked acts = [t]
    /\ pending_jumps (inner s') = 0 /\ tokens (inner s') = 0 /\ position (inner s') = (p mod zlen l)%Z
    /\ map (fun x => snd (fst x)) (new_songs_of es) = [f; f].
Proof.
  intros decode nan_break s t l p f Hl Hn Hp Pc Tk Pj Pl Pll D.
  destruct (decode f) as [x|] eqn:Df; [|congruence].
  exists ([JLoad; JAct (ASetPosWrite t); JAct ASetPosSend; JStore] ++ map JAct [POpen; PCmp; PBlock; PCheck] ++ [JLoad; JStore; JAct POpen]).
  assert (Nx : next_song l p = Ok ((p mod zlen l)%Z, f)) by now apply next_song_nonneg.
  assert (G : slice_get l (go_mod p (zlen l)) = Ok f /\ go_mod p (zlen l) = (p mod zlen l)%Z).
  { unfold next_song in Nx. destruct (zlen l =? 0)%Z eqn:Z0.
    - apply Z.eqb_eq in Z0. destruct l; [congruence|]. rewrite zlen_cons in Z0. pose proof (zlen_nonneg l0). lia.
    - destruct (slice_get l (go_mod p (zlen l))) as [g|]; [|discriminate]. injection Nx as -> ->. auto. }
  destruct G as [G1 G2].
  assert (Z0 : (zlen l =? 0)%Z = false).
  { apply Z.eqb_neq. destruct l; [congruence|]. rewrite zlen_cons. pose proof (zlen_nonneg l0). lia. }
  assert (Gm : slice_get l (go_mod (p mod zlen l) (zlen l)) = Ok f /\ go_mod (p mod zlen l) (zlen l) = (p mod zlen l)%Z).
  { assert (Hm : (0 <= p mod zlen l < zlen l)%Z).
    { apply Z.mod_pos_bound. apply Z.eqb_neq in Z0. pose proof (zlen_nonneg l). lia. }
    assert (Gi : go_mod (go_mod p (zlen l)) (zlen l) = go_mod p (zlen l)).
    { rewrite G2. unfold go_mod. rewrite Z.rem_small by exact Hm. reflexivity. }
    rewrite <- !G2, Gi. split; [exact G1|reflexivity]. }
  destruct Gm as [G3 G4].
  assert (Fn : f <> []).
  { intro E. apply Hn. rewrite <- E. unfold f, cyclic_song. apply nth_In. rewrite Z.add_0_r.
    assert (Hm : (0 <= p mod zlen l < zlen l)%Z).
    { apply Z.mod_pos_bound. apply Z.eqb_neq in Z0. pose proof (zlen_nonneg l). lia. }
    unfold zlen in *. lia. }
  destruct s as [x1 x2 x3 x4 x5 x6 x7 x8 x9]. cbn [songs position at_pc tokens pending_jumps playing playing_last] in *. subst l p x9 x3 x4 x5 x6.
  clearbody f. destruct f as [|f0 fr]; [congruence|].
  cbn [app map].
  destruct (s_block decode nan_break x1 (x2 mod zlen x1)%Z 1 0 (f0 :: fr) x8 x) as (j & r & n & ok & blk & Eb).
  destruct (s_check decode nan_break x1 (x2 mod zlen x1)%Z 0 (f0 :: fr) j r n ok) as (j2 & gap & Ec).
  eexists. eexists. split.
  { eapply jrun_cons; [apply (s_load decode nan_break x1 x2 0 0 x7 x8 Z0)|].
    eapply jrun_cons; [apply s_write|]. eapply jrun_cons; [apply s_send|].
    eapply jrun_cons; [apply s_store; [exact G1|exact G2]|].
    eapply jrun_cons; [apply s_open; exact Df|]. eapply jrun_cons; [apply s_cmp|].
    eapply jrun_cons; [exact Eb|]. eapply jrun_cons; [exact Ec|].
    eapply jrun_cons; [apply (s_load _ _ _ _ _ _ _ _ Z0)|].
    eapply jrun_cons; [apply s_store; [exact G3|exact G4]|].
    eapply jrun_cons; [apply s_open; exact Df|]. reflexivity. }
  repeat split.
Qed.

(** The same while the loop gives up a song that cannot be played: the jump returns, the song
    behind that one is the next. *)
Theorem C126_lost_at_unplayable_refuted : forall decode nan_break s f t,
  at_pc s = Opening f -> decode f = None -> tokens s = 0 -> pending_jumps s = 0 ->
  exists acts s' es, jrun decode nan_break {| inner := s; held := None |} acts = Some (s', es)
    /\ jumps_asked acts = [t] /\ es = [] /\ pending_jumps (inner s') = 0
    /\ at_pc (inner s') = AtTop /\ songs (inner s') = songs s /\ position (inner s') = (position s + 1)%Z.
Proof.
  intros decode nan_break s f t Pc D Tk Pj. destruct s as [x1 x2 x3 x4 x5 x6 x7 x8 x9].
  cbn [songs position at_pc tokens pending_jumps] in *. subst x9 x3 x4.
  exists [JLoad; JAct (ASetPosWrite t); JAct ASetPosSend; JStore].
  eexists. eexists. split.
  { eapply jrun_cons; [unfold PositionModel.jstep, about_to_load; cbn [held inner at_pc]; rewrite D; reflexivity|].
    eapply jrun_cons; [reflexivity|]. eapply jrun_cons; [reflexivity|]. eapply jrun_cons; [reflexivity|]. reflexivity. }
  repeat split.
Qed.

(** *** Non-vacuity *)
Definition ex_decode (f : song) : option (list sample) := Some [(1%N, 2%N); (3%N, 4%N)].
(** `jump 2` while the loop chooses the first of three songs: that one is played twice, then the second. *)
Definition ex_late : list jaction :=
  [JAct (ASetPlaying true); JLoad; JAct (ASetPosWrite 2); JAct ASetPosSend; JStore]
  ++ map JAct [POpen; PCmp; PBlock; PCheck] ++ [JLoad; JStore] ++ map JAct [POpen; PCmp; PBlock]
  ++ [JLoad; JStore; JLoad; JStore; JAct POpen].
Example C126_nonvacuous : exists s es,
  jrun ex_decode 1 (fresh_playlist [T "a"; T "b"; T "c"]) ex_late = Some (s, es)
  /\ held s = None /\ at_pc (inner s) <> Crashed /\ pending_jumps (inner s) = 0 /\ tokens (inner s) = 0
  /\ map (fun x => snd (fst x)) (new_songs_of es) = [T "a"; T "a"; T "b"].
Proof. eexists. eexists. split; [vm_compute; reflexivity|]. repeat split; try reflexivity. discriminate. Qed.
(** The same jump just before: the third song is played. *)
Definition ex_in_time : list jaction :=
  [JAct (ASetPlaying true); JAct (ASetPosWrite 2); JLoad; JAct ASetPosSend; JStore] ++ map JAct [POpen].
Example C126_nonvacuous_in_time : exists s es,
  jrun ex_decode 1 (fresh_playlist [T "a"; T "b"; T "c"]) ex_in_time = Some (s, es)
  /\ held s = None /\ no_late_jump false ex_in_time
  /\ map (fun x => snd (fst x)) (new_songs_of es) = [T "c"].
Proof. eexists. eexists. split; [vm_compute; reflexivity|]. repeat split. Qed.
(** A jump while the loop goes on to the next song: it is lost too. *)
Definition ex_at_end : list jaction :=
  map JAct [ASetPlaying true] ++ [JLoad; JStore] ++ map JAct [POpen; PCmp; PBlock] ++ [JLoad; JAct (ASetPosWrite 2); JAct ASetPosSend; JStore; JLoad; JStore; JAct POpen].
Example C126_nonvacuous_at_end : exists s es,
  jrun ex_decode 1 (fresh_playlist [T "a"; T "b"; T "c"]) ex_at_end = Some (s, es)
  /\ held s = None /\ ~ no_late_jump false ex_at_end
  /\ map (fun x => snd (fst x)) (new_songs_of es) = [T "a"; T "b"].
Proof. eexists. eexists. split; [vm_compute; reflexivity|]. repeat split; try reflexivity. cbn. intros (X & _). discriminate X. Qed.

(** A jump while the loop gives up a song it cannot play: it is lost too; the token makes it break off the next one. *)
Definition ex_fussy (f : song) : option (list sample) := if (zlen f =? 1)%Z then ex_decode f else None.
Definition ex_unplayable : list jaction :=
  map JAct [ASetPlaying true] ++ [JLoad; JStore; JLoad; JAct (ASetPosWrite 3); JAct ASetPosSend; JStore; JLoad; JStore]
  ++ map JAct [POpen; PCmp; PBlock; PCheck] ++ [JLoad; JStore; JAct POpen].
Example C126_nonvacuous_unplayable : exists s es,
  jrun ex_fussy 1 (fresh_playlist [T "broken"; T "b"; T "c"; T "d"]) ex_unplayable = Some (s, es)
  /\ held s = None /\ ~ no_late_jump false ex_unplayable /\ tokens (inner s) = 0
  /\ map (fun x => snd (fst x)) (new_songs_of es) = [T "b"; T "b"].
Proof. eexists. eexists. split; [vm_compute; reflexivity|]. repeat split; try reflexivity. cbn. intros (X & _). discriminate X. Qed.

Print Assumptions C126_other_moments_partial.
Print Assumptions C126_any_moment_partial.
Print Assumptions C126_target_forgotten_refuted.
Print Assumptions C126_song_starts_again_refuted.
Print Assumptions C126_lost_at_unplayable_refuted.
