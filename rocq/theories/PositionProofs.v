(** Proofs for C126. *)
From Verif Require Import GoBase GoBaseFacts PlaylistModel PositionModel PositionSpec.
Local Open Scope nat_scope.

Lemma some_pair_inj {A B} (a c : A) (b d : B) : Some (a, b) = Some (c, d) -> a = c /\ b = d.
Proof. intro H. now injection H as -> ->. Qed.

Lemma pc_crash_dec (s : pstate) : {at_pc s = Crashed} + {at_pc s <> Crashed}.
Proof. destruct (at_pc s); (now left) || (right; discriminate). Qed.

Section Position.
Variable decode : song -> option (list sample).
Variable nan_break : Z.
Notation pstep := (pstep decode nan_break).
Notation prun := (prun decode nan_break).
Notation store := (store nan_break).
Notation jstep := (jstep decode nan_break).
Notation jrun := (jrun decode nan_break).

Lemma prun_crashed acts s s' es : at_pc s = Crashed -> prun s acts = Some (s', es) -> at_pc s' = Crashed.
Proof.
  intros C H. destruct acts as [|a acts].
  - injection H as <- <-. exact C.
  - cbn [PlaylistModel.prun] in H. replace (pstep s a) with (@None (pstate * list event)) in H; [discriminate|].
    destruct a; cbn [PlaylistModel.pstep]; rewrite C; reflexivity.
Qed.

(** Reading and writing back at once is one step of the loop of PlaylistModel. *)
Lemma load_step s : about_to_load decode s = true ->
  exists a, In a [PNext; POpen; PCheck] /\ pstep s a = store s (position s).
Proof.
  unfold about_to_load, PositionModel.store. destruct (at_pc s) as [|f|?|?|?|?|rest n ok|] eqn:P; try discriminate; intro H.
  - exists PNext. split; [now left|]. cbn [PlaylistModel.pstep]. rewrite P. unfold next_song.
    destruct (zlen (songs s) =? 0)%Z; [discriminate|].
    destruct (slice_get (songs s) (go_mod (position s) (zlen (songs s)))) as [f|]; reflexivity.
  - exists POpen. split; [right; now left|]. cbn [PlaylistModel.pstep]. rewrite P. destruct (decode f); [discriminate|reflexivity].
  - exists PCheck. split; [right; right; now left|]. cbn [PlaylistModel.pstep]. rewrite P.
    apply andb_true_iff in H as [H1 H2]. apply negb_true_iff in H1. rewrite H1, H2. reflexivity.
Qed.

Definition elsewhere (q : Z) (a : action) : action := match a with ASetPosWrite _ => ASetPosWrite q | _ => a end.

(** What others do in between can as well be done after the writing back. *)
Lemma others_later a s p e v c pend : by_loop a = false ->
  (forall x, a = AEdit x -> at_pc s <> AtTop) ->
  pstep s a = Some (p, e) -> store p v = Some (c, pend) -> at_pc c <> Crashed ->
  e = [] /\ exists c0, store s v = Some (c0, pend) /\ at_pc c0 <> Crashed /\ position c0 = position c
    /\ pstep c0 (elsewhere (position c) a) = Some (c, []).
Proof.
  intros L E H S C.
  destruct a; try discriminate L; cbn [PlaylistModel.pstep] in H;
    destruct (at_pc s) as [|f|?|?|?|?|rest n ok|] eqn:P; try discriminate H;
    try (exfalso; now apply (E e0)).
  all: try (injection H as <- <-).
  all: try (destruct (pending_jumps s) as [|pj] eqn:Pj; [discriminate|]; destruct (tokens s <? 2) eqn:Tk; [|discriminate]; injection H as <- <-).
  all: try (destruct (apply_edit (songs s) e0) as [[l r]|] eqn:Ed; injection H as <- <-).
  all: unfold PositionModel.store in S |- *;
    cbn [at_pc songs position set_pc set_position set_tokens set_playing set_songs] in S; rewrite ?P in S; cbn iota in S; try discriminate S.
  all: rewrite ?P; split; [reflexivity|].
  all: try (destruct (slice_get (songs s) (go_mod v (zlen (songs s)))) as [[|x f0]|] eqn:G).
  all: apply some_pair_inj in S as [<- <-].
  all: try (exfalso; apply C; reflexivity).
  all: eexists; (split; [reflexivity|]).
  all: cbn [at_pc songs position tokens pending_jumps set_pc set_position set_current set_tokens set_playing set_songs pushed PlaylistModel.pstep elsewhere]; rewrite ?P, ?Pj, ?Tk, ?Ed.
  all: repeat split; try reflexivity.
  all: try (intro X; discriminate X).
  all: change (tokens s <=? 1) with (tokens s <? 2); rewrite Tk; reflexivity.
Qed.

(** *** The simulation *)
Lemma sim acts : forall s s' es, jrun s acts = Some (s', es) -> held s' = None -> at_pc (inner s') <> Crashed ->
  match held s with
  | None => exists acts', same_but_late_jumps None acts acts' /\ prun (inner s) acts' = Some (inner s', es)
  | Some v => exists c pend acts' es', store (inner s) v = Some (c, pend) /\ at_pc c <> Crashed
      /\ same_but_late_jumps (Some (position c)) acts acts' /\ prun c acts' = Some (inner s', es') /\ es = pend ++ es'
  end.
Proof.
  induction acts as [|a acts IH]; intros s s' es; cbn [PositionModel.jrun].
  - intros [= <- <-] H C. rewrite H. exists []. split; [constructor|reflexivity].
  - destruct (jstep s a) as [[s1 e1]|] eqn:H1; [|discriminate]. destruct (jrun s1 acts) as [[s2 e2]|] eqn:H2; [|discriminate].
    intros [= <- <-] H C. specialize (IH _ _ _ H2 H C). unfold PositionModel.jstep in H1.
    destruct a as [| |a]; destruct (held s) as [v|]; try discriminate H1.
    + destruct (about_to_load decode (inner s)) eqn:L; [|discriminate]. injection H1 as <- <-. cbn [held inner] in IH.
      destruct IH as (c & pend & acts' & es' & S & Cc & Late & R & E).
      destruct (load_step _ L) as (a & Ia & P). exists (a :: acts'). split; [now apply late_load with (position c)|].
      cbn [PlaylistModel.prun]. rewrite P, S, R, E. reflexivity.
    + destruct (store (inner s) v) as [[p e]|] eqn:S; [|discriminate]. injection H1 as <- <-. cbn [held inner] in IH.
      destruct IH as (acts' & Late & R). exists p, e, acts', e2. split; [reflexivity|]. split.
      { intro Cp. apply C. exact (prun_crashed _ _ _ _ Cp R). }
      split; [now constructor|]. split; [exact R|reflexivity].
    + destruct (by_loop a) eqn:L; [discriminate|].
      assert (H1' : (forall x, a = AEdit x -> at_pc (inner s) <> AtTop) /\
        exists p, pstep (inner s) a = Some (p, e1) /\ s1 = {| inner := p; held := Some v |}).
      { destruct a; try discriminate L; destruct (at_pc (inner s)) eqn:P; try discriminate H1;
          destruct (pstep (inner s) _) as [[pp ee]|] eqn:Q; try discriminate H1; injection H1 as <- <-;
          (split; [intros x X; congruence|]); exists pp; split; reflexivity || assumption. }
      destruct H1' as (Ed & p & Q & ->). cbn [held inner] in IH. destruct IH as (c & pend & acts' & es' & S & Cc & Late & R & E).
      destruct (others_later a (inner s) p e1 v c pend L Ed Q S Cc) as (-> & c0 & S0 & C0 & Pc & St).
      exists c0, pend, (elsewhere (position c) a :: acts'), es'. split; [exact S0|]. split; [exact C0|]. rewrite Pc.
      split; [|split; [cbn [PlaylistModel.prun]; now rewrite St, R|now rewrite E]].
      destruct a; cbn [elsewhere]; try (apply late_other; [right; intros t X; discriminate|exact Late]). now apply late_jump.
    + destruct (by_loop a && about_to_load decode (inner s)) eqn:L; [discriminate|].
      destruct (pstep (inner s) a) as [[p e]|] eqn:Q; [|discriminate]. injection H1 as <- <-. cbn [held inner] in IH.
      destruct IH as (acts' & Late & R). exists (a :: acts'). split; [apply late_other; [now left|exact Late]|].
      cbn [PlaylistModel.prun]. now rewrite Q, R.
Qed.

Lemma crashed_stays acts s s' es : at_pc (inner s) = Crashed -> jrun s acts = Some (s', es) -> at_pc (inner s') = Crashed.
Proof.
  intro C. destruct acts as [|a r]; cbn [PositionModel.jrun]; [intros [= <- <-]; exact C|].
  replace (jstep s a) with (@None (jstate * list event)); [discriminate|].
  unfold PositionModel.jstep. destruct (held s) as [v|].
  - destruct a as [| |a]; [reflexivity| |].
    + unfold PositionModel.store. now rewrite C.
    + destruct (by_loop a); [reflexivity|]. destruct a; cbn [PlaylistModel.pstep]; rewrite C; reflexivity.
  - destruct a as [| |a]; [|reflexivity|].
    + unfold about_to_load. now rewrite C.
    + destruct (by_loop a && about_to_load decode (inner s)); [reflexivity|].
      destruct a; cbn [PlaylistModel.pstep]; rewrite C; reflexivity.
Qed.

Lemma blind_act a s e p z : by_loop a = false -> pstep s a = Some (p, e) ->
  exists z', pstep (set_position s z) a = Some (set_position p z', e).
Proof.
  intros L H. destruct s as [x1 x2 x3 x4 x5 x6 x7 x8 x9]. destruct a; try discriminate L; cbn [PlaylistModel.pstep] in H |- *; unfold set_position;
    cbn [at_pc songs position tokens pending_jumps] in H |- *.
  - exists z. destruct x9; try discriminate H; apply some_pair_inj in H as [<- <-]; reflexivity.
  - exists p0. destruct x9; try discriminate H; apply some_pair_inj in H as [<- <-]; reflexivity.
  - exists z. destruct x4 as [|pj]; [destruct x9; discriminate H|].
    destruct (x3 <? 2); [|destruct x9; discriminate H].
    destruct x9; try discriminate H; apply some_pair_inj in H as [<- <-]; reflexivity.
  - exists z. destruct (apply_edit x1 e0) as [[l r]|]; destruct x9; try discriminate H; apply some_pair_inj in H as [<- <-]; reflexivity.
Qed.

(** *** The place asked for makes no difference *)
Definition blind (s t : jstate) : Prop :=
  held s = held t /\ held s <> None /\ (exists z, inner t = set_position (inner s) z) /\ at_pc (inner s) <> Crashed.
Lemma blind_run acts : forall s t s' es, blind s t -> jrun s acts = Some (s', es) -> held s' = None -> at_pc (inner s') <> Crashed -> jrun t acts = Some (s', es).
Proof.
  assert (X : forall acts s s' es, held s <> None -> at_pc (inner s) = Crashed -> jrun s acts = Some (s', es) -> held s' <> None).
  { intros acts0 s s' es H C. destruct acts0 as [|a r]; cbn [PositionModel.jrun]; [intros [= <- <-]; exact H|].
    replace (jstep s a) with (@None (jstate * list event)); [discriminate|].
    unfold PositionModel.jstep. destruct (held s) as [v|]; [|congruence]. destruct a as [| |a]; [reflexivity| |].
    - unfold PositionModel.store. now rewrite C.
    - destruct (by_loop a); [reflexivity|]. destruct a; cbn [PlaylistModel.pstep]; rewrite C; reflexivity. }
  induction acts as [|a acts IH]; intros s t s' es (Hh & Hn & [z Hz] & Hc); cbn [PositionModel.jrun].
  - intros [= <- <-] H. congruence.
  - destruct (jstep s a) as [[s1 e1]|] eqn:H1; [|discriminate]. destruct (jrun s1 acts) as [[s2 e2]|] eqn:H2; [|discriminate].
    intros [= <- <-] H Nc. destruct t as [ti th]. cbn in Hh, Hz. subst ti th.
    unfold PositionModel.jstep in H1 |- *. destruct (held s) as [v|]; [|congruence]. cbn [held inner].
    destruct a as [| |a]; [discriminate H1| |].
    + assert (E : store (set_position (inner s) z) v = store (inner s) v \/ exists p e, store (inner s) v = Some (p, e) /\ at_pc p = Crashed).
      { clear -Hc. destruct (inner s) as [x1 x2 x3 x4 x5 x6 x7 x8 x9]. unfold PositionModel.store, set_position. cbn.
        destruct x9; try (left; reflexivity).
        destruct (slice_get x1 (go_mod v (zlen x1))) as [[|? ?]|]; [left; reflexivity|left; reflexivity|right; eauto]. }
      destruct E as [E|(p & e & E & Cp)]; rewrite E in *.
      * destruct (store (inner s) v) as [[p e]|]; [|discriminate]. injection H1 as <- <-. now rewrite H2.
      * injection H1 as <- <-. exfalso. apply Nc. exact (crashed_stays _ {| inner := p; held := None |} _ _ Cp H2).
    + destruct (by_loop a) eqn:L; [discriminate|].
      assert (St : exists p z', pstep (inner s) a = Some (p, e1) /\ s1 = {| inner := p; held := Some v |}
        /\ pstep (set_position (inner s) z) a = Some (set_position p z', e1)
        /\ (at_pc (inner s) = AtTop -> forall e, a <> AEdit e)).
      { assert (H1' : exists p, pstep (inner s) a = Some (p, e1) /\ s1 = {| inner := p; held := Some v |}
          /\ (at_pc (inner s) = AtTop -> forall e, a <> AEdit e)).
        { destruct a; try discriminate L;
            try (destruct (pstep (inner s) _) as [[pp ee]|]; [|discriminate H1]; injection H1 as <- <-; exists pp;
                 split; [reflexivity|]; split; [reflexivity|]; intros; discriminate).
          destruct (at_pc (inner s)) eqn:P; try discriminate H1;
            (destruct (pstep (inner s) _) as [[pp ee]|]; [|discriminate H1]; injection H1 as <- <-; exists pp;
                 split; [reflexivity|]; split; [reflexivity|]; intros; discriminate). }
        destruct H1' as (p & Q & E & Et). destruct (blind_act a (inner s) e1 p z L Q) as (z' & Q'). exists p, z'. auto. }
      destruct St as (p & z' & Q & -> & Q' & Et).
      assert (G : match at_pc (set_position (inner s) z) with AtTop => forall e, a <> AEdit e | _ => True end).
      { cbn [set_position at_pc]. destruct (at_pc (inner s)); auto. }
      assert (E : match a, at_pc (set_position (inner s) z) with
                  | AEdit _, AtTop => None
                  | _, _ => match pstep (set_position (inner s) z) a with None => None | Some (p0, es0) => Some ({| inner := p0; held := Some v |}, es0) end
                  end = Some ({| inner := set_position p z'; held := Some v |}, e1)).
      { rewrite Q'. destruct a; try reflexivity. destruct (at_pc (set_position (inner s) z)); try reflexivity. now destruct (G e). }
      rewrite E. destruct (pc_crash_dec p) as [Cp|Cp].
      { exfalso. exact (X acts {| inner := p; held := Some v |} s2 e2 ltac:(discriminate) Cp H2 H). }
      rewrite (IH {| inner := p; held := Some v |} _ s2 e2) with (3 := H) (4 := Nc); [reflexivity| |exact H2].
      split; [reflexivity|]. split; [discriminate|]. split; [|exact Cp]. now exists z'.
Qed.
End Position.

(** *** The other direction: nothing PlaylistModel can do is lost *)
Section Converse.
Variable decode : song -> option (list sample).
Variable nan_break : Z.
Lemma load_step_of a s : by_loop a = true -> about_to_load decode s = true -> pstep decode nan_break s a <> None ->
  pstep decode nan_break s a = store nan_break s (position s).
Proof.
  intros L A H. destruct (load_step decode nan_break s A) as (b & Ib & E). rewrite <- E. f_equal.
  unfold about_to_load in A. destruct (at_pc s) eqn:P; try discriminate A;
    destruct a; try discriminate L; cbn [PlaylistModel.pstep] in H; rewrite P in H; try congruence;
    destruct Ib as [<-|[<-|[<-|[]]]]; try reflexivity; cbn [PlaylistModel.pstep] in E; rewrite P in E; unfold store in E; rewrite P in E;
    try discriminate E; exfalso; destruct (slice_get _ _) as [[|? ?]|]; discriminate E.
Qed.

Lemma prun_jrun acts : forall s p es, held s = None -> prun decode nan_break (inner s) acts = Some (p, es) ->
  exists jacts s', jrun decode nan_break s jacts = Some (s', es) /\ inner s' = p /\ held s' = None
    /\ no_late_jump false jacts /\ jumps_asked jacts = jumps_of acts.
Proof.
  induction acts as [|a acts IH]; intros s p es Hh; cbn [PlaylistModel.prun].
  - intros [= <- <-]. exists [], s. repeat split; assumption || reflexivity.
  - destruct (pstep decode nan_break (inner s) a) as [[p1 e1]|] eqn:H1; [|discriminate].
    destruct (prun decode nan_break p1 acts) as [[p2 e2]|] eqn:H2; [|discriminate]. intros [= <- <-].
    destruct (IH {| inner := p1; held := None |} p2 e2 eq_refl H2) as (jacts & s' & R & E & Hh' & N & J).
    destruct (by_loop a && about_to_load decode (inner s)) eqn:L.
    + apply andb_true_iff in L as [La Lb]. exists (JLoad :: JStore :: jacts), s'.
      cbn [jrun jstep]. rewrite Hh, Lb. cbn [inner held]. rewrite <- (load_step_of a) by (assumption || congruence). rewrite H1, R.
      cbn [app]. repeat split; try assumption. unfold jumps_asked, jumps_of in J |- *. cbn [flat_map]. rewrite J. destruct a; try discriminate La; reflexivity.
    + exists (JAct a :: jacts), s'. cbn [jrun jstep]. rewrite Hh, L, H1, R. repeat split; try assumption.
      * destruct a; cbn [no_late_jump]; auto.
      * unfold jumps_asked, jumps_of in J |- *. cbn [flat_map]. now rewrite J.
Qed.
End Converse.

Lemma late_none w acts acts' : same_but_late_jumps w acts acts' ->
  length (jumps_of acts') = length (jumps_asked acts)
  /\ (no_late_jump (match w with Some _ => true | None => false end) acts -> jumps_of acts' = jumps_asked acts).
Proof.
  induction 1 as [w|q a acts acts' Ia H [IH1 IH2]|w acts acts' H [IH1 IH2]|q t acts acts' H [IH1 IH2]|w a acts acts' Hw H [IH1 IH2]].
  - split; reflexivity.
  - destruct Ia as [<-|[<-|[<-|[]]]]; cbn; split; auto.
  - cbn. split; auto.
  - cbn. split; [now f_equal|]. intros [X _]. discriminate X.
  - unfold jumps_of, jumps_asked in *. cbn [flat_map]. split.
    + rewrite !app_length, IH1. reflexivity.
    + intro N. rewrite IH2; [reflexivity|]. destruct a; cbn [no_late_jump] in N; try exact N. apply N.
Qed.
