(** Proofs for C127. *)
From Verif Require Import GoBase GoBaseFacts PlaylistModel PlaylistProofs HeaderModel HeaderSpec.
Local Open Scope nat_scope.

Section Header.
Variable decode : song -> option (list sample).
Variable nan_break : Z.
Notation hstep := (hstep decode nan_break).
Notation hrun := (hrun decode nan_break).

Lemma hrun_app a : forall s b, hrun s (a ++ b) =
  match hrun s a with None => None | Some (s1, e1) => match hrun s1 b with None => None | Some (s2, e2) => Some (s2, e1 ++ e2) end end.
Proof.
  induction a as [|x a IH]; intros s b; cbn [app HeaderModel.hrun].
  - destruct (hrun s b) as [[s2 e2]|]; reflexivity.
  - destruct (hstep s x) as [[s1 e1]|]; [|reflexivity]. rewrite IH.
    destruct (hrun s1 a) as [[s2 e2]|]; [|reflexivity]. destruct (hrun s1 a) as [[s3 e3]|]; destruct (hrun s2 b) as [[s4 e4]|]; try reflexivity; now rewrite app_assoc.
Qed.

(** current_song changes only when the loop takes a song, and then both stores are to be made *)
Lemma pstep_current s a p es : pstep decode nan_break s a = Some (p, es) ->
  (current_song p = current_song s /\ (a = PNext -> forall f, at_pc p <> Opening f))
  \/ (a = PNext /\ at_pc s = AtTop /\ current_song p <> [] /\ at_pc p = Opening (current_song p)).
Proof.
  destruct a; cbn [PlaylistModel.pstep]; destruct (at_pc s) as [|f|?|?|?|?|rest n ok|] eqn:P; try discriminate;
    try (intros [= <- <-]; left; split; [reflexivity|discriminate]);
    try (destruct (next_song (songs s) (position s)) as [[q [|x g]]|]; intros [= <- <-]);
    try (destruct (decode f); intros [= <- <-]);
    try (destruct (Bool.eqb (playing s) (playing_last s)); intros [= <- <-]);
    try (destruct (playing s); intros [= <- <-]);
    try (destruct (0 <? tokens s); [|destruct (negb ok || (n <? streamer_buffer_size))%bool]; intros [= <- <-]);
    try (destruct (pending_jumps s) as [|pj]; [discriminate|]; destruct (tokens s <? 2); [|discriminate]; intros [= <- <-]);
    try (destruct (apply_edit (songs s) e) as [[l r]|]; intros [= <- <-]);
    try (left; split; [reflexivity|intros; cbn; rewrite ?P; discriminate]).
  right. repeat split; try reflexivity; discriminate.
Qed.

(** Every word is a word of some song that was current; when no store is outstanding both are of the current one. *)
Definition words_of (c : header) (f : song) : Prop :=
  (bytes_at c = Some f /\ count c = length f) \/ (bytes_at c = None /\ count c = 0 /\ f = []).
Record inv (past : song -> Prop) (s : hstate) : Prop := {
  i_cur : past (current_song (inner s));
  i_settled : to_store s = [] -> words_of (cur s) (current_song (inner s));
  i_mid : to_store s <> [] -> exists f, at_pc (inner s) = Opening f \/ at_pc (inner s) = Crashed;
  i_half : match to_store s with
           | [] => True
           | [HalfBytes] => count (cur s) = length (current_song (inner s))
           | [HalfCount] => bytes_at (cur s) = Some (current_song (inner s))
           | _ => to_store s = [HalfBytes; HalfCount]
           end;
  i_bytes : match bytes_at (cur s) with Some f => past f | None => True end;
  i_count : count (cur s) = 0 \/ exists g, past g /\ count (cur s) = length g;
  i_ne : bytes_at (cur s) <> Some [] /\ (to_store s <> [] -> current_song (inner s) <> []);
  i_gb : match got_bytes s with Some (Some f) => past f /\ f <> [] | _ => True end;
  i_gc : match got_count s with Some n => n = 0 \/ exists g, past g /\ n = length g | None => True end
}.

Lemma inv_weaken (p q : song -> Prop) s : (forall f, p f -> q f) -> inv p s -> inv q s.
Proof.
  intros H [A B C D E F K G I]. constructor; auto.
  - destruct (bytes_at (cur s)); auto.
  - destruct F as [F|(g & F1 & F2)]; eauto.
  - destruct (got_bytes s) as [[f|]|]; auto. destruct G; auto.
  - destruct (got_count s) as [n|]; auto. destruct I as [I|(g & I1 & I2)]; eauto.
Qed.

Lemma hstep_inv (past : song -> Prop) s a s' es : inv past s -> hstep s a = Some (s', es) -> past (current_song (inner s')) -> inv past s'.
Proof.
  intros [A B C D E F [K1 K2] G I] H Pc. destruct a as [a|h|h]; cbn [HeaderModel.hstep] in H.
  - assert (H' : (a = POpen -> to_store s = []) /\ exists p, pstep decode nan_break (inner s) a = Some (p, es) /\
      s' = {| inner := p; cur := cur s; to_store := match a, at_pc p with PNext, Opening _ => [HalfBytes; HalfCount] | _, _ => to_store s end;
              got_bytes := got_bytes s; got_count := got_count s |}).
    { assert (X : forall b : bool, b = match a, to_store s with POpen, _ :: _ => true | _, _ => false end ->
        (a = POpen -> b = false -> to_store s = []))
        by (intros b Eb -> Bf; rewrite Bf in Eb; destruct (to_store s); [reflexivity|discriminate Eb]).
      destruct (match a, to_store s with POpen, _ :: _ => true | _, _ => false end) eqn:Eb.
      - destruct a; try discriminate Eb. destruct (to_store s); [discriminate Eb|discriminate H].
      - split; [intro Ea; exact (X false eq_refl Ea eq_refl)|].
        destruct (pstep decode nan_break (inner s) a) as [[p e]|] eqn:Q.
        + exists p. destruct a; try (injection H as <- <-; split; reflexivity).
          destruct (to_store s); [injection H as <- <-; split; reflexivity|discriminate Eb].
        + destruct a; try discriminate H. destruct (to_store s); discriminate H. }
    destruct H' as (Po & p & Q & ->). cbn [inner] in Pc.
    destruct (pstep_current _ _ _ _ Q) as [[Ec Np]|(-> & At & Nn & Op)].
    + assert (Ts : match a, at_pc p with PNext, Opening _ => [HalfBytes; HalfCount] | _, _ => to_store s end = to_store s).
      { destruct a; try reflexivity. destruct (at_pc p) as [|f|?|?|?|?|?|] eqn:P; try reflexivity. exfalso. exact (Np eq_refl f eq_refl). }
      rewrite Ts. constructor; cbn [inner cur to_store got_bytes got_count]; rewrite ?Ec; auto.
      intro Ne. destruct (C Ne) as (f & [P|P]).
      * destruct a; cbn [PlaylistModel.pstep] in Q; rewrite P in Q; try discriminate Q.
        -- exfalso. apply Ne. exact (Po eq_refl).
        -- injection Q as <- <-. exists f. left. cbn. exact P.
        -- injection Q as <- <-. exists f. left. cbn. exact P.
        -- destruct (pending_jumps (inner s)); [discriminate|]. destruct (tokens (inner s) <? 2); [|discriminate]. injection Q as <- <-. exists f. left. exact P.
        -- destruct (apply_edit (songs (inner s)) e) as [[l r]|]; injection Q as <- <-; exists f; [left; exact P|right; reflexivity].
      * destruct a; cbn [PlaylistModel.pstep] in Q; rewrite P in Q; discriminate Q.
    + assert (Ts : to_store s = []).
      { destruct (to_store s) eqn:T; [reflexivity|]. destruct C as (f & [X|X]); [discriminate|congruence|congruence]. }
      rewrite Op. constructor; cbn [inner cur to_store got_bytes got_count]; auto; try discriminate.
      intros _. exists (current_song p). now left.
  - assert (H' : at_pc (inner s) <> Crashed /\ exists r, without_half h (to_store s) = Some r /\
      s' = {| inner := inner s; cur := store_half (cur s) (current_song (inner s)) h; to_store := r; got_bytes := got_bytes s; got_count := got_count s |}).
    { destruct (without_half h (to_store s)) as [r|].
      - destruct (at_pc (inner s)); try discriminate H; injection H as <- <-; (split; [discriminate|exists r; split; reflexivity]).
      - destruct (at_pc (inner s)); discriminate H. }
    clear H. destruct H' as (Nc & r & W & ->).
    assert (Ts : (to_store s = [h] /\ r = []) \/ (to_store s = [HalfBytes; HalfCount] /\ r = [match h with HalfBytes => HalfCount | HalfCount => HalfBytes end])).
    { destruct (to_store s) as [|[] [|[] [|x y]]]; destruct h; cbn in W; try discriminate W; try discriminate D;
        try (right; split; [reflexivity|congruence]); left; split; try reflexivity; congruence. }
    cbn [inner] in Pc. constructor; cbn [inner cur to_store got_bytes got_count]; auto.
    + intro R. destruct Ts as [[T1 T2]|[T1 T2]]; [|congruence]. rewrite T1 in D. left. destruct h; cbn; auto.
    + intro R. destruct Ts as [[T1 T2]|[T1 T2]]; [congruence|]. apply C. rewrite T1. discriminate.
    + destruct Ts as [[T1 T2]|[T1 T2]]; rewrite T2; [exact Logic.I|destruct h; reflexivity].
    + destruct h; cbn; auto.
    + destruct h; cbn; eauto.
    + assert (Ne : current_song (inner s) <> []) by (apply K2; destruct Ts as [[T1 _]|[T1 _]]; rewrite T1; discriminate).
      split; [destruct h; cbn; [congruence|exact K1]|auto].
  - assert (H' : exists gb gc, s' = {| inner := inner s; cur := cur s; to_store := to_store s; got_bytes := gb; got_count := gc |} /\
      match gb with Some (Some f) => past f /\ f <> [] | _ => True end /\
      match gc with Some n => n = 0 \/ exists g, past g /\ n = length g | None => True end).
    { destruct h.
      - destruct (at_pc (inner s)); try discriminate H; destruct (got_bytes s); try discriminate H; injection H as <- <-;
          (exists (Some (bytes_at (cur s))), (got_count s); repeat split; [destruct (bytes_at (cur s)); [split; [exact E|congruence]|exact Logic.I]|exact I]).
      - destruct (at_pc (inner s)); try discriminate H; destruct (got_count s); try discriminate H; injection H as <- <-;
          (exists (got_bytes s), (Some (count (cur s))); repeat split; [exact G|exact F]). }
    destruct H' as (gb & gc & -> & Gb & Gc). constructor; cbn [inner cur to_store got_bytes got_count]; auto.
Qed.

Lemma unread_inv l : inv (was_current decode nan_break l []) (unread l).
Proof.
  constructor; cbn; auto; try congruence; try discriminate.
  - exists [], [], (unread l), []. repeat split.
  - intros _. right. repeat split.
  - split; congruence.
Qed.

Lemma run_inv l acts s es : hrun (unread l) acts = Some (s, es) -> inv (was_current decode nan_break l acts) s.
Proof.
  revert s es. induction acts as [|a acts IH] using rev_ind; intros s es H.
  - injection H as <- <-. apply unread_inv.
  - pose proof H as H0. rewrite hrun_app in H. destruct (hrun (unread l) acts) as [[s1 e1]|] eqn:R; [|discriminate].
    cbn [HeaderModel.hrun] in H. destruct (hstep s1 a) as [[s2 e2]|] eqn:St; [|discriminate]. injection H as <- <-.
    eapply hstep_inv; [|exact St|].
    + eapply inv_weaken; [|exact (IH _ _ eq_refl)]. intros f (a1 & a2 & s' & es' & -> & R' & C).
      exists a1, (a2 ++ [a]), s', es'. rewrite app_assoc. repeat split; assumption.
    + exists (acts ++ [a]), [], s2, (e1 ++ e2 ++ []). rewrite app_nil_r. repeat split. exact H0.
Qed.

(** without a store the words stay *)
Lemma hstep_words s a s' es : hstep s a = Some (s', es) -> (forall h, a <> HStore h) ->
  cur s' = cur s /\
  (got_bytes s' = got_bytes s \/ got_bytes s' = Some (bytes_at (cur s))) /\
  (got_count s' = got_count s \/ got_count s' = Some (count (cur s))).
Proof.
  intros H Ns. destruct a as [a|h|h]; cbn [HeaderModel.hstep] in H; [|destruct (Ns h eq_refl)|].
  - destruct a; try (destruct (to_store s)); try discriminate H;
      match type of H with context [match ?x with _ => _ end] => destruct x as [[pp e1]|] end; try discriminate H;
      injection H as <- <-; (split; [reflexivity|split; left; reflexivity]).
  - destruct h.
    + destruct (at_pc (inner s)); try discriminate H; (destruct (got_bytes s); [discriminate H|]); injection H as <- <-; cbn; auto.
    + destruct (at_pc (inner s)); try discriminate H; (destruct (got_count s); [discriminate H|]); injection H as <- <-; cbn; auto.
Qed.

Lemma hrun_words acts : forall s s' es, hrun s acts = Some (s', es) -> no_store acts ->
  cur s' = cur s /\
  (got_bytes s' = got_bytes s \/ got_bytes s' = Some (bytes_at (cur s))) /\
  (got_count s' = got_count s \/ got_count s' = Some (count (cur s))).
Proof.
  induction acts as [|a acts IH]; intros s s' es H Ns; cbn [HeaderModel.hrun] in H.
  - injection H as <- <-. auto.
  - destruct (hstep s a) as [[s1 e1]|] eqn:St; [|discriminate]. destruct (hrun s1 acts) as [[s2 e2]|] eqn:R; [|discriminate].
    injection H as <- <-.
    destruct (hstep_words _ _ _ _ St) as (C1 & B1 & N1). { intros h ->. apply (Ns h). now left. }
    destruct (IH _ _ _ R) as (C2 & B2 & N2). { intros h I. apply (Ns h). now right. }
    rewrite C1 in *. split; [assumption|]. split.
    + destruct B2 as [->|B2]; auto.
    + destruct N2 as [->|N2]; auto.
Qed.

Lemma string_whole beyond c f : memory beyond -> words_of c f -> string_of beyond (bytes_at c) (count c) = Ok f.
Proof.
  intros M [[B C]|(B & C & F)]; rewrite B, C; cbn.
  - rewrite firstn_all, Nat.sub_diag. pose proof (M f 0) as L. destruct (beyond f 0); [|discriminate]. now rewrite app_nil_r.
  - now rewrite F.
Qed.

(** line 48, with both stores made *)
Lemma both_stores s f c0 : at_pc (inner s) = Opening f -> current_song (inner s) = f -> cur s = c0 ->
  to_store s = [HalfBytes; HalfCount] ->
  hrun s [HStore HalfBytes; HStore HalfCount] =
    Some ({| inner := inner s; cur := {| bytes_at := Some f; count := length f |}; to_store := [];
             got_bytes := got_bytes s; got_count := got_count s |}, []).
Proof. intros P C E T. cbn [HeaderModel.hrun HeaderModel.hstep]. rewrite P, T. cbn. rewrite P. cbn. now rewrite C. Qed.

Lemma hrun_trans s a s1 b s2 : hrun s a = Some (s1, []) -> hrun s1 b = Some (s2, []) -> hrun s (a ++ b) = Some (s2, []).
Proof. intros A B. now rewrite hrun_app, A, B. Qed.
End Header.
