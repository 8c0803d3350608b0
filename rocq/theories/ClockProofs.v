(** Proofs for C133 and C134. *)
From Coq Require Import Lia ZifyBool ZifyNat.
From Verif Require Import GoBase GoBaseFacts PlaylistModel ChanModel ChanSpec ChanProofs PlayerModel PlayerSpec ScheduleModel LatencyModel LatencySpec LatencyProofs LatencyProps ClockModel ClockSpec.
Local Open Scope Z_scope.

Section Clock.
Variable decode : song -> option (list sample).
Variable nan_break : Z.
Variable size : nat.
Variable sr : Z.
Variable begin : Z.
Notation tstep := (tstep decode nan_break size sr begin).
Notation trun := (trun decode nan_break size sr begin).
Notation period := (stream_chunk_time (Z.of_nat size) sr).

(** What a run does to the streaming loop and the channels. *)
Fixpoint source_part (acts : list taction) : list saction :=
  match acts with
  | [] => []
  | TWait _ :: r | TFire :: r => source_part r
  | TTake :: r => SoChan (CFill size) :: source_part r
  | TStep a :: r => a :: source_part r
  end.

Lemma calls_are acts : loop_part (source_part acts) = calls acts.
Proof. induction acts as [|[| | |[]] r IH]; cbn; now rewrite ?IH. Qed.

Lemma tstep_cases w a w1 es : tstep w a = Some (w1, es) ->
  (exists d, a = TWait d /\ 0 <= d /\ es = [] /\ w1 = {| ck_now := ck_now w + d; ck_fired := ck_fired w; ck_waiting := ck_waiting w; ck_lost := ck_lost w; ck_made := ck_made w; ck_source := ck_source w |})
  \/ (a = TFire /\ es = [] /\ 0 < period /\ begin + (ck_fired w + 1) * period <= ck_now w /\
      w1 = {| ck_now := ck_now w; ck_fired := ck_fired w + 1; ck_waiting := true; ck_lost := if ck_waiting w then ck_lost w + 1 else ck_lost w; ck_made := ck_made w; ck_source := ck_source w |})
  \/ (a = TTake /\ ck_waiting w = true /\ exists s, sstep decode nan_break (ck_source w) (SoChan (CFill size)) = Some (s, es) /\
      w1 = {| ck_now := ck_now w; ck_fired := ck_fired w; ck_waiting := false; ck_lost := ck_lost w; ck_made := ck_made w; ck_source := s |})
  \/ (exists b s, a = TStep b /\ (forall k, b <> SoChan (CFill k)) /\ sstep decode nan_break (ck_source w) b = Some (s, es) /\
      w1 = {| ck_now := ck_now w; ck_fired := ck_fired w; ck_waiting := ck_waiting w; ck_lost := ck_lost w;
              ck_made := match b with SoChan CReturn => ck_made w ++ [ck_now w] | _ => ck_made w end; ck_source := s |}).
Proof.
  intros E. destruct a as [d| | |b]; unfold ClockModel.tstep in E.
  - left. destruct (0 <=? d) eqn:D; [|discriminate E]. injection E as <- <-. exists d. split; [reflexivity|]. split; [lia|]. split; reflexivity.
  - right; left. destruct (0 <? period) eqn:P; [|discriminate E]. cbn [andb] in E.
    destruct (begin + (ck_fired w + 1) * period <=? ck_now w) eqn:D; [|discriminate E]. injection E as <- <-.
    split; [reflexivity|]. split; [reflexivity|]. split; [lia|]. split; [lia|reflexivity].
  - right; right; left. destruct (ck_waiting w); [|discriminate E].
    destruct (sstep decode nan_break (ck_source w) (SoChan (CFill size))) as [[s e]|] eqn:S; [|discriminate E]. injection E as <- <-.
    split; [reflexivity|]. split; [reflexivity|]. exists s. split; reflexivity.
  - right; right; right. assert (N : forall k, b <> SoChan (CFill k)) by (intros k ->; discriminate E). exists b.
    assert (E2 : match sstep decode nan_break (ck_source w) b with
      | None => None
      | Some (s, e) => Some ({| ck_now := ck_now w; ck_fired := ck_fired w; ck_waiting := ck_waiting w; ck_lost := ck_lost w;
              ck_made := match b with SoChan CReturn => ck_made w ++ [ck_now w] | _ => ck_made w end; ck_source := s |}, e)
      end = Some (w1, es)) by (destruct b as [x| |c]; [exact E|exact E|]; destruct c; try exact E; discriminate E).
    clear E. destruct (sstep decode nan_break (ck_source w) b) as [[s e]|] eqn:S; [|discriminate E2]. injection E2 as <- <-. exists s.
    split; [reflexivity|]. split; [exact N|]. split; [first [exact S|reflexivity]|reflexivity].
Qed.

Lemma trun_srun acts : forall w w' es, trun w acts = Some (w', es) ->
  srun decode nan_break (ck_source w) (source_part acts) = Some (ck_source w', es).
Proof.
  induction acts as [|a r IH]; intros w w' es R; cbn [ClockModel.trun] in R; [injection R as <- <-; reflexivity|].
  destruct (tstep w a) as [[w1 e1]|] eqn:E; [|discriminate R]. destruct (trun w1 r) as [[w2 e2]|] eqn:R2; [|discriminate R]. injection R as <- <-.
  apply IH in R2. apply tstep_cases in E as [(d & -> & _ & -> & ->)|[(-> & -> & _ & _ & ->)|[(-> & _ & s & S & ->)|(b & s & -> & _ & S & ->)]]];
    cbn [source_part ck_source app] in *; [exact R2|exact R2|cbn [srun]; now rewrite S, R2|cbn [srun]; now rewrite S, R2].
Qed.
Lemma trun_fills acts : forall w w' es, trun w acts = Some (w', es) -> fills_of size (source_part acts).
Proof.
  induction acts as [|a r IH]; intros w w' es R k; cbn [ClockModel.trun] in R; [intros []|].
  destruct (tstep w a) as [[w1 e1]|] eqn:E; [|discriminate R]. destruct (trun w1 r) as [[w2 e2]|] eqn:R2; [|discriminate R].
  specialize (IH _ _ _ R2 k). apply tstep_cases in E as [(d & -> & _)|[(-> & _)|[(-> & _)|(b & s & -> & N & _)]]]; cbn [source_part]; [exact IH|exact IH|..].
  - intros [Q|Q]; [now injection Q|auto].
  - intros [Q|Q]; [elim (N k Q)|auto].
Qed.

(** Fills that have been begun. *)
Definition running (s : source) : Z := match fill (so_chan s) with FIdle => 0 | FRun _ _ _ => 1 end.
Definition begun (s : source) : Z := zlen (returned (so_chan s)) + running s.

Lemma sstep_begun s a s1 es : sstep decode nan_break s a = Some (s1, es) ->
  begun s1 = begun s + (match a with SoChan (CFill _) => 1 | _ => 0 end) /\
  zlen (returned (so_chan s1)) = zlen (returned (so_chan s)) + (match a with SoChan CReturn => 1 | _ => 0 end) /\
  (a = SoChan CReturn -> running s = 1).
Proof.
  intros E. unfold begun, running. unfold sstep in E. destruct (at_pc (so_loop s)); [..|discriminate E].
  all: destruct a as [x| |c].
  all: try (destruct (of_loop x && negb (pushed_all s))%bool; [discriminate E|];
       destruct (pstep decode nan_break (so_loop s) x) as [[p e]|]; [|discriminate E]; injection E as <- <-; cbn [so_chan];
       split; [lia|]; split; [lia|intro Q; discriminate Q]).
  all: try (destruct (so_push s) as [|x r]; [discriminate E|]; destruct (cstep (so_chan s) (CPush x)) as [c|] eqn:C; [|discriminate E];
       injection E as <- <-; cbn [so_chan]; destruct x as [l h]; cbn [cstep] in C; destruct (prod (so_chan s)); try discriminate C; injection C as <-;
       cbn [returned fill]; split; [lia|]; split; [lia|intro Q; discriminate Q]).
  all: destruct c as [x| | | |k| | |]; [discriminate E|..].
  all: match type of E with match ?t with _ => _ end = _ => destruct t as [c|] eqn:C; [|discriminate E] end.
  all: injection E as <- <-; cbn [so_chan]; cbn [cstep] in C.
  all: repeat match type of C with context [match ?t with _ => _ end] => destruct t eqn:?; try discriminate C end.
  all: injection C as <-; cbn [returned fill]; rewrite ?zlen_app, ?zlen_cons, ?zlen_nil.
  all: repeat match goal with Q : fill _ = _ |- _ => rewrite ?Q; clear Q end.
  all: split; [lia|]; split; [lia|intro Q; first [reflexivity|discriminate Q]].
Qed.

(** The ticks, the chunks begun and the clock. *)
Definition ticks_ok (w : clocked) : Prop :=
  ck_fired w = begun (ck_source w) + (if ck_waiting w then 1 else 0) + ck_lost w /\ 0 <= ck_lost w /\ 
  (ck_fired w = 0 \/ 0 < period /\ ck_fired w * period <= ck_now w - begin) /\
  zlen (ck_made w) = zlen (returned (so_chan (ck_source w))) /\ begin <= ck_now w.

Lemma begun_nonneg s : 0 <= begun s.
Proof using Type. clear. unfold begun, running. pose proof (zlen_nonneg (returned (so_chan s))). destruct (fill (so_chan s)); lia. Qed.

Lemma ticks_step w a w1 es : ticks_ok w -> tstep w a = Some (w1, es) -> ticks_ok w1 /\ ck_lost w <= ck_lost w1 /\ ck_now w <= ck_now w1 /\
  (exists more, ck_made w1 = ck_made w ++ more /\
     (more = [] \/ more = [ck_now w] /\ 0 < period /\ begin + (zlen (ck_made w) + 1 + ck_lost w) * period <= ck_now w)).
Proof.
  intros (F & L & T & M & B) E. pose proof (begun_nonneg (ck_source w)) as Bn.
  apply tstep_cases in E as [(d & -> & D & -> & ->)|[(-> & -> & P & D & ->)|[(-> & W & s & S & ->)|(b & s & -> & N & S & ->)]]]; unfold ticks_ok; cbn [ck_now ck_fired ck_waiting ck_lost ck_made ck_source].
  - split; [split; [lia|]; split; [lia|]; split; [destruct T as [T|[P T]]; [now left|right; split; [exact P|lia]]|split; lia]|]. split; [lia|]. split; [lia|]. exists []. rewrite app_nil_r. auto.
  - split; [split; [destruct (ck_waiting w); lia|]; split; [destruct (ck_waiting w); lia|]; split; [right; split; [exact P|lia]|split; lia]|].
    split; [destruct (ck_waiting w); lia|]. split; [lia|]. exists []. rewrite app_nil_r. auto.
  - destruct (sstep_begun _ _ _ _ S) as (S1 & S2 & _). rewrite W in F. split; [split; [lia|]; split; [lia|]; split; [exact T|split; lia]|]. split; [lia|]. split; [lia|]. exists []. rewrite app_nil_r. auto.
  - destruct (sstep_begun _ _ _ _ S) as (S1 & S2 & S3). assert (Nf : match b with SoChan (CFill _) => 1 | _ => 0 end = 0).
    { destruct b as [x| |c]; try reflexivity. destruct c; try reflexivity. elim (N k). reflexivity. }
    rewrite Nf in S1. 
    assert (Q : b = SoChan CReturn \/ (match b with SoChan CReturn => ck_made w ++ [ck_now w] | _ => ck_made w end = ck_made w /\ match b with SoChan CReturn => 1 | _ => 0 end = 0)).
    { destruct b as [x| |c]; auto. destruct c; auto. }
    destruct Q as [->|[Q1 Q2]].
    + specialize (S3 eq_refl). split; [split; [lia|]; split; [lia|]; split; [exact T|split; [rewrite zlen_app, zlen_cons, zlen_nil; lia|lia]]|]. split; [lia|]. split; [lia|].
      exists [ck_now w]. split; [reflexivity|]. right. split; [reflexivity|]. unfold begun in F. rewrite S3 in F.
      pose proof (zlen_nonneg (returned (so_chan (ck_source w)))). destruct T as [T|[P T]]; [destruct (ck_waiting w); lia|]. split; [exact P|].
      assert (zlen (ck_made w) + 1 + ck_lost w <= ck_fired w) by (destruct (ck_waiting w); lia). nia.
    + rewrite Q1. rewrite Q2 in S2. split; [split; [lia|]; split; [lia|]; split; [exact T|split; lia]|]. split; [lia|]. split; [lia|]. exists []. rewrite app_nil_r. auto.
Qed.

Lemma ticks_run acts : forall w w1 es, ticks_ok w -> trun w acts = Some (w1, es) -> ticks_ok w1 /\ ck_lost w <= ck_lost w1 /\ ck_now w <= ck_now w1 /\
  exists more, ck_made w1 = ck_made w ++ more /\
    forall n t, nth_error more n = Some t -> 0 < period /\ begin + (zlen (ck_made w) + Z.of_nat n + 1 + ck_lost w) * period <= t.
Proof.
  induction acts as [|a r IH]; intros w w1 es K R; cbn [ClockModel.trun] in R.
  - injection R as <- <-. split; [exact K|]. split; [lia|]. split; [lia|]. exists []. split; [now rewrite app_nil_r|]. intros [|n] t Q; discriminate Q.
  - destruct (tstep w a) as [[w2 e2]|] eqn:E; [|discriminate R]. destruct (trun w2 r) as [[w3 e3]|] eqn:R2; [|discriminate R]. injection R as <- <-.
    destruct (ticks_step _ _ _ _ K E) as (K2 & L2 & N2 & m1 & M1 & G1). destruct (IH _ _ _ K2 R2) as (K3 & L3 & N3 & m2 & M2 & G2).
    split; [exact K3|]. split; [lia|]. split; [lia|]. exists (m1 ++ m2). split; [now rewrite M2, M1, app_assoc|]. intros n t Q.
    destruct G1 as [->|(-> & P & G1)].
    + cbn [app] in Q. destruct (G2 n t Q) as [P G]. split; [exact P|]. rewrite M1, app_nil_r in G. nia.
    + destruct n as [|n]; cbn [app nth_error] in Q.
      * injection Q as <-. split; [exact P|]. nia.
      * destruct (G2 n t Q) as [_ G]. split; [exact P|]. rewrite M1, zlen_app, zlen_cons, zlen_nil in G. nia.
Qed.

Lemma ticks_new l c : ticks_ok (new_clocked l c begin).
Proof.
  unfold ticks_ok. change (ck_fired (new_clocked l c begin)) with 0. change (begun (ck_source (new_clocked l c begin))) with 0.
  change (ck_waiting (new_clocked l c begin)) with false. change (ck_lost (new_clocked l c begin)) with 0. change (ck_now (new_clocked l c begin)) with begin.
  cbv iota. split; [lia|]. split; [lia|]. split; [now left|]. split; [reflexivity|lia].
Qed.
End Clock.

Lemma music_nth start size sr fills : forall i j m, nth_error (stream_music start size sr i fills) j = Some m ->
  q_start (fst m) = start + (i + Z.of_nat j) * stream_chunk_time size sr /\
  exists f, nth_error fills j = Some f /\ q_low (fst m) = snd (fst f) /\ q_high (fst m) = snd f.
Proof.
  induction fills as [|f r IH]; intros i j m H; cbn [stream_music] in H; [destruct j; discriminate|].
  destruct j as [|j]; cbn [nth_error] in H.
  - injection H as <-. destruct f as [[z lo] hi]. cbn [tick fst snd q_start q_low q_high]. split; [lia|]. exists (z, lo, hi). auto.
  - destruct (IH _ _ _ H) as (H1 & f2 & H2). split; [rewrite H1; lia|]. exists f2. exact H2.
Qed.
