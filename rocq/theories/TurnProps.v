(** C131: every song of the playlist gets its turn. *)
From Coq Require Import Lia.
From Verif Require Import GoBase GoBaseFacts PlaylistModel PlaylistSpec PlaylistProofs PlaylistLoopProofs PlaylistProps ProgrammeSpec ProgrammeProofs TurnProofs.
Local Open Scope Z_scope.

(** However the server got where it is (edits, pauses, jumps to positions >= 0), at whatever step its
    loop is: if it plays and nobody interferes any more, then after finitely many steps of the loop
    every playable song of the playlist has been announced and streamed whole, with no more songs announced
    before it than the playlist has and one more for each jump that still waits to interrupt a song. *)
Theorem C131_turn_comes : forall decode nan_break l acts s es f content,
  (forall p, In (ASetPosWrite p) acts -> 0 <= p) ->
  prun decode nan_break (new_playlist l) acts = Some (s, es) ->
  at_pc s <> Crashed -> playing s = true -> ~ In [] (songs s) ->
  In f (songs s) -> decode f = Some content ->
  exists n : nat, forall acts' s' es',
    Forall (fun a => is_loop_action a = true) acts' -> (n <= length acts')%nat ->
    prun decode nan_break s acts' = Some (s', es') ->
    exists names more before after, announced es' = names ++ f :: more /\ (length names <= length (songs s) + tokens s)%nat /\
      audible (stream_of es') = before ++ audible content ++ after.
Proof.
  intros decode nb l acts s es f c A R Nc Pl Ni I D.
  assert (Po : 0 <= position s).
  { eapply (pos_run decode nb acts); [|apply Forall_forall|exact R]; [cbn; lia|]. intros a Ia p ->. exact (A p Ia). }
  destruct (gets_turn decode nb s (songs s) (tokens s) f c) as (a & s1 & e1 & names & before & L & R1 & _ & An & Ln & Au); try assumption; [repeat split; assumption|].
  exists (length a). intros acts' s' es' L' Le R'.
  destruct (loop_runs_agree decode nb a acts' s s1 s' e1 es' L L' Le R1 R') as (rest & er & -> & _ & ->).
  exists names, (announced er), before, (audible (stream_of er)). split; [rewrite announced_app, An, <- app_assoc; reflexivity|].
  split; [exact Ln|]. rewrite stream_of_app, audible_app, Au, <- app_assoc. reflexivity.
Qed.
Print Assumptions C131_turn_comes.

(** And the loop does get that far: it never stops by itself. *)
Theorem C131_loop_runs_on : forall decode nan_break l acts s es (n : nat),
  (forall p, In (ASetPosWrite p) acts -> 0 <= p) ->
  prun decode nan_break (new_playlist l) acts = Some (s, es) -> at_pc s <> Crashed ->
  exists acts' s' es', Forall (fun a => is_loop_action a = true) acts' /\ length acts' = n /\
    prun decode nan_break s acts' = Some (s', es') /\ at_pc s' <> Crashed.
Proof.
  intros decode nb l acts s es n A R Nc.
  assert (Po : 0 <= position s).
  { eapply (pos_run decode nb acts); [|apply Forall_forall|exact R]; [cbn; lia|]. intros a Ia p ->. exact (A p Ia). }
  clear A R. revert s Nc Po. induction n as [|n IH]; intros s Nc Po; [exists [], s, []; repeat split; auto|].
  destruct (C04_loop_goes_on decode nb s Nc) as (a & La & St & _). destruct (pstep decode nb s a) as [[s1 e1]|] eqn:E; [|congruence].
  assert (Nc1 : at_pc s1 <> Crashed).
  { pose proof (pstep_stepped decode nb _ _ _ _ E) as Q. destruct Q; cbn; try congruence; try discriminate La.
    exfalso. destruct (songs s) as [|x0 l0] eqn:Sg; [discriminate|]. rewrite next_song_nonneg in H0 by (congruence || exact Po). discriminate. }
  destruct (IH s1 Nc1) as (b & s2 & e2 & Lb & Ln & R2 & Nc2).
  { eapply pos_step; [exact Po| |exact E]. intros p ->. discriminate La. }
  exists (a :: b), s2, (e1 ++ e2). split; [now constructor|]. split; [cbn; congruence|]. split; [|exact Nc2].
  cbn [prun]. now rewrite E, R2.
Qed.
Print Assumptions C131_loop_runs_on.

(** A case: b is inserted and c removed while a is played; b comes after a and x, which cannot be played. *)
Example C131_nonvacuous : exists s es,
  prun ex_decode 3 (new_playlist [sa; sx; sc])
    [PNext; POpen; ASetPlaying true; PCmp; AEdit (EInsert sb 2); AEdit (ERemove 3)] = Some (s, es) /\
  at_pc s = BlockRead [(1%N, 2%N)] /\ playing s = true /\ tokens s = 0%nat /\ songs s = [sa; sx; sb] /\
  ~ In [] (songs s) /\ In sb (songs s) /\ ex_decode sb = Some [(1%N, 2%N); (1%N, 2%N)] /\
  exists s' es', prun ex_decode 3 s [PBlock; PCheck; PNext; POpen; PNext; POpen; PCmp; PBlock; PCheck] = Some (s', es') /\
    announced es' = [sb] /\ audible (stream_of es') = [(1%N, 2%N); (1%N, 2%N); (1%N, 2%N)].
Proof.
  do 2 eexists. split; [vm_compute; reflexivity|]. repeat (split; [vm_compute; try reflexivity; try tauto; intuition discriminate|]).
  do 2 eexists. split; [vm_compute; reflexivity|]. split; vm_compute; reflexivity.
Qed.
(** The same with a jump to c that waits while a is played. *)
Example C131_nonvacuous_jump : exists s es s' es',
  prun ex_decode 3 (new_playlist [sa; sb; sc]) [PNext; POpen; ASetPlaying true; PCmp; ASetPosWrite 2; ASetPosSend] = Some (s, es) /\
  tokens s = 1%nat /\ playing s = true /\ at_pc s <> Crashed /\
  prun ex_decode 3 s [PBlock; PCheck; PNext; POpen; PCmp; PBlock; PCheck; PNext; POpen; PCmp; PBlock; PCheck; PNext; POpen; PCmp; PBlock; PCheck] = Some (s', es') /\
  announced es' = [sc; sa; sb].
Proof.
  do 4 eexists. split; [vm_compute; reflexivity|]. split; [reflexivity|]. split; [reflexivity|]. split; [discriminate|]. split; [vm_compute; reflexivity|reflexivity].
Qed.
