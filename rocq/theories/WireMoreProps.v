(** Further theorems about the receiver (C29, C31, C80), for every byte sequence. *)
From Verif Require Import GoBase GoBaseFacts GoUtf8 GoUtf8Facts WireModel WireSpec WireProofs WireMoreSpec WireMoreProofs WireProps.
Local Open Scope Z_scope.

(** * C29: for every byte stream, readable or not, the pieces do not matter *)
Theorem C29_only_bytes_matter : forall (w : wire_env) (pieces pieces' : list bytes),
  concat pieces = concat pieces' -> handle_connection w pieces = handle_connection w pieces'.
Proof.
  intros w p1 p2 H. unfold handle_connection. rewrite <- H. apply serve_bytes. exact H.
Qed.

(** What arrives later does not change what has been delivered already. *)
Lemma good_frames_more w ms s rest x : good_frames w ms s rest -> good_frames w ms (s ++ x) (rest ++ x).
Proof.
  induction 1 as [s|m ms s r rest (hd & env & ty & zd & d & m0 & E & H) G IH]; [constructor|].
  econstructor; [|exact IH]. exists hd, env, ty, zd, d, m0. split; [|exact H]. rewrite E, <- !app_assoc. reflexivity.
Qed.
Theorem C29_delivered_stays : forall (w : wire_env) (pieces later : list bytes),
  foreign w [] = None ->
  exists more, fst (handle_connection w (pieces ++ later)) = fst (handle_connection w pieces) ++ more.
Proof.
  intros w c later Hfo. destruct (handle_connection w c) as [ms e] eqn:E. cbn [fst].
  destruct (handle_iff w Hfo (S (length (concat c))) c ms e ltac:(lia) E) as (rest & G & _).
  apply (good_frames_more _ _ _ _ (concat later)) in G. rewrite <- concat_app in G.
  exists (fst (handle_connection w [rest ++ concat later])).
  rewrite (handle_good w (c ++ later) ms _ Hfo G [rest ++ concat later]) by (cbn; apply app_nil_r). reflexivity.
Qed.

(** * C31: exactly what each byte stream leads to *)
(** The process crashes with the messages [ms] delivered iff the stream consists of readable
    frames for [ms] followed by a poison frame.  (Partial: it should never crash.) *)
Theorem C31_crash_exact_partial : forall (w : wire_env) (pieces : list bytes) (ms : list message),
  foreign w [] = None ->
  (handle_connection w pieces = (ms, Crashed) <->
   exists rest, good_frames w ms (concat pieces) rest /\ poison w rest).
Proof.
  intros w c ms Hfo. split.
  - intros H. destruct (handle_iff w Hfo (S (length (concat c))) c ms Crashed ltac:(lia) H) as (rest & G & P). eauto.
  - intros (rest & G & P). rewrite (handle_good w c ms rest Hfo G [rest]) by (cbn; apply app_nil_r).
    rewrite (handle_connection_crash w [rest]); [cbn; now rewrite app_nil_r|].
    apply read_wire_poison. cbn. rewrite app_nil_r. exact P.
Qed.
(** ... and the connection is closed iff the readable frames are followed by something that
    is neither poison nor a readable frame. *)
Theorem C31_closed_exact_partial : forall (w : wire_env) (pieces : list bytes) (ms : list message),
  foreign w [] = None ->
  (handle_connection w pieces = (ms, Closed) <->
   exists rest, good_frames w ms (concat pieces) rest /\ ~ poison w rest /\ forall m r, ~ good_frame w m rest r).
Proof.
  intros w c ms Hfo. split.
  - intros H. destruct (handle_iff w Hfo (S (length (concat c))) c ms Closed ltac:(lia) H) as (rest & G & P). eauto.
  - intros (rest & G & P & NG). rewrite (handle_good w c ms rest Hfo G [rest]) by (cbn; apply app_nil_r).
    assert (E : handle_connection w [rest] = ([], Closed)).
    { destruct (handle_connection w [rest]) as [ms' e] eqn:E.
      destruct (handle_iff w Hfo (S (length (concat [rest]))) [rest] ms' e ltac:(lia) E) as (r' & G' & P').
      cbn [concat] in G'. rewrite app_nil_r in G'. inversion G' as [|m ms'' s r'' rest' G1 G2]; subst.
      - destruct e; [reflexivity|contradiction].
      - exfalso. exact (NG _ _ G1). }
    rewrite E. cbn. now rewrite app_nil_r.
Qed.

(** * C80: whatever is received, the handlers only see well-formed messages *)
Theorem C80_well_formed : forall (w : wire_env) (pieces : list bytes) (m : message),
  (forall d x, Forall byte d -> zinflate w d = Some x -> Forall byte x) ->
  Forall byte (concat pieces) ->
  In m (fst (handle_connection w pieces)) ->
  texts_utf8 m /\ (field_values m \/ exists name, m = OtherMessage name).
Proof.
  intros w c m Z Hc I. pose proof (serve_ok w (S (length (concat c))) Z c Hc) as S.
  rewrite Forall_forall in S. specialize (S m I). destruct S as [S1 S2].
  split; [now apply strings_ok|]. destruct m; eauto.
Qed.

Example C80_nonvacuous :
  (forall d x, Forall byte d -> zinflate toy_env d = Some x -> Forall byte x) /\
  (* a song name that is not UTF-8 costs the connection *)
  (let inner := [18%N; 1%N; 0xFF%N] in
   let env := enc_envelope (T "comm.NewSongInfo") (zdeflate toy_env inner) in
   handle_connection toy_env [put_le 8 (N.of_nat (length env)) ++ env] = ([], Closed)) /\
  (* one that is gets through *)
  (let inner := [18%N; 2%N; 0xC3%N; 0xA9%N; 8%N; 7%N] in
   let env := enc_envelope (T "comm.NewSongInfo") (zdeflate toy_env inner) in
   handle_connection toy_env [put_le 8 (N.of_nat (length env)) ++ env] = ([NewSongInfo 7 [0xC3%N; 0xA9%N] 0 [] None], Closed)).
Proof.
  split; [|split; vm_compute; reflexivity].
  intros d x Hd. cbn. destruct Hd as [|a d Ha Hd]; [discriminate|]. destruct Hd as [|b d Hb Hd]; [discriminate|].
  destruct (N.eqb a 120 && N.eqb b 94)%bool; [|discriminate]. intros [= <-]. exact Hd.
Qed.
Example C31_exact_nonvacuous : exists f, frame_of toy_env PingMessage f /\
  handle_connection toy_env [f ++ repeat 255%N 8] = ([PingMessage], Crashed) /\
  handle_connection toy_env [f ++ repeat 0%N 8] = ([PingMessage], Closed).
Proof. eexists. split; [unfold frame_of; vm_compute; reflexivity|]. split; vm_compute; reflexivity. Qed.

Print Assumptions C29_only_bytes_matter.
Print Assumptions C29_delivered_stays.
Print Assumptions C31_crash_exact_partial.
Print Assumptions C31_closed_exact_partial.
Print Assumptions C80_well_formed.
