(** Wire format: theorems for C29-C32. *)
From Verif Require Import GoBase GoBaseFacts GoUtf8 GoUtf8Facts WireModel WireSpec WireProofs.
From Coq Require Import ZifyBool ZifyNat ZifyN.
Local Open Scope Z_scope.

(** A toy instance of what the wire format takes as given, for the non-vacuity
    examples: "compression" that only puts the two-byte zlib header in front. *)
Definition toy_env : wire_env := {|
  zdeflate := fun d => 120%N :: 94%N :: d;
  zinflate := fun d => match d with
                       | x :: y :: r => if (N.eqb x 120 && N.eqb y 94)%bool then Some r else None
                       | _ => None
                       end;
  foreign := fun n => if text_eqb n (T "comm.Envelope") then Some (fun _ => true) else None
|}.
Lemma toy_inverse : zlib_inverse toy_env.
Proof. intros d _; reflexivity. Qed.

(** A chunk with a NaN sample (bit pattern 0x7ff8000000000001) and a negative zero. *)
Definition ex_chunk : message :=
  QueueChunkRequest (-5) 3 [0x7ff8000000000001%N; 0x8000000000000000%N] [0%N; 0x3ff0000000000000%N] 44100.
Definition ex_song : message :=
  NewSongInfo (2 ^ 63) (T "a/b.mp3") 1000 [[(0, T "la"); (-3, [])]; []] (Some (T "t", [0xC3%N; 0xA9%N], [])).

Ltac small_fits := split; [vm_compute; discriminate|
  let f := fresh "f" in let H := fresh "H" in
  intros f H; vm_compute in H; apply Some_inj in H; subst f; vm_compute; discriminate].
Lemma ex_chunk_sendable : sendable toy_env ex_chunk.
Proof.
  split; [|split; [exact I|small_fits]]. cbn. unfold in_int64, in_uint64, float_bits.
  repeat split; try lia; repeat constructor.
Qed.
Lemma ex_song_sendable : sendable toy_env ex_song.
Proof.
  split; [|split; [apply strings_ok; vm_compute; reflexivity|small_fits]]. cbn. unfold in_int64, in_uint64.
  repeat split; try lia. repeat constructor; cbn; lia.
Qed.
Lemma ex_ping_sendable : sendable toy_env PingMessage.
Proof. split; [exact I|split; [exact I|small_fits]]. Qed.

(** * C29: framing survives any segmentation of the byte stream *)

(** Whatever the sizes of the pieces in which the frames of [msgs] arrive, the receiver
    hands exactly [msgs] to its handler and then sees the end of the stream. *)
Theorem C29_any_segmentation : forall (w : wire_env) (msgs : list message) (frames : list bytes) (pieces : list bytes),
  zlib_inverse w -> Forall (sendable w) msgs -> Forall2 (frame_of w) msgs frames ->
  concat pieces = concat frames ->
  handle_connection w pieces = (msgs, Closed).
Proof.
  intros w msgs frames pieces Hz Hs Hf Hc.
  apply (handle_frames w Hz msgs frames Hs Hf pieces []); [rewrite app_nil_r; exact Hc|].
  intros c' Hc'. exists []. apply read_wire_eof; exact Hc'.
Qed.

(** However the writes are cut short, a send that returns nil has put exactly the frame
    of its message on the wire, and a failed or unfinished one a prefix of it. *)
Theorem C29_short_writes : forall (w : wire_env) (m : message) (script : list write_result) out result,
  send_wire w m script = (out, result) ->
  (result = Some true -> frame_of w m out)
  /\ (forall f, frame_of w m f -> exists lost, f = out ++ lost).
Proof.
  intros w m script out result H. unfold send_wire, frame_of in *.
  destruct (to_wire w m) as [data|].
  - destruct (send_loop_done _ _ _ _ H) as [H1 [rest H2]]. split.
    + intros Hr. rewrite (H1 Hr). reflexivity.
    + intros f Hf. apply Some_inj in Hf; subst f. exists rest; exact H2.
  - injection H as <- <-. split; [discriminate|intros f Hf; discriminate].
Qed.

(** End to end: one goroutine sends [msgs] one after the other, every send returns nil;
    the receiver gets exactly [msgs] whatever the sizes of the writes and the reads. *)
Theorem C29_end_to_end : forall (w : wire_env) (msgs : list message) (scripts : list (list write_result))
    (outs : list bytes) (pieces : list bytes),
  zlib_inverse w -> Forall (sendable w) msgs ->
  Forall2 (fun ms out => send_wire w (fst ms) (snd ms) = (out, Some true)) (combine msgs scripts) outs ->
  length scripts = length msgs ->
  concat pieces = concat outs ->
  handle_connection w pieces = (msgs, Closed).
Proof.
  intros w msgs scripts outs pieces Hz Hs Hsend Hlen Hc.
  apply (C29_any_segmentation w msgs outs pieces Hz Hs); [|exact Hc].
  clear Hs Hc pieces. revert scripts outs Hsend Hlen. induction msgs as [|m msgs IH]; intros scripts outs Hsend Hlen.
  - cbn [combine] in Hsend. inversion Hsend; constructor.
  - destruct scripts as [|s scripts]; [discriminate|]. cbn [combine] in Hsend.
    inversion Hsend as [|? out ? outs' H1 H2]; subst. constructor.
    + cbn [fst snd] in H1. apply (C29_short_writes w m s out _ H1); reflexivity.
    + apply (IH scripts); [exact H2|]. cbn [length] in Hlen. lia.
Qed.

(** If the connection breaks at any byte, the receiver has got exactly the messages
    whose frames were complete, and closes. *)
Theorem C29_cut_anywhere : forall (w : wire_env) (msgs : list message) (next : message)
    (frames : list bytes) (f part lost : bytes) (pieces : list bytes),
  zlib_inverse w -> foreign w [] = None ->
  Forall (sendable w) msgs -> Forall2 (frame_of w) msgs frames ->
  sendable w next -> frame_of w next f -> f = part ++ lost -> lost <> [] ->
  concat pieces = concat frames ++ part ->
  handle_connection w pieces = (msgs, Closed).
Proof.
  intros w msgs next frames f part lost pieces Hz Hfo Hs Hf Hn Hnf Hp Hl Hc.
  apply (handle_frames w Hz msgs frames Hs Hf pieces part Hc).
  intros c' Hc'. eapply read_wire_truncated; eauto.
Qed.

Example C29_example : exists f1 f2,
  frame_of toy_env ex_chunk f1 /\ frame_of toy_env ex_song f2
  /\ handle_connection toy_env (map (fun b => [b]) (f1 ++ f2)) = ([ex_chunk; ex_song], Closed)
  /\ send_wire toy_env ex_chunk [WOk 1; WOk 0; WOk 30; WOk 100000] = (f1, Some true).
Proof.
  eexists. eexists. split; [unfold frame_of; vm_compute; reflexivity|].
  split; [unfold frame_of; vm_compute; reflexivity|]. split; vm_compute; reflexivity.
Qed.

(** * C30: message encoding round-trips *)

(** A sendable message has a frame, and whoever reads that frame (followed by anything,
    in any pieces) gets the message back with all fields equal - doubles bit for bit -
    and the stream positioned behind the frame. *)
Theorem C30_round_trip : forall (w : wire_env) (m : message),
  zlib_inverse w -> sendable w m ->
  exists f, frame_of w m f
    /\ forall pieces rest, concat pieces = f ++ rest ->
       exists pieces', read_wire w pieces = Ok (Some m, pieces') /\ concat pieces' = rest.
Proof.
  intros w m Hz Hs. pose proof Hs as (_ & Ht & _).
  eexists. split; [apply to_wire_some; exact Ht|].
  intros pieces rest Hc. eapply read_wire_frame; eauto. apply to_wire_some; exact Ht.
Qed.

(** The only messages that cannot be sent are those with a text that is not UTF-8; the
    sender gets an error and nothing is written. *)
Theorem C30_refused_iff_not_utf8 : forall (w : wire_env) (m : message),
  (to_wire w m = None <-> ~ texts_utf8 m)
  /\ (~ texts_utf8 m -> forall script, send_wire w m script = ([], Some false)).
Proof.
  intros w m. split; [apply to_wire_none|].
  intros H script. unfold send_wire. apply (to_wire_none w) in H. rewrite H. reflexivity.
Qed.

(** Two different messages never have the same frame. *)
Theorem C30_injective : forall (w : wire_env) (m1 m2 : message) f,
  zlib_inverse w -> sendable w m1 -> sendable w m2 -> frame_of w m1 f -> frame_of w m2 f -> m1 = m2.
Proof.
  intros w m1 m2 f Hz H1 H2 F1 F2.
  destruct (read_wire_frame w m1 f [f] [] Hz H1 F1) as [c1 [R1 _]]; [cbn; rewrite app_nil_r; reflexivity|].
  destruct (read_wire_frame w m2 f [f] [] Hz H2 F2) as [c2 [R2 _]]; [cbn; rewrite app_nil_r; reflexivity|].
  congruence.
Qed.

Example C30_example : sendable toy_env ex_chunk /\ sendable toy_env ex_song
  /\ to_wire toy_env (NewSongInfo 0 [0xE9%N] 0 [] None) = None.
Proof. split; [apply ex_chunk_sendable|split; [apply ex_song_sendable|vm_compute; reflexivity]]. Qed.

(** * C31: bad input only costs the connection it came from *)

(** Partial: the only inputs that crash the process are those containing a poison
    frame; every other byte sequence ends with the connection closed.  Missing: the
    absence of crashes, which is false (below). *)
Theorem C31_crash_needs_poison_partial : forall (w : wire_env) (pieces : list bytes),
  foreign w [] = None ->
  (forall pre s, concat pieces = pre ++ s -> ~ poison w s) ->
  snd (handle_connection w pieces) = Closed.
Proof.
  intros w pieces Hfo Hno. destruct (snd (handle_connection w pieces)) eqn:E; [reflexivity|].
  exfalso. destruct (crash_poison w Hfo (S (length (concat pieces))) pieces ltac:(lia) E) as (pre & s & H1 & H2).
  exact (Hno pre s H1 H2).
Qed.

(** Refuted: after any sequence of well-formed messages, eight bytes 0xFF crash the
    process ... *)
Theorem C31_negative_length_refuted : forall (w : wire_env) (msgs : list message) (frames : list bytes) (pieces : list bytes) (rest : bytes),
  zlib_inverse w -> Forall (sendable w) msgs -> Forall2 (frame_of w) msgs frames ->
  concat pieces = concat frames ++ repeat 255%N 8 ++ rest ->
  handle_connection w pieces = (msgs, Crashed).
Proof.
  intros w msgs frames pieces rest Hz Hs Hf Hc.
  apply (frames_then_poison w Hz msgs frames Hs Hf pieces (repeat 255%N 8 ++ rest) Hc).
  exists (repeat 255%N 8), rest. split; [reflexivity|]. split; [reflexivity|]. left. vm_compute. reflexivity.
Qed.

(** ... and so does a well-formed envelope of a known type without a payload (the zlib
    reader refuses an empty stream). *)
Theorem C31_bad_payload_refuted : forall (w : wire_env) (msgs : list message) (frames : list bytes) (pieces : list bytes) (rest : bytes),
  zlib_inverse w -> zinflate w [] = None ->
  Forall (sendable w) msgs -> Forall2 (frame_of w) msgs frames ->
  concat pieces = concat frames ++ put_le 8 18 ++ [10%N; 16%N] ++ T "comm.PingMessage" ++ rest ->
  handle_connection w pieces = (msgs, Crashed).
Proof.
  intros w msgs frames pieces rest Hz Hi Hs Hf Hc.
  apply (frames_then_poison w Hz msgs frames Hs Hf pieces _ Hc).
  exists (put_le 8 18), ([10%N; 16%N] ++ T "comm.PingMessage" ++ rest).
  split; [reflexivity|]. split; [reflexivity|]. cbv zeta. right; right.
  assert (Hsz : zlen ([10%N; 16%N] ++ T "comm.PingMessage") = i64 (get_le (put_le 8 18))) by (vm_compute; reflexivity).
  exists ([10%N; 16%N] ++ T "comm.PingMessage"), rest, (T "comm.PingMessage"), [], PingMessage.
  split; [rewrite <- app_assoc; reflexivity|]. split; [exact Hsz|].
  split; [vm_compute; reflexivity|]. split; [reflexivity|exact Hi].
Qed.

Example C31_example :
  (* garbage that is not poison: unknown type, unreadable envelope, end inside a frame *)
  snd (handle_connection toy_env [put_le 8 3 ++ [10%N; 1%N; 65%N]]) = Closed
  /\ snd (handle_connection toy_env [put_le 8 2 ++ [255%N; 255%N]]) = Closed
  /\ snd (handle_connection toy_env [put_le 8 100 ++ [1%N]]) = Closed
  (* and two crashes *)
  /\ snd (handle_connection toy_env [repeat 255%N 8]) = Crashed
  /\ snd (handle_connection toy_env [put_le 8 18 ++ [10%N; 16%N] ++ T "comm.PingMessage"]) = Crashed.
Proof. vm_compute. repeat split; reflexivity. Qed.

(** * C32: concurrent senders do not corrupt the stream *)

(** Any number of goroutines send on one connection, each its own list of messages, in
    any interleaving and with the connection possibly failing in the middle of any
    write.  Whatever the pieces in which the stream arrives, the receiver gets only
    whole messages, in an order that interleaves initial parts of the senders' lists;
    if no write failed these parts are everything the senders have sent so far. *)
Theorem C32_concurrent_senders : forall (w : wire_env) (senders : list (list message)) (s : shared_conn) (pieces : list bytes),
  zlib_inverse w -> foreign w [] = None ->
  (forall m, In m (concat senders) -> sendable w m) ->
  send_run w {| to_send := senders; stream := []; failed := false |} s ->
  concat pieces = stream s ->
  exists (sent : list (list message)) (received : list message),
    handle_connection w pieces = (received, Closed)
    /\ interleaving sent received
    /\ length sent = length senders
    /\ (forall i, exists later, nth i senders [] = nth i sent [] ++ later)
    /\ (failed s = false -> progress senders sent (to_send s)).
Proof.
  intros w senders s pieces Hz Hfo Hs Hrun Hc. exact (stream_received w senders s Hz Hfo Hs Hrun pieces Hc).
Qed.

(** In particular when everybody is done and no write failed, everything arrives. *)
Theorem C32_all_delivered : forall (w : wire_env) (senders : list (list message)) (s : shared_conn) (pieces : list bytes),
  zlib_inverse w -> foreign w [] = None ->
  (forall m, In m (concat senders) -> sendable w m) ->
  send_run w {| to_send := senders; stream := []; failed := false |} s ->
  failed s = false -> Forall (eq []) (to_send s) ->
  concat pieces = stream s ->
  exists received, handle_connection w pieces = (received, Closed) /\ interleaving senders received.
Proof.
  intros w senders s pieces Hz Hfo Hs Hrun Hf He Hc.
  destruct (stream_received w senders s Hz Hfo Hs Hrun pieces Hc) as (d & sent & H1 & H2 & H3 & _ & H5).
  exists sent. split; [exact H1|]. destruct (H5 Hf) as (L1 & L2 & H).
  replace senders with d; [exact H2|].
  apply (nth_ext _ _ [] []); [exact H3|]. intros i Hi. specialize (H i).
  assert (Hq : nth i (to_send s) [] = []).
  { rewrite Forall_forall in He. symmetry. destruct (nth_in_or_default i (to_send s) []) as [Hin| ->]; [apply He; exact Hin|reflexivity]. }
  rewrite Hq, app_nil_r in H. symmetry; exact H.
Qed.

Example C32_example : exists s, send_run toy_env
    {| to_send := [[PingMessage; ex_chunk]; [PongMessage]]; stream := []; failed := false |} s
  /\ failed s = false /\ Forall (eq []) (to_send s)
  /\ handle_connection toy_env [stream s] = ([PingMessage; PongMessage; ex_chunk], Closed).
Proof.
  eexists. split.
  - eapply SendRunStep; [eapply SendRunStep; [eapply SendRunStep; [apply SendRunNil|]|]|].
    + apply (SendWhole toy_env 0 PingMessage [ex_chunk]); [reflexivity|vm_compute; reflexivity].
    + apply (SendWhole toy_env 1 PongMessage []); [reflexivity|vm_compute; reflexivity].
    + apply (SendWhole toy_env 0 ex_chunk []); [reflexivity|vm_compute; reflexivity].
  - split; [reflexivity|]. split; [vm_compute; repeat constructor|]. vm_compute. reflexivity.
Qed.

Print Assumptions C29_any_segmentation.
Print Assumptions C29_end_to_end.
Print Assumptions C29_cut_anywhere.
Print Assumptions C30_round_trip.
Print Assumptions C30_refused_iff_not_utf8.
Print Assumptions C30_injective.
Print Assumptions C31_crash_needs_poison_partial.
Print Assumptions C31_negative_length_refuted.
Print Assumptions C31_bad_payload_refuted.
Print Assumptions C32_concurrent_senders.
Print Assumptions C32_all_delivered.
