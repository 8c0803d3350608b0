(** C96, together with C130: which samples of the recordings are streamed. *)
From Coq Require Import Lia.
From Verif Require Import GoBase GoBaseFacts PlaylistModel PlaylistSpec PlaylistProofs PlaylistLoopProofs PlaylistProps LifeModel ProgrammeSpec ProgrammeProofs ProgrammeProps.
Local Open Scope Z_scope.

(** A disc: for every name the sample rate and the samples of the recording, if the file can be played.
    [p] are all the recorded samples of [f], or the first of them. *)
Definition all_of (disc : song -> option (Z * list sample)) (f : song) (p : list sample) : Prop :=
  exists rate, disc f = Some (rate, p).
Definition first_of (disc : song -> option (Z * list sample)) (f : song) (p : list sample) : Prop :=
  exists rate rest, disc f = Some (rate, p ++ rest).

(** The stream takes the recorded samples one by one, from the first one of each song announced and in the
    order of the recording, whatever rate they were recorded at: none is left out, repeated or computed. *)
Theorem C96_recorded_samples_partial : forall disc nan_break l acts s es,
  prun (fun f => get_streamer (disc f)) nan_break (new_playlist l) acts = Some (s, es) ->
  exists parts, Forall2 (first_of disc) (announced es) parts /\ audible (stream_of es) = audible (concat parts).
Proof.
  intros disc nb l acts s es R. destruct (C130_songs_only _ nb l acts s es R) as (parts & F & A).
  exists parts. split; [|exact A]. clear A. induction F as [|f p fs ps (rest & B) F IH]; constructor; [|exact IH].
  unfold get_streamer in B. destruct (disc f) as [[rate c]|] eqn:D; [|discriminate B]. injection B as ->. exists rate, rest. exact D.
Qed.
Print Assumptions C96_recorded_samples_partial.

(** ... and all of them unless somebody jumps: every song announced but the last has been streamed to its
    last recorded sample. *)
Theorem C96_whole_recording_partial : forall disc nan_break l acts s es,
  Forall (fun a => is_jump a = false) acts ->
  prun (fun f => get_streamer (disc f)) nan_break (new_playlist l) acts = Some (s, es) ->
  exists done parts cur p, announced es = done ++ cur /\ Forall2 (all_of disc) done parts /\
    ((cur = [] /\ p = []) \/ exists f, cur = [f] /\ first_of disc f p) /\
    audible (stream_of es) = audible (concat parts ++ p).
Proof.
  intros disc nb l acts s es A R. destruct (C130_whole_songs _ nb l acts s es A R) as (fs & ps & cur & p & Nm & F & C & Au & _).
  exists fs, ps, cur, p. split; [exact Nm|]. split; [|split; [|exact Au]].
  - clear - F. induction F as [|f q fs ps B F IH]; constructor; [|exact IH]. unfold whole, get_streamer in B.
    destruct (disc f) as [[rate c]|] eqn:D; [|discriminate B]. injection B as ->. exists rate. exact D.
  - destruct C as [C|(f & E & rest & B)]; [now left|]. right. exists f. split; [exact E|]. unfold get_streamer in B.
    destruct (disc f) as [[rate c]|] eqn:D; [|discriminate B]. injection B as ->. exists rate, rest. exact D.
Qed.
Print Assumptions C96_whole_recording_partial.

(** Two recordings of different rates, one after the other. *)
Definition ex_disc (f : song) : option (Z * list sample) :=
  match ex_decode f with Some c => Some (if text_eqb f sa then 48000 else 22050, c) | None => None end.
Example C96_recorded_nonvacuous : exists s es,
  Forall (fun a => is_jump a = false) [ASetPlaying true; PNext; POpen; PCmp; PBlock; PCheck; PNext; POpen; PCmp; PBlock] /\
  prun (fun f => get_streamer (ex_disc f)) 3 (new_playlist [sa; sb])
    [ASetPlaying true; PNext; POpen; PCmp; PBlock; PCheck; PNext; POpen; PCmp; PBlock] = Some (s, es) /\
  announced es = [sa; sb] /\ audible (stream_of es) <> [] /\ ex_disc sa <> None /\ ex_disc sb <> None.
Proof.
  eexists. eexists. split; [repeat constructor|]. split; [vm_compute; reflexivity|]. split; [vm_compute; reflexivity|].
  split; [vm_compute; discriminate|]. split; vm_compute; discriminate.
Qed.
