(** Model of playback/streamer.go and of QueueChunk/CombineSamples in playback/playback.go.

    The sample queue between ReadChunks and the play loop is a FIFO that makes its reader
    wait (QueueModel, C15/C16), so the play loop is a function of the sequence of timed
    samples put into it: [Blocked] below means that the call waits for further samples. *)
From Verif Require Import GoBase PlaylistModel QueueModel.
Local Open Scope Z_scope.

(** beep's SampleRate.D and .N (external library; [time.Second * n / sr] and
    [d * sr / time.Second] in 64-bit arithmetic, unbounded here; exact for
    n < 9.2e9 samples).  streamer.go:99-105 *)
Definition samples_duration (sr n : Z) : Z := go_div (n * 1000000000) sr.
Definition samples_count (sr d : Z) : Z := go_div (d * sr) 1000000000.

(* ------------------------------------------------------------------ *)
(** ** Receiving chunks *)

(** playback.go:66-76 (CombineSamples) *)
Fixpoint combine_samples (low high : list N) : list (N * N) :=
  match low, high with
  | l :: low', h :: high' => (l, h) :: combine_samples low' high'
  | _, _ => []
  end.

(** streamer.go:109-114; sampleN and pos are only used by the unused copySamples/drained *)
Record chunk := { c_start : Z; c_samples : list (N * N) }.

(** ReadChunks (81-97) between two of its steps *)
Inductive rstate :=
| RTop                        (* 82-83: the loop test and the test for a queued chunk *)
| RAdd (i : nat)              (* 85-88: holding the read lock, next to add sample i of chunks[0] *)
| RPop.                       (* 89-93: read lock released, write lock not yet taken *)

(** The variables of playback/playback.go and playback/streamer.go that take part in receiving. *)
Record pl_state := {
  ready : bool;               (* playback.go: streamer != nil *)
  chunks : list chunk;
  rd : rstate;
  fed : list tsample          (* history: everything added to the sample queue *)
}.

(** At process start: streamer is nil (playback/playback.go 21-27). *)
Definition init_pl : pl_state := {| ready := false; chunks := []; rd := RTop; fed := [] |}.

(** Init, QueueChunk, and a step of ReadChunks (playback.go 50-62, 79-102; streamer.go 81-97). *)
Inductive pl_act := LInit | LQueue (c : chunk) | LRead.

(** One of these steps; [None]: it is not possible. *)
Definition pl_step (sr : Z) (s : pl_state) (a : pl_act) : option pl_state :=
  match a with
  | LInit =>                                        (* Init, 79-113; players call it once *)
      if ready s then None else Some {| ready := true; chunks := []; rd := RTop; fed := fed s |}
  | LQueue c =>                                                                     (* QueueChunk, 50-62 *)
      if negb (ready s) then Some s
      else match rd s with
           | RAdd _ => None                     (* the write lock is not free *)
           | _ => Some {| ready := true; chunks := chunks s ++ [c]; rd := rd s; fed := fed s |}
           end
  | LRead =>
      if negb (ready s) then None else
      match rd s with
      | RTop => match chunks s with
                | [] => Some s                                                      (* 95: sleep *)
                | _ => Some {| ready := true; chunks := chunks s; rd := RAdd 0; fed := fed s |}
                end
      | RAdd i =>
          match chunks s with
          | [] => None
          | c :: _ =>
              match nth_error (c_samples c) i with
              | Some x => Some {| ready := true; chunks := chunks s; rd := RAdd (S i);
                                  fed := fed s ++ [(x, c_start c + samples_duration sr (Z.of_nat i))] |}
              | None => Some {| ready := true; chunks := chunks s; rd := RPop; fed := fed s |}
              end
          end
      | RPop => Some {| ready := true; chunks := tl (chunks s); rd := RTop; fed := fed s |}
      end
  end.

(** A schedule of them. *)
Fixpoint pl_run (sr : Z) (s : pl_state) (acts : list pl_act) : option pl_state :=
  match acts with
  | [] => Some s
  | a :: r => match pl_step sr s a with None => None | Some s1 => pl_run sr s1 r end
  end.

(* ------------------------------------------------------------------ *)
(** ** Playing *)

Definition ts_nan (x : tsample) : bool := is_nan (fst (fst x)).    (* math.IsNaN(s[0]) *)

(** One slot of the output buffer: silence written by the background streamer
    (beep.Silence), or a queued sample. *)
Notation slot := (option ((N * N) * Z)) (only parsing).
(** What the slot holds. *)
Definition slot_value (o : slot) : N * N := match o with None => (0%N, 0%N) | Some x => fst x end.

(** What streamDirect and streamSync (streamer.go 48-78) return: the slots written, the queue afterwards, drained. *)
Record part := { p_out : list slot; p_q : list tsample; p_drained : bool }.

(** streamer.go:48-57 (streamDirect) on a buffer of [k] slots *)
Fixpoint stream_direct (k : nat) (q : list tsample) : option part :=
  match k with
  | O => Some {| p_out := []; p_q := q; p_drained := false |}
  | S k' =>
      match q with
      | [] => None
      | x :: q' =>
          if ts_nan x then Some {| p_out := []; p_q := q'; p_drained := true |}
          else match stream_direct k' q' with
               | None => None
               | Some p => Some {| p_out := Some x :: p_out p; p_q := p_q p; p_drained := p_drained p |}
               end
      end
  end.

(** 60-64: skip the NaN run; [None] when the queue runs empty meanwhile (Peek waits) *)
Fixpoint skip_nan (q : list tsample) : option (tsample * list tsample) :=
  match q with
  | [] => None
  | x :: q' => if ts_nan x then skip_nan q' else Some (x, q)
  end.

(** 72-75: drop while the sample is overdue *)
Fixpoint drop_late (now : Z) (q : list tsample) : option (list tsample) :=
  match q with
  | [] => None
  | x :: q' => if snd x <? now then drop_late now q' else Some q
  end.

(** 59-79 (streamSync) on a buffer of [k] slots *)
Definition stream_sync (sr : Z) (k : nat) (now : Z) (q : list tsample) : option part :=
  match skip_nan q with
  | None => None
  | Some (x, q1) =>
      let t := snd x in
      if now <? t + samples_duration sr (Z.of_nat k) then
        Some {| p_out := repeat None k; p_q := q1; p_drained := false |}
      else if now <? t then
        Some {| p_out := repeat None (Z.to_nat (samples_count sr (t - now))); p_q := q1; p_drained := true |}
      else
        match drop_late now q1 with
        | None => None
        | Some q2 => Some {| p_out := []; p_q := q2; p_drained := true |}
        end
  end.

(** What Stream (streamer.go 28-46) does. *)
Inductive sres :=
| Done (out : list slot) (q : list tsample) (syncing : bool) (now : Z)
| Blocked        (* waiting for further samples *)
| NoFuel.        (* the recursion bound was too small; excluded by stream_total *)

(** The slots filled by earlier rounds of the loop (streamer.go 32-45). *)
Definition prepend (l : list slot) (r : sres) : sres :=
  match r with Done o q b n => Done (l ++ o) q b n | _ => r end.

(** 28-46 (Stream).  [k] is the number of slots still to fill. *)
Fixpoint stream_loop (fuel : nat) (sr : Z) (b : bool) (now : Z) (k : nat) (q : list tsample) : sres :=
  match k with
  | O => Done [] q b now
  | _ =>
    match fuel with
    | O => NoFuel
    | S fuel' =>
        match (if b then stream_sync sr k now q else stream_direct k q) with
        | None => Blocked
        | Some p =>
            let n := length (p_out p) in
            let now' := now + samples_duration sr (Z.of_nat n) in
            if p_drained p then
              match p_q p with
              | [] => Blocked                                              (* 42: Peek *)
              | _ => prepend (p_out p) (stream_loop fuel' sr (negb b) now' (k - n) (p_q p))
              end
            else prepend (p_out p) (stream_loop fuel' sr b now' (k - n) (p_q p))
        end
    end
  end.

(** streamer.go 28-46 (Stream), with enough fuel (see stream_total). *)
Definition stream (sr : Z) (b : bool) (now : Z) (k : nat) (q : list tsample) : sres :=
  stream_loop (2 * length q + 2 + k) sr b now k q.

(** The play loop (playback.go:121-131): one call of Stream after the other, each with
    the synchronised time at which it starts and the buffer size; the outputs are
    appended.  [None]: one of the calls waits for ever. *)
Fixpoint play (sr : Z) (b : bool) (calls : list (Z * nat)) (q : list tsample)
  : option (list slot * list tsample * bool) :=
  match calls with
  | [] => Some ([], q, b)
  | (now, k) :: r =>
      match stream sr b now k q with
      | Done out q' b' _ =>
          match play sr b' r q' with
          | Some (out2, q2, b2) => Some (out ++ out2, q2, b2)
          | None => None
          end
      | _ => None
      end
  end.
