(** streamMusic (schedule/server_state.go 145-172) with a clock: the ticker, what a tick starts, and when
    the messages of a chunk are made.  The streaming loop and the channels are those of LatencyModel. *)
From Verif Require Import GoBase PlaylistModel ChanModel PlayerModel ScheduleModel LatencyModel.
Local Open Scope Z_scope.

(** The process while streamMusic is in its loop (schedule/server_state.go 149-171).  [ck_now]: the clock (ns);
    [ck_fired]: how often the ticker has fired; [ck_waiting]: a tick lies in the ticker's channel, which holds
    one; [ck_lost]: how many ticks found it full and were dropped (Go's package time, Ticker);
    [ck_made]: for each chunk the time at which Fill (153) returned and its messages were made (155-170:
    sending them takes longer). *)
Record clocked := { ck_now : Z; ck_fired : Z; ck_waiting : bool; ck_lost : Z; ck_made : list Z; ck_source : source }.

(** Time passes; the ticker fires; streamMusic takes a tick and calls Fill (149-153); anything else, which includes
    that Fill returns. *)
Inductive taction := TWait (d : Z) | TFire | TTake | TStep (a : saction).

(** server_state.go 146-149: the loop begins; [start] is read from the same clock at the same moment,
    before the delay is added (147). *)
Definition new_clocked (l : list song) (c : nat) (begin : Z) : clocked :=
  {| ck_now := begin; ck_fired := 0; ck_waiting := false; ck_lost := 0; ck_made := []; ck_source := new_source l c |}.
(** server_state.go 147 *)
Definition start_time (begin delay : Z) : Z := begin + delay.

Section Clock.
Variable decode : song -> option (list sample).
Variable nan_break : Z.
(** StreamChunkSize and SampleRate, the moment streamMusic began its loop *)
Variable size : nat.
Variable sr : Z.
Variable begin : Z.

(** One step; [None]: not possible.  The ticker never fires early: its k-th time is due k periods after the
    start; it may fire late.  Without a period it never fires (time.Tick returns nil). *)
Definition tstep (w : clocked) (a : taction) : option (clocked * list event) :=
  let period := stream_chunk_time (Z.of_nat size) sr in
  match a with
  | TWait d =>
      if 0 <=? d then
        Some ({| ck_now := ck_now w + d; ck_fired := ck_fired w; ck_waiting := ck_waiting w; ck_lost := ck_lost w;
                 ck_made := ck_made w; ck_source := ck_source w |}, [])
      else None
  | TFire =>
      if ((0 <? period) && (begin + (ck_fired w + 1) * period <=? ck_now w))%bool then
        Some ({| ck_now := ck_now w; ck_fired := ck_fired w + 1; ck_waiting := true;
                 ck_lost := if ck_waiting w then ck_lost w + 1 else ck_lost w;
                 ck_made := ck_made w; ck_source := ck_source w |}, [])
      else None
  | TTake =>                                                          (* 149-153 *)
      if ck_waiting w then
        match sstep decode nan_break (ck_source w) (SoChan (CFill size)) with
        | None => None
        | Some (s, es) => Some ({| ck_now := ck_now w; ck_fired := ck_fired w; ck_waiting := false; ck_lost := ck_lost w;
                                   ck_made := ck_made w; ck_source := s |}, es)
        end
      else None
  | TStep (SoChan (CFill _)) => None                                  (* Fill is called by streamMusic only *)
  | TStep b =>
      match sstep decode nan_break (ck_source w) b with
      | None => None
      | Some (s, es) => Some ({| ck_now := ck_now w; ck_fired := ck_fired w; ck_waiting := ck_waiting w; ck_lost := ck_lost w;
                                 ck_made := match b with SoChan CReturn => ck_made w ++ [ck_now w] | _ => ck_made w end;
                                 ck_source := s |}, es)
      end
  end.

(** A run of such steps, with the events of the streaming loop (server_state.go 145-172). *)
Fixpoint trun (w : clocked) (acts : list taction) : option (clocked * list event) :=
  match acts with
  | [] => Some (w, [])
  | a :: r =>
      match tstep w a with
      | None => None
      | Some (w1, e1) => match trun w1 r with None => None | Some (w2, e2) => Some (w2, e1 ++ e2) end
      end
  end.

(** The messages of all chunks made so far (server_state.go 155-170). *)
Definition messages (delay : Z) (w : clocked) : list (chunk_request * chunk_info) :=
  stream_music (start_time begin delay) (Z.of_nat size) sr 0 (returned (so_chan (ck_source w))).
End Clock.
