(** Times, for C133 and C134. *)
From Verif Require Import GoBase PlaylistModel ChanModel PlayerModel ScheduleModel LatencyModel ClockModel.
Local Open Scope Z_scope.

(** The time at which the i-th sample of a chunk is to be played: the start in its message and i sample
    periods. *)
Definition due (sr : Z) (m : chunk_request * chunk_info) (i : nat) : Z := q_start (fst m) + Z.of_nat i * 1000000000 / sr.

(** How long n samples last, in ns, rounded down. *)
Definition lasting (sr : Z) (n : nat) : Z := Z.of_nat n * 1000000000 / sr.

(** The calls made on the playlist and the steps of its loop among the steps of a run. *)
Fixpoint calls (acts : list taction) : list action :=
  match acts with [] => [] | TStep (SoLoop a) :: r => a :: calls r | _ :: r => calls r end.

(** Playback is paused. *)
Definition paused (w : clocked) : Prop := playing (so_loop (ck_source w)) = false.

(** The ticker has not fallen behind: every tick due by now has been fired. *)
Definition ticker_up_to_date (period begin : Z) (w : clocked) : Prop := ck_now w < begin + (ck_fired w + 1) * period.
