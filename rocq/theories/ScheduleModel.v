(** Model of the chunk schedule: schedule/server_state.go:145-169 (streamMusic) and
    cmd/music-sync-server/main.go:63 (StreamChunkTime). *)
From Verif Require Import GoBase PlaylistModel ChanModel PlayerModel.
Local Open Scope Z_scope.

(** cmd/music-sync-server/main.go:63: time.Duration(size) * time.Second / time.Duration(sampleRate), in ns *)
Definition stream_chunk_time (size sr : Z) : Z := go_div (size * 1000000000) sr.

(** The fields of comm.QueueChunkRequest and comm.ChunkInfo *)
Record chunk_request := { q_start : Z; q_id : Z; q_low : list N; q_high : list N; q_first : Z }.
(** The fields of comm.ChunkInfo (schedule/server_state.go 145-169 fills both) *)
Record chunk_info := { i_start : Z; i_first : Z; i_size : Z }.

(** The loop body (150-170) for one tick, given what Fill returned: first index and the two
    slices.  int64 products are unbounded here (they stay below 2^63 for 292 years). *)
Definition tick (start size sr index : Z) (fill : Z * list N * list N) : chunk_request * chunk_info :=
  let '(first, low, high) := fill in
  ({| q_start := start + index * stream_chunk_time size sr; q_id := index;
      q_low := low; q_high := high; q_first := first |},
   {| i_start := start + index * stream_chunk_time size sr; i_first := first; i_size := to_uint64 size |}).

(** 145-172: the messages of all ticks, in the order they are created (each is sent by its
    own goroutine). *)
Fixpoint stream_music (start size sr index : Z) (fills : list (Z * list N * list N)) : list (chunk_request * chunk_info) :=
  match fills with
  | [] => []
  | f :: r => tick start size sr index f :: stream_music start size sr (index + 1) r
  end.

(** comm/package_handler.go QueueChunk handler (playback client): CombineSamples, QueueChunk.
    cmd / schedule/player.go *)
Definition request_chunk (r : chunk_request) : chunk :=
  {| c_start := q_start r; c_samples := combine_samples (q_low r) (q_high r) |}.
