(** Vocabulary of the wire properties C29-C32. *)
From Verif Require Import GoBase GoUtf8 WireModel.
Local Open Scope Z_scope.

Definition in_uint64 (z : Z) : Prop := 0 <= z < 2 ^ 64.
Definition in_int32 (z : Z) : Prop := - 2 ^ 31 <= z < 2 ^ 31.
Definition float_bits (n : N) : Prop := (n < 2 ^ 64)%N.

(** The values a Go program can put into the fields: 64-bit integers, 64-bit floats,
    a 32-bit enum.  Messages of foreign types are never sent by music-sync. *)
Definition field_values (m : message) : Prop :=
  match m with
  | TimeSyncRequest a => in_int64 a
  | TimeSyncResponse a b c => in_int64 a /\ in_int64 b /\ in_int64 c
  | QueueChunkRequest s c lo hi f =>
      in_int64 s /\ in_int64 c /\ Forall float_bits lo /\ Forall float_bits hi /\ in_uint64 f
  | PingMessage | PongMessage => True
  | SetVolumeRequest v => float_bits v
  | SubscribeChannelRequest c => in_int32 c
  | NewSongInfo f _ len ly _ =>
      in_uint64 f /\ in_int64 len /\ Forall (Forall (fun a => in_int64 (fst a))) ly
  | ChunkInfo s f n => in_int64 s /\ in_uint64 f /\ in_uint64 n
  | PauseInfo _ t => in_uint64 t
  | OtherMessage _ => False
  end.

(** The text fields of a message are UTF-8. *)
Definition texts_utf8 (m : message) : Prop :=
  match m with
  | NewSongInfo _ file _ ly md =>
      let is_text b := exists t, Forall scalar t /\ b = utf8_encode t in
      is_text file
      /\ Forall (Forall (fun a => is_text (snd a))) ly
      /\ match md with None => True | Some (a, b, c) => is_text a /\ is_text b /\ is_text c end
  | _ => True
  end.

Definition byte (x : N) : Prop := (x < 256)%N.
(** The compression library undoes what it did to any bytes. *)
Definition zlib_inverse (w : wire_env) : Prop := forall d, Forall byte d -> zinflate w (zdeflate w d) = Some d.

(** The message and its frame are small enough to be held in memory. *)
Definition fits (w : wire_env) (m : message) : Prop :=
  zlen (enc_message m) <= max_alloc
  /\ forall f, to_wire w m = Some f -> zlen f <= max_alloc.

(** A message that can be sent. *)
Definition sendable (w : wire_env) (m : message) : Prop :=
  field_values m /\ texts_utf8 m /\ fits w m.

(** [f] is the frame of [m]. *)
Definition frame_of (w : wire_env) (m : message) (f : bytes) : Prop := to_wire w m = Some f.

(** [out] is an interleaving of the lists [ls] that keeps the order inside each:
    every element of [out] can be labelled with the list it comes from so that the
    elements with label [i] are, in order, the [i]-th list. *)
Definition interleaving {A} (ls : list (list A)) (out : list A) : Prop :=
  exists labelled : list (nat * A),
    map snd labelled = out
    /\ Forall (fun p => (fst p < length ls)%nat) labelled
    /\ forall i, map snd (filter (fun p => Nat.eqb (fst p) i) labelled) = nth i ls [].

(** [q] lists what remains to be done of [q0] after [d] was done. *)
Definition progress {A} (q0 d q : list (list A)) : Prop :=
  length d = length q0 /\ length q = length q0
  /\ forall i, nth i q0 [] = nth i d [] ++ nth i q [].

(** A byte stream that starts with a frame the reader cannot survive: a length prefix
    that is negative or too large for an allocation, or a complete frame of a known
    message type whose payload is not accepted by the zlib reader. *)
Definition poison (w : wire_env) (s : bytes) : Prop :=
  exists header body : bytes,
    s = header ++ body /\ length header = 8%nat
    /\ let size := i64 (get_le header) in
       (size < 0 \/ max_alloc < size
        \/ exists env more type payload m,
             body = env ++ more /\ zlen env = size
             /\ decode fld_envelope ([], []) env = Some (type, payload)
             /\ message_type w type = Some m
             /\ zinflate w payload = None).
