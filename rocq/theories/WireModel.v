(** Model of the wire format: comm/package_util.go, comm/packages.pb.go (message
    layouts), comm/conn_handler.go lines 15-25, and the parts of the libraries they
    call: golang/protobuf v1.4.2 (go.mod) Marshal/Unmarshal for these message types
    and the type registry; compress/zlib is a parameter (record [wire_env]). *)
From Verif Require Import GoBase GoUtf8.
Local Open Scope N_scope.
Local Open Scope bool_scope.

(** * Messages *)

(** comm/packages.pb.go lines 60-400: the message structs.  int64 and uint64 fields
    are [Z], [float64] values their 64-bit pattern [N], Go strings their bytes, the
    [Channel] enum its int32 value.  A nil and an empty repeated field are one value
    (no reader distinguishes them); [Metadata] is a pointer, nil = [None].
    [OtherMessage] is a message of any other registered type (Envelope, the nested
    lyrics types, the descriptor types of the protobuf library): it is read and then
    ignored by every handler (comm/package_handler.go lines 62-85 have no case for it). *)
Inductive message : Type :=
| TimeSyncRequest (clientSend : Z)
| TimeSyncResponse (clientSendTime serverRecvTime serverSendTime : Z)
| QueueChunkRequest (startTime chunkId : Z) (sampleLow sampleHigh : list N) (firstSampleIndex : Z)
| PingMessage
| PongMessage
| SetVolumeRequest (volume : N)
| SubscribeChannelRequest (channel : Z)
| NewSongInfo (firstSampleOfSongIndex : Z) (songFileName : bytes) (songLength : Z)
              (lyrics : list (list (Z * bytes))) (metadata : option (bytes * bytes * bytes))
| ChunkInfo (startTime firstSampleIndex chunkSize : Z)
| PauseInfo (playing : bool) (toggleSampleIndex : Z)
| OtherMessage (name : bytes).

(** * Protobuf primitives (protowire) *)

(** protowire.AppendVarint: base-128, least significant group first.  [k] bounds the
    number of continuation bytes (9 for 64-bit values). *)
Fixpoint put_varint (k : nat) (n : N) : bytes :=
  match k with
  | O => [n]
  | S k' => if n <? 128 then [n] else (128 + n mod 128) :: put_varint k' (n / 128)
  end.

(** protowire.ConsumeVarint: at most ten bytes, the tenth must be 0 or 1. *)
Fixpoint get_varint (k : nat) (b : bytes) : option (N * bytes) :=
  match b with
  | [] => None
  | x :: r =>
      match k with
      | O => if x <? 2 then Some (x, r) else None
      | S k' =>
          if x <? 128 then Some (x, r)
          else match get_varint k' r with
               | Some (v, r') => Some (x - 128 + 128 * v, r')
               | None => None
               end
      end
  end.

(** Conversions between int64 fields and the unsigned varint they travel in. *)
Definition u64 (z : Z) : N := Z.to_N (to_uint64 z).
Definition i64 (n : N) : Z := wrap64 (Z.of_N n).
(** [int32(v)] for the enum field *)
Definition wrap32 (z : Z) : Z := ((z + 2 ^ 31) mod 2 ^ 32 - 2 ^ 31)%Z.
Definition e32 (n : N) : Z := wrap32 (Z.of_N n).

(** Little-endian fixed width integers (binary.LittleEndian, protowire.AppendFixed64). *)
Fixpoint put_le (k : nat) (n : N) : bytes :=
  match k with O => [] | S k' => n mod 256 :: put_le k' (n / 256) end.
Fixpoint get_le (b : bytes) : N :=
  match b with [] => 0 | x :: r => x + 256 * get_le r end.

(** protowire.ConsumeFixed64 / ConsumeFixed32 / ConsumeBytes *)
Definition take_exact (k : N) (b : bytes) : option (bytes * bytes) :=
  if N.of_nat (length b) <? k then None
  else Some (firstn (N.to_nat k) b, skipn (N.to_nat k) b).
Definition get_fixed64 (b : bytes) : option (N * bytes) :=
  match take_exact 8 b with Some (x, r) => Some (get_le x, r) | None => None end.
Definition get_bytes (b : bytes) : option (bytes * bytes) :=
  match get_varint 9 b with Some (n, r) => take_exact n r | None => None end.

(** Wire types. *)
Definition wt_varint : N := 0.
(** protowire.Fixed64Type (outside /repo) *)
Definition wt_fixed64 : N := 1.
(** protowire.BytesType *)
Definition wt_bytes : N := 2.
(** protowire.StartGroupType *)
Definition wt_start_group : N := 3.
(** protowire.EndGroupType *)
Definition wt_end_group : N := 4.
(** protowire.Fixed32Type *)
Definition wt_fixed32 : N := 5.

(** protowire.AppendTag *)
Definition tag (num wt : N) : bytes := put_varint 9 (num * 8 + wt).

(** protowire.ConsumeTag with the field number check of impl/decode.go. *)
Definition get_tag (b : bytes) : option (N * N * bytes) :=
  match get_varint 9 b with
  | None => None
  | Some (t, r) =>
      let num := t / 8 in
      if (num <? 1) || (536870911 <? num) then None else Some (num, t mod 8, r)
  end.

(** protowire.ConsumeFieldValue: skip a field of unknown number or unexpected wire
    type.  [fuel] bounds the nesting/number of group members; every call is given at
    least the number of bytes left. *)
Fixpoint skip_value (fuel : nat) (num wt : N) (b : bytes) : option bytes :=
  match fuel with
  | O => None
  | S fuel' =>
      if wt =? wt_varint then match get_varint 9 b with Some (_, r) => Some r | None => None end
      else if wt =? wt_fixed64 then match take_exact 8 b with Some (_, r) => Some r | None => None end
      else if wt =? wt_bytes then match get_bytes b with Some (_, r) => Some r | None => None end
      else if wt =? wt_fixed32 then match take_exact 4 b with Some (_, r) => Some r | None => None end
      else if wt =? wt_start_group then
        (fix members (g : nat) (b : bytes) : option bytes :=
           match g with
           | O => None
           | S g' =>
               match get_tag b with
               | None => None
               | Some (num', wt', r) =>
                   if wt' =? wt_end_group then (if num' =? num then Some r else None)
                   else match skip_value fuel' num' wt' r with
                        | Some r' => members g' r'
                        | None => None
                        end
               end
           end) (S fuel') b
      else None
  end.

(** * Generic message decoding (google.golang.org/protobuf/internal/impl/decode.go) *)

(** Result of handing one field to its decoder: consumed, malformed, or not a field of
    this number and wire type (then it is skipped as an unknown field). *)
Inductive field_result (A : Type) : Type :=
| FieldOk (a : A) (rest : bytes)
| FieldBad
| FieldUnknown.
Arguments FieldOk {A} a rest.
Arguments FieldBad {A}.
Arguments FieldUnknown {A}.

(** MessageInfo.unmarshalPointer (google.golang.org/protobuf internal/impl/decode.go): field after field *)
Fixpoint decode_loop {A} (field : N -> N -> A -> bytes -> field_result A)
         (fuel : nat) (a : A) (b : bytes) : option A :=
  match b with
  | [] => Some a
  | _ :: _ =>
      match fuel with
      | O => None
      | S fuel' =>
          match get_tag b with
          | None => None
          | Some (num, wt, r) =>
              if wt =? wt_end_group then None
              else
                match field num wt a r with
                | FieldOk a' r' => decode_loop field fuel' a' r'
                | FieldBad => None
                | FieldUnknown =>
                    match skip_value (S (length r)) num wt r with
                    | Some r' => decode_loop field fuel' a r'
                    | None => None
                    end
                end
          end
      end
  end.

(** proto.Unmarshal of a whole buffer; every iteration consumes at least one byte, so
    the length of the buffer is enough fuel ([decode_fuel_enough] in WireProofs). *)
Definition decode {A} (field : N -> N -> A -> bytes -> field_result A) (a : A) (b : bytes) : option A :=
  decode_loop field (length b) a b.

(** Field decoders of impl/codec_gen.go: a wire type other than the expected one makes
    the field unknown. *)
Definition on_varint {A} (wt : N) (b : bytes) (set : N -> A) : field_result A :=
  if wt =? wt_varint then
    match get_varint 9 b with Some (v, r) => FieldOk (set v) r | None => FieldBad end
  else FieldUnknown.
Definition on_fixed64 {A} (wt : N) (b : bytes) (set : N -> A) : field_result A :=
  if wt =? wt_fixed64 then
    match get_fixed64 b with Some (v, r) => FieldOk (set v) r | None => FieldBad end
  else FieldUnknown.
Definition on_bytes {A} (wt : N) (b : bytes) (set : bytes -> option A) : field_result A :=
  if wt =? wt_bytes then
    match get_bytes b with
    | Some (v, r) => match set v with Some a => FieldOk a r | None => FieldBad end
    | None => FieldBad
    end
  else FieldUnknown.
(** proto3 strings must be valid UTF-8 (impl/codec_field.go consumeStringValidateUTF8). *)
Definition on_string {A} (wt : N) (b : bytes) (set : bytes -> A) : field_result A :=
  on_bytes wt b (fun v => if utf8_valid v then Some (set v) else None).
(** repeated double: packed (wire type 2) or one element (wire type 1). *)
Fixpoint get_doubles (k : nat) (b : bytes) : option (list N) :=
  match b with
  | [] => Some []
  | _ :: _ =>
      match k with
      | O => None
      | S k' =>
          match get_fixed64 b with
          | Some (v, r) => match get_doubles k' r with Some l => Some (v :: l) | None => None end
          | None => None
          end
      end
  end.
Definition on_doubles {A} (wt : N) (b : bytes) (add : list N -> A) : field_result A :=
  if wt =? wt_bytes then
    match get_bytes b with
    | Some (v, r) => match get_doubles (length v) v with Some l => FieldOk (add l) r | None => FieldBad end
    | None => FieldBad
    end
  else on_fixed64 wt b (fun v => add [v]).

(** * The messages of packages.proto *)

(** Encoders: fields in order of their number; a scalar field holding zero (all bits
    zero for a double) and an empty repeated field are left out. *)
Definition f_varint (num n : N) : bytes :=
  if n =? 0 then [] else tag num wt_varint ++ put_varint 9 n.
(** appendDoubleNoZero (internal/impl/codec_gen.go) *)
Definition f_double (num n : N) : bytes :=
  if n =? 0 then [] else tag num wt_fixed64 ++ put_le 8 n.
(** a sub-message or block with its length (internal/impl/codec_field.go) *)
Definition f_block (num : N) (b : bytes) : bytes :=
  tag num wt_bytes ++ put_varint 9 (N.of_nat (length b)) ++ b.
(** appendStringNoZeroValidateUTF8, appendBytesNoZero (internal/impl/codec_gen.go) *)
Definition f_bytes (num : N) (b : bytes) : bytes :=
  match b with [] => [] | _ :: _ => f_block num b end.
(** appendDoublePackedSlice (internal/impl/codec_gen.go) *)
Definition f_doubles (num : N) (l : list N) : bytes :=
  f_bytes num (flat_map (put_le 8) l).

(** packages.pb.go lines 277-280 *)
Definition enc_atom (a : Z * bytes) : bytes := f_varint 1 (u64 (fst a)) ++ f_bytes 2 (snd a).
(** packages.pb.go lines 301-303 *)
Definition enc_line (l : list (Z * bytes)) : bytes := flat_map (fun a => f_block 1 (enc_atom a)) l.
(** packages.pb.go lines 317-321 *)
Definition enc_metadata (m : bytes * bytes * bytes) : bytes :=
  let '(title, artist, album) := m in f_bytes 1 title ++ f_bytes 2 artist ++ f_bytes 3 album.

(** protowire.EncodeBool *)
Definition bool_n (b : bool) : N := if b then 1 else 0.

Definition enc_message (m : message) : bytes :=
  match m with
  | TimeSyncRequest a => f_varint 1 (u64 a)                                        (* lines 85-87 *)
  | TimeSyncResponse a b c => f_varint 1 (u64 a) ++ f_varint 2 (u64 b) ++ f_varint 3 (u64 c) (* 101-105 *)
  | QueueChunkRequest s c lo hi f =>                                               (* 133-139 *)
      f_varint 1 (u64 s) ++ f_varint 2 (u64 c) ++ f_doubles 3 lo ++ f_doubles 4 hi ++ f_varint 5 (u64 f)
  | PingMessage => []
  | PongMessage => []
  | SetVolumeRequest v => f_double 1 v                                             (* 197-199 *)
  | SubscribeChannelRequest c => f_varint 1 (u64 c)                                (* 213-215 *)
  | NewSongInfo f file len ly md =>                                                (* 229-235 *)
      f_varint 1 (u64 f) ++ f_bytes 2 file ++ f_varint 3 (u64 len)
      ++ flat_map (fun l => f_block 4 (enc_line l)) ly
      ++ match md with None => [] | Some m => f_block 5 (enc_metadata m) end
  | ChunkInfo s f n => f_varint 1 (u64 s) ++ f_varint 2 (u64 f) ++ f_varint 3 (u64 n) (* 349-353 *)
  | PauseInfo p t => f_varint 1 (bool_n p) ++ f_varint 2 (u64 t)                   (* 381-384 *)
  | OtherMessage _ => []
  end.

(** The string fields of a message: proto.Marshal refuses a message in which one of
    them is not valid UTF-8. *)
Definition strings_of (m : message) : list bytes :=
  match m with
  | NewSongInfo _ file _ ly md =>
      file :: flat_map (map snd) ly
      ++ match md with None => [] | Some (a, b, c) => [a; b; c] end
  | _ => []
  end.

(** proto.Marshal *)
Definition marshal (m : message) : option bytes :=
  if forallb utf8_valid (strings_of m) then Some (enc_message m) else None.

(** proto.MessageName: registered names, packages.pb.go lines 406-419 *)
Definition message_name (m : message) : bytes :=
  match m with
  | TimeSyncRequest _ => T "comm.TimeSyncRequest"
  | TimeSyncResponse _ _ _ => T "comm.TimeSyncResponse"
  | QueueChunkRequest _ _ _ _ _ => T "comm.QueueChunkRequest"
  | PingMessage => T "comm.PingMessage"
  | PongMessage => T "comm.PongMessage"
  | SetVolumeRequest _ => T "comm.SetVolumeRequest"
  | SubscribeChannelRequest _ => T "comm.SubscribeChannelRequest"
  | NewSongInfo _ _ _ _ _ => T "comm.NewSongInfo"
  | ChunkInfo _ _ _ => T "comm.ChunkInfo"
  | PauseInfo _ _ => T "comm.PauseInfo"
  | OtherMessage n => n
  end.

(** Decoders. *)
Definition fld_atom (num wt : N) (a : Z * bytes) (b : bytes) : field_result (Z * bytes) :=
  if num =? 1 then on_varint wt b (fun v => (i64 v, snd a))
  else if num =? 2 then on_string wt b (fun s => (fst a, s))
  else FieldUnknown.
(** packages.pb.go:301-303 (SongLyricsLine): one field *)
Definition fld_line (num wt : N) (l : list (Z * bytes)) (b : bytes) : field_result (list (Z * bytes)) :=
  if num =? 1 then
    on_bytes wt b (fun v => match decode fld_atom (0%Z, []) v with Some a => Some (l ++ [a]) | None => None end)
  else FieldUnknown.
(** packages.pb.go:317-321 (SongMetadata): one field *)
Definition fld_metadata (num wt : N) (m : bytes * bytes * bytes) (b : bytes)
  : field_result (bytes * bytes * bytes) :=
  let '(x, y, z) := m in
  if num =? 1 then on_string wt b (fun s => (s, y, z))
  else if num =? 2 then on_string wt b (fun s => (x, s, z))
  else if num =? 3 then on_string wt b (fun s => (x, y, s))
  else FieldUnknown.

(** The fields of the message [m] that carry number [num]; the decoded message keeps
    its type, so cases of other types never arise. *)
Definition fld_message (num wt : N) (m : message) (b : bytes) : field_result message :=
  match m with
  | TimeSyncRequest a =>
      if num =? 1 then on_varint wt b (fun v => TimeSyncRequest (i64 v)) else FieldUnknown
  | TimeSyncResponse x y z =>
      if num =? 1 then on_varint wt b (fun v => TimeSyncResponse (i64 v) y z)
      else if num =? 2 then on_varint wt b (fun v => TimeSyncResponse x (i64 v) z)
      else if num =? 3 then on_varint wt b (fun v => TimeSyncResponse x y (i64 v))
      else FieldUnknown
  | QueueChunkRequest s c lo hi f =>
      if num =? 1 then on_varint wt b (fun v => QueueChunkRequest (i64 v) c lo hi f)
      else if num =? 2 then on_varint wt b (fun v => QueueChunkRequest s (i64 v) lo hi f)
      else if num =? 3 then on_doubles wt b (fun l => QueueChunkRequest s c (lo ++ l) hi f)
      else if num =? 4 then on_doubles wt b (fun l => QueueChunkRequest s c lo (hi ++ l) f)
      else if num =? 5 then on_varint wt b (fun v => QueueChunkRequest s c lo hi (Z.of_N v))
      else FieldUnknown
  | SetVolumeRequest _ =>
      if num =? 1 then on_fixed64 wt b (fun v => SetVolumeRequest v) else FieldUnknown
  | SubscribeChannelRequest _ =>
      if num =? 1 then on_varint wt b (fun v => SubscribeChannelRequest (e32 v)) else FieldUnknown
  | NewSongInfo f file len ly md =>
      if num =? 1 then on_varint wt b (fun v => NewSongInfo (Z.of_N v) file len ly md)
      else if num =? 2 then on_string wt b (fun s => NewSongInfo f s len ly md)
      else if num =? 3 then on_varint wt b (fun v => NewSongInfo f file (i64 v) ly md)
      else if num =? 4 then
        on_bytes wt b (fun v => match decode fld_line [] v with
                                | Some l => Some (NewSongInfo f file len (ly ++ [l]) md)
                                | None => None end)
      else if num =? 5 then
        on_bytes wt b (fun v =>
          match decode fld_metadata (match md with Some x => x | None => ([], [], []) end) v with
          | Some x => Some (NewSongInfo f file len ly (Some x))
          | None => None end)
      else FieldUnknown
  | ChunkInfo s f n =>
      if num =? 1 then on_varint wt b (fun v => ChunkInfo (i64 v) f n)
      else if num =? 2 then on_varint wt b (fun v => ChunkInfo s (Z.of_N v) n)
      else if num =? 3 then on_varint wt b (fun v => ChunkInfo s f (Z.of_N v))
      else FieldUnknown
  | PauseInfo p t =>
      if num =? 1 then on_varint wt b (fun v => PauseInfo (negb (v =? 0)) t)
      else if num =? 2 then on_varint wt b (fun v => PauseInfo p (Z.of_N v))
      else FieldUnknown
  | PingMessage => FieldUnknown
  | PongMessage => FieldUnknown
  | OtherMessage _ => FieldUnknown
  end.

(** The empty messages of the registered types (reflect.New in package_util.go line 72). *)
Definition empty_messages : list message :=
  [ TimeSyncRequest 0; TimeSyncResponse 0 0 0; QueueChunkRequest 0 0 [] [] 0; PingMessage;
    PongMessage; SetVolumeRequest 0; SubscribeChannelRequest 0; NewSongInfo 0 [] 0 [] None;
    ChunkInfo 0 0 0; PauseInfo false 0 ].

(** * Envelope, zlib, frames *)

(** What the model takes as given: compress/zlib and the message types registered by
    other packages linked into the binary.
    - [zdeflate d]: the bytes a level-5 writer produces for [d];
    - [zinflate d]: [None] when zlib.NewReader(d) returns an error, else the bytes
      ioutil.ReadAll gets from the reader (its error is ignored);
    - [foreign n]: [None] when no other package registers [n], else the acceptance
      test of its Unmarshal. *)
Record wire_env : Type := {
  zdeflate : bytes -> bytes;
  zinflate : bytes -> option bytes;
  foreign : bytes -> option (bytes -> bool)
}.

(** proto.MessageType (v1.4.2, registry.go): looked up by URL, i.e. after the last '/'. *)
Fixpoint after_slash (n : bytes) : bytes :=
  match n with
  | [] => []
  | x :: r => if existsb (N.eqb 47) r then after_slash r
              else if x =? 47 then r else n
  end.

(** package_util.go:71-75: proto.MessageType and reflect.New *)
Definition message_type (w : wire_env) (name : bytes) : option message :=
  let n := after_slash name in
  match find (fun m => text_eqb (message_name m) n) empty_messages with
  | Some m => Some m
  | None => match foreign w n with Some _ => Some (OtherMessage n) | None => None end
  end.

(** proto.Unmarshal of the inner message *)
Definition unmarshal (w : wire_env) (m : message) (data : bytes) : option message :=
  match m with
  | OtherMessage n =>
      match foreign w n with
      | Some accepts => if accepts data then Some m else None
      | None => None
      end
  | _ => decode fld_message m data
  end.

(** packages.pb.go lines 61-64 *)
Definition enc_envelope (type data : bytes) : bytes := f_bytes 1 type ++ f_bytes 2 data.
Definition fld_envelope (num wt : N) (e : bytes * bytes) (b : bytes) : field_result (bytes * bytes) :=
  if num =? 1 then on_string wt b (fun s => (s, snd e))
  else if num =? 2 then on_bytes wt b (fun d => Some (fst e, d))
  else FieldUnknown.

(** comm/package_util.go lines 30-56: toWire.  [None] is the error of line 33 (the
    marshalling error of line 47 cannot occur: registered names are ASCII). *)
Definition to_wire (w : wire_env) (m : message) : option bytes :=
  match marshal m with
  | None => None
  | Some inner =>
      let env := enc_envelope (message_name m) (zdeflate w inner) in
      Some (put_le 8 (N.of_nat (length env)) ++ env)
  end.

(** * Reading *)

(** A connection as the reader sees it: the byte stream cut into the pieces in which it
    arrives; after the last piece the peer has closed the connection (every Read then
    returns an error).  [conn.Read(buf)] returns what is available of the first piece,
    at most [len(buf)] bytes. *)
Definition conn_in : Type := list bytes.

(** The largest length [make([]byte, n)] accepts on 64-bit Linux (runtime maxAlloc).
    Lengths below it that exceed the memory of the machine are not modelled. *)
Definition max_alloc : Z := (2 ^ 48)%Z.

(** comm/package_util.go lines 106-117, the loop of readBytes: [need] bytes are still
    missing, [acc] have been read.  The first component is [None] for a read error. *)
Fixpoint read_loop (need : Z) (acc : bytes) (c : conn_in) : option bytes * conn_in :=
  if (need <=? 0)%Z then (Some acc, c)
  else
    match c with
    | [] => (None, [])
    | p :: c' =>
        if (zlen p <=? need)%Z then read_loop (need - zlen p) (acc ++ p) c'
        else (Some (acc ++ firstn (Z.to_nat need) p), skipn (Z.to_nat need) p :: c')
    end.

(** comm/package_util.go lines 106-117: readBytes.  make panics for a negative or
    over-long length. *)
Definition read_bytes (number : Z) (c : conn_in) : outcome (option bytes * conn_in) :=
  if ((number <? 0) || (max_alloc <? number))%Z then Panic
  else Ok (read_loop number [] c).

(** comm/package_util.go lines 58-88: readWire.  [Ok (Some m, c)]: message read;
    [Ok (None, c)]: an error is returned; [Panic]: the process crashes (line 65 for a bad
    length; lines 75-76 when zlib.NewReader fails, because its error is dropped and
    ioutil.ReadAll is handed a nil reader). *)
Definition read_wire (w : wire_env) (c : conn_in) : outcome (option message * conn_in) :=
  do ' (sizeBuf, c1) <- read_bytes 8 c;
  match sizeBuf with
  | None => Ok (None, c1)
  | Some sb =>
      let size := i64 (get_le sb) in
      do ' (envo, c2) <- read_bytes size c1;
      let env := match envo with Some e => e | None => [] end in
      match decode fld_envelope ([], []) env with
      | None => Ok (None, c2)
      | Some (type, zdata) =>
          match message_type w type with
          | None => Ok (None, c2)
          | Some m =>
              match zinflate w zdata with
              | None => Panic
              | Some data => Ok (unmarshal w m data, c2)
              end
          end
      end
  end.

(** comm/conn_handler.go lines 15-25: handleConnection reads until the first error and
    closes the connection.  The result lists the messages handed to the handler and how
    the loop ended.  Every message takes at least eight bytes, so [fuel] is never
    exhausted when it exceeds the number of bytes ([serve_fuel] in WireProofs). *)
Inductive conn_end : Type := Closed | Crashed.
Fixpoint serve (w : wire_env) (fuel : nat) (c : conn_in) : list message * conn_end :=
  match fuel with
  | O => ([], Closed)
  | S fuel' =>
      match read_wire w c with
      | Panic => ([], Crashed)
      | Ok (None, _) => ([], Closed)
      | Ok (Some m, c') => let '(ms, e) := serve w fuel' c' in (m :: ms, e)
      end
  end.
Definition handle_connection (w : wire_env) (c : conn_in) : list message * conn_end :=
  serve w (S (length (concat c))) c.

(** * Writing *)

(** Result of one conn.Write: [WOk n]: n bytes accepted (at most those offered), no
    error; [WErr n]: n bytes accepted and an error. *)
Inductive write_result : Type := WOk (n : N) | WErr (n : N).

(** comm/package_util.go lines 95-102: the loop of sendWire over the results of
    successive writes.  Returns the bytes that went out and: [Some true] = returned nil,
    [Some false] = returned an error, [None] = still inside the loop when the script ends. *)
Fixpoint send_loop (data : bytes) (script : list write_result) : bytes * option bool :=
  match data with
  | [] => ([], Some true)
  | _ :: _ =>
      match script with
      | [] => ([], None)
      | WErr n :: _ => (firstn (N.to_nat n) data, Some false)
      | WOk n :: s =>
          let '(out, r) := send_loop (skipn (N.to_nat n) data) s in
          (firstn (N.to_nat n) data ++ out, r)
      end
  end.

(** comm/package_util.go lines 90-104: sendWire *)
Definition send_wire (w : wire_env) (m : message) (script : list write_result) : bytes * option bool :=
  match to_wire w m with
  | None => ([], Some false)
  | Some data => send_loop data script
  end.

(** * Several senders on one connection *)

(** Goroutines calling sendWire on the same net.Conn (comm/message_sender.go line 35:
    one goroutine per broadcast and connection; comm/package_handler.go lines 94-118:
    answers).  TCPConn.Write holds the descriptor's write lock until all bytes are
    written or an error occurs (internal/poll.FD.Write), so the first call of the loop in
    lines 95-101 writes the whole frame or fails; a failed connection stays failed.
    [to_send] holds the messages each sender has still to send, in its own order. *)
Record shared_conn : Type := {
  to_send : list (list message);
  stream : bytes;
  failed : bool
}.

(** plumbing: replace one element *)
Definition set_nth {A} (i : nat) (x : A) (l : list A) : list A := firstn i l ++ x :: skipn (S i) l.

(** package_util.go:90-104 (sendWire): the next send of one sender, which goes through, breaks off, fails or is refused *)
Inductive send_step (w : wire_env) : shared_conn -> shared_conn -> Prop :=
| SendWhole i m rest q out data :
    nth_error q i = Some (m :: rest) -> to_wire w m = Some data ->
    send_step w {| to_send := q; stream := out; failed := false |}
                {| to_send := set_nth i rest q; stream := out ++ data; failed := false |}
| SendBroken i m rest q out data part lost :
    nth_error q i = Some (m :: rest) -> to_wire w m = Some data -> data = part ++ lost ->
    send_step w {| to_send := q; stream := out; failed := false |}
                {| to_send := set_nth i rest q; stream := out ++ part; failed := true |}
| SendDead i m rest q out :
    nth_error q i = Some (m :: rest) ->
    send_step w {| to_send := q; stream := out; failed := true |}
                {| to_send := set_nth i rest q; stream := out; failed := true |}
| SendRefused i m rest q out b :
    nth_error q i = Some (m :: rest) -> to_wire w m = None ->
    send_step w {| to_send := q; stream := out; failed := b |}
                {| to_send := set_nth i rest q; stream := out; failed := b |}.

(** a schedule: one send after the other (no code of its own) *)
Inductive send_run (w : wire_env) : shared_conn -> shared_conn -> Prop :=
| SendRunNil s : send_run w s s
| SendRunStep s s' s'' : send_run w s s' -> send_step w s' s'' -> send_run w s s''.
