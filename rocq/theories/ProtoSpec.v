(** The protobuf wire format (developers.google.com/protocol-buffers/docs/encoding) and what
    records mean for the messages of comm/packages.proto, written down independently of the
    encoder and decoder of WireModel (only the type of messages is shared). *)
From Verif Require Import GoBase GoUtf8 WireModel WireSpec.
Local Open Scope N_scope.

(** ** Bytes of a record *)

(** Base 128, least significant group first, 128 added to all bytes but the last. *)
Inductive base128 : N -> bytes -> Prop :=
| B_last n : n < 128 -> base128 n [n]
| B_more low n b : low < 128 -> base128 n b -> base128 (low + 128 * n) ((128 + low) :: b).
Definition varint (n : N) (b : bytes) : Prop := base128 n b /\ n < 2 ^ 64 /\ (length b <= 10)%nat.

(** A value: 64-bit number, eight bytes, byte string, group of fields, four bytes. *)
Inductive pvalue : Type :=
| PInt (n : N)
| PFix64 (b : bytes)
| PBytes (b : bytes)
| PGroup (fs : list (N * pvalue))
| PFix32 (b : bytes).
Definition record : Type := list (N * pvalue).

(** Field number and wire type. *)
Definition header (num wiretype : N) (b : bytes) : Prop :=
  1 <= num < 2 ^ 29 /\ varint (8 * num + wiretype) b.

Inductive field_bytes : N -> pvalue -> bytes -> Prop :=
| F_int num n h b : header num 0 h -> varint n b -> field_bytes num (PInt n) (h ++ b)
| F_fix64 num h b : header num 1 h -> length b = 8%nat -> field_bytes num (PFix64 b) (h ++ b)
| F_bytes num h l b : header num 2 h -> varint (N.of_nat (length b)) l -> field_bytes num (PBytes b) (h ++ l ++ b)
| F_group num h fs b e : header num 3 h -> record_bytes fs b -> header num 4 e ->
    field_bytes num (PGroup fs) (h ++ b ++ e)
| F_fix32 num h b : header num 5 h -> length b = 4%nat -> field_bytes num (PFix32 b) (h ++ b)
with record_bytes : record -> bytes -> Prop :=
| R_nil : record_bytes [] []
| R_cons num v b fs r : field_bytes num v b -> record_bytes fs r -> record_bytes ((num, v) :: fs) (b ++ r).

(** ** Reading fields out of a record *)

(** The values of the given kind that stand under the given number, in order. *)
Definition ints (num : N) (fs : record) : list N :=
  flat_map (fun f => if fst f =? num then match snd f with PInt n => [n] | _ => [] end else []) fs.
Definition fix64s (num : N) (fs : record) : list bytes :=
  flat_map (fun f => if fst f =? num then match snd f with PFix64 b => [b] | _ => [] end else []) fs.
Definition blocks (num : N) (fs : record) : list bytes :=
  flat_map (fun f => if fst f =? num then match snd f with PBytes b => [b] | _ => [] end else []) fs.

(** A scalar field has the last value given, or zero. *)
Definition the_int (num : N) (fs : record) : N := last (ints num fs) 0.
Definition the_block (num : N) (fs : record) : bytes := last (blocks num fs) [].

(** Little-endian number. *)
Fixpoint le_value (b : bytes) : N := match b with [] => 0 | x :: r => x + 256 * le_value r end.
Definition the_double (num : N) (fs : record) : N := le_value (last (fix64s num fs) []).

(** Numbers of 64 and 32 bits in two's complement. *)
Definition signed64 (n : N) : Z := if n <? 2 ^ 63 then Z.of_N n else (Z.of_N n - 2 ^ 64)%Z.
Definition signed32 (n : N) : Z :=
  let m := n mod 2 ^ 32 in if m <? 2 ^ 31 then Z.of_N m else (Z.of_N m - 2 ^ 32)%Z.

(** The doubles of one field: packed in a byte string, or a single one. *)
Definition packed (b : bytes) (l : list N) : Prop :=
  exists chunks, b = concat chunks /\ Forall (fun c => length c = 8%nat) chunks /\ l = map le_value chunks.
Inductive all_doubles (num : N) : record -> list N -> Prop :=
| D_nil : all_doubles num [] []
| D_packed b l fs r : packed b l -> all_doubles num fs r -> all_doubles num ((num, PBytes b) :: fs) (l ++ r)
| D_one b fs r : all_doubles num fs r -> all_doubles num ((num, PFix64 b) :: fs) (le_value b :: r)
| D_other n v fs r : (n = num -> match v with PBytes _ | PFix64 _ => False | _ => True end) ->
    all_doubles num fs r -> all_doubles num ((n, v) :: fs) r.

Definition is_text (b : bytes) : Prop := exists t, Forall scalar t /\ b = utf8_encode t.

(** ** Meaning of records for the messages of packages.proto *)

Definition atom_means (fs : record) (a : Z * bytes) : Prop :=
  Forall is_text (blocks 2 fs) /\ a = (signed64 (the_int 1 fs), the_block 2 fs).
Definition line_means (fs : record) (l : list (Z * bytes)) : Prop :=
  Forall2 (fun b a => exists g, record_bytes g b /\ atom_means g a) (blocks 1 fs) l.
Definition metadata_means (fs : record) (m : bytes * bytes * bytes) : Prop :=
  Forall is_text (blocks 1 fs ++ blocks 2 fs ++ blocks 3 fs) /\ m = (the_block 1 fs, the_block 2 fs, the_block 3 fs).

Definition means (fs : record) (m : message) : Prop :=
  match m with
  | TimeSyncRequest a => a = signed64 (the_int 1 fs)
  | TimeSyncResponse a b c => a = signed64 (the_int 1 fs) /\ b = signed64 (the_int 2 fs) /\ c = signed64 (the_int 3 fs)
  | QueueChunkRequest s c lo hi f =>
      s = signed64 (the_int 1 fs) /\ c = signed64 (the_int 2 fs) /\ all_doubles 3 fs lo /\ all_doubles 4 fs hi
      /\ f = Z.of_N (the_int 5 fs)
  | PingMessage | PongMessage => True
  | SetVolumeRequest v => v = the_double 1 fs
  | SubscribeChannelRequest c => c = signed32 (the_int 1 fs)
  | NewSongInfo f file len ly md =>
      f = Z.of_N (the_int 1 fs) /\ Forall is_text (blocks 2 fs) /\ file = the_block 2 fs
      /\ len = signed64 (the_int 3 fs)
      /\ Forall2 (fun b l => exists g, record_bytes g b /\ line_means g l) (blocks 4 fs) ly
      /\ (* several occurrences of an embedded message are merged *)
         exists gs, Forall2 (fun b g => record_bytes g b) (blocks 5 fs) gs
           /\ match gs with
              | [] => md = None
              | _ => exists x, metadata_means (concat gs) x /\ md = Some x
              end
  | ChunkInfo s f n => s = signed64 (the_int 1 fs) /\ f = Z.of_N (the_int 2 fs) /\ n = Z.of_N (the_int 3 fs)
  | PauseInfo p t => (p = true <-> the_int 1 fs <> 0) /\ t = Z.of_N (the_int 2 fs)
  | OtherMessage _ => False
  end.

(** The name of the type of a message. *)
Definition type_name (m : message) : bytes :=
  match m with
  | TimeSyncRequest _ => T "comm.TimeSyncRequest"
  | TimeSyncResponse _ _ _ => T "comm.TimeSyncResponse"
  | QueueChunkRequest _ _ _ _ _ => T "comm.QueueChunkRequest"
  | PingMessage => T "comm.PingMessage"
  | PongMessage => T "comm.PongMessage"
  | SetVolumeRequest _ => T "comm.SetVolumeRequest"
  | SubscribeChannelRequest _ => T "comm.SubscribeChannelRequest"
  | NewSongInfo _ _ _ _ _ => T "comm.NewSongInfo"
  | ChunkInfo _ _ _ => T "comm.ChunkInfo"
  | PauseInfo _ _ => T "comm.PauseInfo"
  | OtherMessage n => n
  end.
(** A type may be given as a URL; the name is what follows the last slash (47). *)
Definition names (t n : bytes) : Prop := ~ In 47 n /\ (t = n \/ exists p, t = p ++ 47 :: n).

(** ** Frames *)

(** Eight bytes of length, little-endian, then an envelope of that length that names a type
    and whose payload decompresses to [data]. *)
Definition carries (w : wire_env) (name data : bytes) (s : bytes) : Prop :=
  exists size env efs type payload,
    s = size ++ env /\ length size = 8%nat /\ le_value size = N.of_nat (length env) /\ (zlen env <= 2 ^ 48)%Z
    /\ record_bytes efs env /\ Forall is_text (blocks 1 efs) /\ type = the_block 1 efs /\ payload = the_block 2 efs
    /\ names type name
    /\ zinflate w payload = Some data.
(** A frame of message [m]: it carries the bytes of a record that means [m]. *)
Definition frame (w : wire_env) (m : message) (s : bytes) : Prop :=
  exists data fs, carries w (type_name m) data s /\ record_bytes fs data /\ means fs m.

(** The field numbers of packages.proto. *)
Definition used (m : message) : list N :=
  match m with
  | TimeSyncRequest _ | SetVolumeRequest _ | SubscribeChannelRequest _ => [1]
  | PauseInfo _ _ => [1; 2]
  | TimeSyncResponse _ _ _ | ChunkInfo _ _ _ => [1; 2; 3]
  | QueueChunkRequest _ _ _ _ _ | NewSongInfo _ _ _ _ _ => [1; 2; 3; 4; 5]
  | PingMessage | PongMessage | OtherMessage _ => []
  end.
