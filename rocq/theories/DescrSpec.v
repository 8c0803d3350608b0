(** comm/packages.proto, and what the descriptor of a .proto file is (C115). *)
From Verif Require Import GoBase GoUtf8 WireModel DescrModel.
Local Open Scope N_scope.

(** Types of fields, fields, messages and enums of a .proto file *)
Inductive ptype := Double | Int64 | Uint64 | Bool | String | Bytes | Enum (name : text) | Message (name : text).
Inductive pfield := One (t : ptype) (name : text) (number : N) | Repeated (t : ptype) (name : text) (number : N) (is_packed : bool).
Inductive pmessage := Msg (name : text) (fields : list pfield) (nested : list pmessage).
Record pfile := { p_syntax : text; p_package : text; p_messages : list pmessage; p_enums : list (text * list (text * N)) }.

(** comm/packages.proto, line by line *)
Definition packages_proto : pfile := {|
  p_syntax := T "proto3";
  p_package := T "comm";
  p_messages := [
    Msg (T "Envelope") [
      One String (T "type") 1;
      One Bytes (T "data") 2 ] [];
    Msg (T "TimeSyncRequest") [
      One Int64 (T "clientSend") 1 ] [];
    Msg (T "TimeSyncResponse") [
      One Int64 (T "clientSendTime") 1;
      One Int64 (T "serverRecvTime") 2;
      One Int64 (T "serverSendTime") 3 ] [];
    Msg (T "QueueChunkRequest") [
      One Int64 (T "startTime") 1;
      One Int64 (T "chunkId") 2;
      Repeated Double (T "sampleLow") 3 true;
      Repeated Double (T "sampleHigh") 4 true;
      One Uint64 (T "firstSampleIndex") 5 ] [];
    Msg (T "PingMessage") [] [];
    Msg (T "PongMessage") [] [];
    Msg (T "SetVolumeRequest") [
      One Double (T "volume") 1 ] [];
    Msg (T "SubscribeChannelRequest") [
      One (Enum (T ".comm.Channel")) (T "channel") 1 ] [];
    Msg (T "NewSongInfo") [
      One Uint64 (T "firstSampleOfSongIndex") 1;
      One String (T "songFileName") 2;
      One Int64 (T "songLength") 3;
      Repeated (Message (T ".comm.NewSongInfo.SongLyricsLine")) (T "lyrics") 4 false;
      One (Message (T ".comm.NewSongInfo.SongMetadata")) (T "metadata") 5 ]
      [ Msg (T "SongLyricsAtom") [
          One Int64 (T "timestamp") 1;
          One String (T "caption") 2 ] [];
        Msg (T "SongLyricsLine") [
          Repeated (Message (T ".comm.NewSongInfo.SongLyricsAtom")) (T "atoms") 1 false ] [];
        Msg (T "SongMetadata") [
          One String (T "Title") 1;
          One String (T "Artist") 2;
          One String (T "Album") 3 ] [] ];
    Msg (T "ChunkInfo") [
      One Int64 (T "startTime") 1;
      One Uint64 (T "firstSampleIndex") 2;
      One Uint64 (T "chunkSize") 3 ] [];
    Msg (T "PauseInfo") [
      One Bool (T "playing") 1;
      One Uint64 (T "toggleSampleIndex") 2 ] [] ];
  p_enums := [ (T "Channel", [ (T "AUDIO", 0); (T "META", 1) ]) ] |}.

(** google/protobuf/descriptor.proto: the numbers of types and labels *)
Definition type_number (t : ptype) : N :=
  match t with Double => 1 | Int64 => 3 | Uint64 => 4 | Bool => 8 | String => 9 | Message _ => 11 | Bytes => 12 | Enum _ => 14 end.
Definition named (t : ptype) : text := match t with Enum n | Message n => n | _ => [] end.
Definition field_descriptor (f : pfield) : field_desc :=
  match f with
  | One t n num => {| fd_name := n; fd_number := num; fd_label := 1; fd_type := type_number t; fd_type_name := named t; fd_packed := false |}
  | Repeated t n num p => {| fd_name := n; fd_number := num; fd_label := 3; fd_type := type_number t; fd_type_name := named t; fd_packed := p |}
  end.
Fixpoint message_descriptor (m : pmessage) : msg_desc :=
  match m with Msg n fs ms => MsgDesc n (map field_descriptor fs) (map message_descriptor ms) end.
Definition file_descriptor (f : pfile) : file_desc :=
  {| f_package := p_package f; f_messages := map message_descriptor (p_messages f);
     f_enums := map (fun e => {| ed_name := fst e; ed_values := snd e |}) (p_enums f); f_syntax := p_syntax f |}.

(** ** The messages of the program as values of its Go types *)

(** place of the type in [go_types] *)
Definition type_of (m : message) : nat :=
  match m with
  | TimeSyncRequest _ => 1
  | TimeSyncResponse _ _ _ => 2
  | QueueChunkRequest _ _ _ _ _ => 3
  | PingMessage => 4
  | PongMessage => 5
  | SetVolumeRequest _ => 6
  | SubscribeChannelRequest _ => 7
  | NewSongInfo _ _ _ _ _ => 8
  | ChunkInfo _ _ _ => 12
  | PauseInfo _ _ => 13
  | OtherMessage _ => 99
  end.
Definition atom_struct (a : Z * bytes) : list value := [VInt (fst a); VText (snd a)].
Definition line_struct (l : list (Z * bytes)) : list value := [VPtrs (map atom_struct l)].
Definition metadata_struct (m : bytes * bytes * bytes) : list value := let '(a, b, c) := m in [VText a; VText b; VText c].
Definition struct_of (m : message) : list value :=
  match m with
  | TimeSyncRequest a => [VInt a]
  | TimeSyncResponse a b c => [VInt a; VInt b; VInt c]
  | QueueChunkRequest s c lo hi f => [VInt s; VInt c; VFloats lo; VFloats hi; VInt f]
  | PingMessage | PongMessage | OtherMessage _ => []
  | SetVolumeRequest v => [VFloat v]
  | SubscribeChannelRequest c => [VInt c]
  | NewSongInfo f file len ly md => [VInt f; VText file; VInt len; VPtrs (map line_struct ly); VPtr (option_map metadata_struct md)]
  | ChunkInfo s f n => [VInt s; VInt f; VInt n]
  | PauseInfo p t => [VBool p; VInt t]
  end.

(** comm/package_util.go:30-56 (toWire) with the library as it is compiled in *)
Definition compiled_to_wire (w : wire_env) (m : message) : option bytes :=
  and_then (proto_marshal (type_of m) (struct_of m)) (fun inner =>
  and_then (name_of_type (type_of m)) (fun name =>
  and_then (proto_marshal 0 [VText name; VText (zdeflate w inner)]) (fun env =>
  Some (put_le 8 (N.of_nat (length env)) ++ env)))).
