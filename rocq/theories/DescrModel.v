(** Model of how the program learns the layout of its messages: comm/packages.pb.go has a
    compressed descriptor of packages.proto (lines 425-467), and every message type has a method
    Descriptor that points into it and a struct whose fields are tagged with field numbers.
    github.com/golang/protobuf v1.4.2 (google.golang.org/protobuf v1.23, not in /repo) unpacks the
    descriptor (internal/impl/legacy_file.go, legacy_message.go) and builds the coders of a message
    from it and from the struct (internal/impl/message.go, codec_message.go, codec_field.go);
    compress/gzip and compress/flate are modelled after RFC 1952 and RFC 1951. *)
From Verif Require Import GoBase GoUtf8 WireModel.
Local Open Scope N_scope.
Local Open Scope bool_scope.

(* ------------------------------------------------------------------ *)
(** ** The descriptor in the program *)

(** packages.pb.go:425-467 (fileDescriptor0) *)
Definition file_descriptor_0 : bytes :=
  [31; 139; 8; 0; 0; 0; 0; 0; 2; 255; 132; 84; 219; 110; 211; 74; 20; 61; 206; 165; 141; 119; 218; 158;
   116; 206; 81; 177; 42; 84; 69; 126; 128; 168; 66; 65; 4; 169; 66; 188; 165; 165; 168; 145; 210; 11; 227;
   194; 187; 227; 236; 58; 163; 218; 51; 198; 51; 78; 9; 159; 192; 63; 241; 61; 252; 6; 154; 177; 29; 187;
   180; 192; 155; 215; 154; 181; 111; 51; 107; 27; 254; 11; 68; 28; 191; 76; 252; 224; 214; 15; 81; 14;
   147; 84; 40; 65; 90; 154; 116; 71; 208; 57; 229; 75; 140; 68; 130; 132; 64; 75; 173; 18; 116; 172; 190;
   53; 176; 169; 249; 214; 220; 220; 87; 190; 211; 232; 91; 131; 45; 106; 190; 221; 87; 240; 239; 53; 139;
   209; 91; 241; 128; 226; 231; 12; 165; 34; 7; 0; 65; 196; 144; 43; 15; 249; 220; 36; 104; 210; 26; 227;
   126; 179; 160; 87; 197; 200; 68; 112; 137; 228; 25; 236; 84; 18; 125; 90; 4; 254; 194; 106; 157; 196;
   116; 137; 41; 197; 96; 105; 116; 141; 92; 119; 159; 173; 116; 235; 124; 205; 186; 174; 100; 221; 239;
   22; 236; 126; 200; 48; 195; 147; 69; 198; 111; 203; 17; 158; 130; 45; 149; 159; 170; 90; 35; 21; 65; 28;
   216; 12; 180; 122; 50; 47; 138; 151; 144; 244; 193; 150; 126; 156; 68; 56; 21; 119; 78; 179; 223; 28;
   88; 199; 141; 158; 69; 43; 146; 184; 0; 57; 56; 99; 225; 194; 105; 173; 37; 53; 150; 28; 66; 239; 134;
   165; 82; 121; 134; 154; 240; 57; 126; 113; 218; 125; 107; 208; 162; 15; 120; 119; 27; 186; 87; 140; 135;
   231; 40; 165; 31; 162; 129; 162; 130; 135; 208; 243; 80; 125; 18; 81; 22; 99; 57; 219; 30; 108; 44; 13;
   97; 6; 179; 104; 129; 220; 99; 120; 226; 101; 51; 25; 164; 108; 134; 39; 11; 159; 115; 140; 202; 144;
   231; 122; 96; 195; 152; 152; 157; 209; 246; 80; 27; 102; 88; 202; 202; 83; 247; 71; 19; 186; 23; 120;
   231; 9; 30; 78; 248; 141; 32; 71; 176; 87; 235; 248; 242; 38; 63; 208; 243; 88; 102; 158; 223; 156; 18;
   23; 182; 164; 224; 225; 123; 22; 225; 133; 95; 188; 177; 77; 239; 113; 218; 102; 26; 79; 145; 135; 106;
   81; 188; 110; 141; 33; 111; 96; 35; 90; 165; 44; 144; 230; 150; 187; 163; 126; 222; 115; 173; 189; 161;
   254; 152; 26; 205; 148; 113; 164; 133; 158; 188; 133; 78; 140; 202; 55; 94; 215; 247; 222; 29; 29; 60;
   30; 123; 94; 168; 232; 90; 191; 127; 6; 59; 85; 214; 177; 18; 177; 246; 146; 98; 49; 74; 229; 199; 73;
   233; 165; 53; 97; 188; 228; 39; 138; 9; 94; 12; 89; 194; 251; 153; 116; 127; 228; 8; 218; 190; 18; 177;
   116; 172; 191; 15; 164; 75; 211; 92; 190; 79; 97; 171; 222; 45; 249; 31; 218; 215; 76; 69; 229; 114;
   231; 64; 251; 98; 156; 42; 38; 85; 209; 72; 129; 180; 122; 28; 205; 178; 216; 92; 177; 77; 115; 224; 74;
   176; 205; 198; 152; 103; 254; 243; 186; 60; 102; 231; 198; 227; 118; 214; 153; 204; 46; 121; 236; 107;
   190; 177; 45; 90; 17; 174; 7; 246; 149; 159; 73; 52; 69; 29; 216; 76; 34; 127; 197; 120; 104; 74; 118;
   104; 9; 201; 11; 216; 85; 34; 12; 35; 124; 88; 241; 225; 193; 225; 1; 108; 22; 62; 38; 54; 180; 199; 31;
   223; 77; 46; 123; 255; 144; 14; 180; 206; 79; 175; 199; 61; 107; 182; 97; 126; 145; 175; 127; 6; 0; 0;
   255; 255; 116; 104; 72; 45; 57; 5; 0; 0].

(* ------------------------------------------------------------------ *)
(** ** RFC 1951: DEFLATE *)

(** Bits of a byte, the least significant one first *)
Fixpoint byte_bits (k : nat) (x : N) : list bool := match k with O => [] | S k' => N.odd x :: byte_bits k' (x / 2) end.
(** the bits of packages.pb.go:425-467 in the order in which compress/flate reads them *)
Definition all_bits (b : bytes) : list bool := flat_map (byte_bits 8) b.

(** [n] bits as a number, the first one least significant *)
Fixpoint get_bits (n : nat) (bs : list bool) : option (N * list bool) :=
  match n, bs with
  | O, _ => Some (0, bs)
  | S m, x :: r => match get_bits m r with Some (v, r') => Some ((if x then 1 else 0) + 2 * v, r') | None => None end
  | S _, [] => None
  end.
(** k numbers of n bits each (RFC 1951) *)
Fixpoint get_many (k n : nat) (bs : list bool) : option (list N * list bool) :=
  match k with
  | O => Some ([], bs)
  | S k' => match get_bits n bs with
            | None => None
            | Some (x, r) => match get_many k' n r with Some (l, r') => Some (x :: l, r') | None => None end
            end
  end.

(** A Huffman code is given by the lengths of the codes of its symbols (3.2.2).  [counts]: for
    each length from 1 to 15, the symbols with codes of that length in order. *)
Definition symbols_of_length (lengths : list N) (n : N) : list N :=
  map N.of_nat (filter (fun i => nth i lengths 0 =? n) (seq 0 (length lengths))).
Definition code_table (lengths : list N) : list (list N) := map (fun n => symbols_of_length lengths (N.of_nat n)) (seq 1 15).
(** compress/flate's huffmanDecoder.init: a code must be complete, or have one symbol of length 1 *)
Definition complete_code (lengths : list N) : bool :=
  let used := filter (fun n => negb (n =? 0)) lengths in
  (fold_right N.add 0 (map (fun n => 2 ^ (15 - n)) used) =? 2 ^ 15) || text_eqb used [1].

(** Codes of one length are consecutive numbers, and follow those of the shorter lengths. *)
Fixpoint get_symbol (table : list (list N)) (code first : N) (bs : list bool) : option (N * list bool) :=
  match table, bs with
  | symbols :: table', x :: r =>
      let code := 2 * code + (if x then 1 else 0) in
      let first := 2 * first in
      if code <? first + N.of_nat (length symbols)
      then Some (nth (N.to_nat (code - first)) symbols 0, r)
      else get_symbol table' code (first + N.of_nat (length symbols)) r
  | _, _ => None
  end.

(** 3.2.5: lengths and distances *)
Definition length_base : list N := [3; 4; 5; 6; 7; 8; 9; 10; 11; 13; 15; 17; 19; 23; 27; 31; 35; 43; 51; 59; 67; 83; 99; 115; 131; 163; 195; 227; 258].
Definition length_extra : list nat := [0; 0; 0; 0; 0; 0; 0; 0; 1; 1; 1; 1; 2; 2; 2; 2; 3; 3; 3; 3; 4; 4; 4; 4; 5; 5; 5; 5; 0]%nat.
Definition dist_base : list N := [1; 2; 3; 4; 5; 7; 9; 13; 17; 25; 33; 49; 65; 97; 129; 193; 257; 385; 513; 769; 1025; 1537; 2049; 3073; 4097; 6145; 8193; 12289; 16385; 24577].
Definition dist_extra : list nat := [0; 0; 0; 0; 1; 1; 2; 2; 3; 3; 4; 4; 5; 5; 6; 6; 7; 7; 8; 8; 9; 9; 10; 10; 11; 11; 12; 12; 13; 13]%nat.

(** the output so far, the last byte first *)
Fixpoint copy_back (n : nat) (dist : nat) (out : bytes) : option bytes :=
  match n with
  | O => Some out
  | S m => match nth_error out dist with Some x => copy_back m dist (x :: out) | None => None end
  end.

(** the data of a compressed block; every round reads at least one bit *)
Fixpoint block_data (fuel : nat) (lit dist : list (list N)) (bs : list bool) (out : bytes) : option (bytes * list bool) :=
  match fuel with
  | O => None
  | S f =>
      match get_symbol lit 0 0 bs with
      | None => None
      | Some (s, r) =>
          if s <? 256 then block_data f lit dist r (s :: out)
          else if s =? 256 then Some (out, r)
          else
            match nth_error length_base (N.to_nat (s - 257)), nth_error length_extra (N.to_nat (s - 257)) with
            | Some base, Some extra =>
                match get_bits extra r with
                | None => None
                | Some (e, r1) =>
                    match get_symbol dist 0 0 r1 with
                    | None => None
                    | Some (d, r2) =>
                        match nth_error dist_base (N.to_nat d), nth_error dist_extra (N.to_nat d) with
                        | Some dbase, Some dextra =>
                            match get_bits dextra r2 with
                            | None => None
                            | Some (de, r3) =>
                                match copy_back (N.to_nat (base + e)) (N.to_nat (dbase + de) - 1) out with
                                | None => None
                                | Some out' => block_data f lit dist r3 out'
                                end
                            end
                        | _, _ => None
                        end
                    end
                end
            | _, _ => None
            end
      end
  end.

(** 3.2.7: the code lengths of a dynamic block *)
Definition length_order : list nat := [16; 17; 18; 0; 8; 7; 9; 6; 10; 5; 11; 4; 12; 3; 13; 2; 14; 1; 15]%nat.
Fixpoint put_at (i : nat) (x : N) (l : list N) : list N :=
  match l, i with [], _ => [] | _ :: r, O => x :: r | y :: r, S j => y :: put_at j x r end.
Definition in_order (l : list N) : list N := fold_left (fun acc p => put_at (fst p) (snd p) acc) (combine length_order l) (repeat 0 19).
(** [want] code lengths more are needed; [acc]: those read, the last one first *)
Fixpoint code_lengths (fuel : nat) (table : list (list N)) (want : N) (bs : list bool) (acc : list N) : option (list N * list bool) :=
  if want =? 0 then Some (rev acc, bs) else
  match fuel with
  | O => None
  | S f =>
      match get_symbol table 0 0 bs with
      | None => None
      | Some (s, r) =>
          if s <? 16 then code_lengths f table (want - 1) r (s :: acc)
          else
            match (if s =? 16 then match acc with [] => None | x :: _ => Some (x, 3, 2%nat) end
                   else if s =? 17 then Some (0, 3, 3%nat) else Some (0, 11, 7%nat)) with
            | None => None
            | Some (x, base, extra) =>
                match get_bits extra r with
                | None => None
                | Some (e, r') => if want <? base + e then None
                                  else code_lengths f table (want - (base + e)) r' (repeat x (N.to_nat (base + e)) ++ acc)
                end
            end
      end
  end.

(** RFC 1951, 3.2.6: the lengths of the fixed code *)
Definition fixed_lengths : list N := repeat 8 144 ++ repeat 9 112 ++ repeat 7 24 ++ repeat 8 8.

(** 3.2.3: the blocks.  Each begins with three bits. *)
Fixpoint blocks (fuel : nat) (bs : list bool) (out : bytes) : option (bytes * list bool) :=
  match fuel with
  | O => None
  | S f =>
      match bs with
      | final :: t0 :: t1 :: r =>
          match
            match t0, t1 with
            | false, false =>
                match get_bits (length r mod 8) r with
                | None => None
                | Some (_, r1) =>
                    match get_bits 16 r1 with
                    | None => None
                    | Some (len, r2) =>
                        match get_bits 16 r2 with
                        | None => None
                        | Some (nlen, r3) =>
                            if len + nlen =? 65535
                            then match get_many (N.to_nat len) 8 r3 with Some (l, r4) => Some (rev l ++ out, r4) | None => None end
                            else None
                        end
                    end
                end
            | true, false => block_data (length r) (code_table fixed_lengths) (code_table (repeat 5 30)) r out
            | false, true =>
                match get_bits 5 r with
                | None => None
                | Some (hlit, r1) =>
                    match get_bits 5 r1 with
                    | None => None
                    | Some (hdist, r2) =>
                        match get_bits 4 r2 with
                        | None => None
                        | Some (hclen, r3) =>
                            match get_many (N.to_nat (hclen + 4)) 3 r3 with
                            | None => None
                            | Some (cl, r4) =>
                                if negb (complete_code (in_order cl)) then None else
                                match code_lengths (length r4) (code_table (in_order cl)) (hlit + 257 + (hdist + 1)) r4 [] with
                                | None => None
                                | Some (ls, r5) =>
                                    let lit := firstn (N.to_nat (hlit + 257)) ls in
                                    let dist := skipn (N.to_nat (hlit + 257)) ls in
                                    if complete_code lit && complete_code dist
                                    then block_data (length r5) (code_table lit) (code_table dist) r5 out
                                    else None
                                end
                            end
                        end
                    end
                end
            | true, true => None
            end
          with
          | None => None
          | Some (out', r') => if (final : bool) then Some (out', r') else blocks f r' out'
          end
      | _ => None
      end
  end.

(** RFC 1952: a file without name, comment and extra field, and its check sum *)
Fixpoint crc_steps (k : nat) (c : N) : N :=
  match k with O => c | S m => crc_steps m (if N.odd c then N.lxor (c / 2) 0xEDB88320 else c / 2) end.
Definition crc32 (b : bytes) : N := N.lxor (fold_left (fun c x => crc_steps 8 (N.lxor c x)) b 0xFFFFFFFF) 0xFFFFFFFF.

(** gzip.NewReader and ReadAll (compress/gzip), on the bytes of packages.pb.go:425-467 *)
Definition gunzip (b : bytes) : option bytes :=
  match b with
  | 31 :: 139 :: 8 :: 0 :: _ :: _ :: _ :: _ :: _ :: _ :: r =>
      let bs := all_bits r in
      match blocks (length bs) bs [] with
      | None => None
      | Some (out, rest) =>
          match get_bits (length rest mod 8) rest with
          | None => None
          | Some (_, rest) =>
              match get_many 8 8 rest with
              | Some (trailer, []) =>
                  if (get_le (firstn 4 trailer) =? crc32 (rev out)) && (get_le (skipn 4 trailer) =? N.of_nat (length out) mod 2 ^ 32)
                  then Some (rev out) else None
              | _ => None
              end
          end
      end
  | _ => None
  end.

(* ------------------------------------------------------------------ *)
(** ** Descriptors *)

(** The fields of a message as they stand there: number and a varint or a block.  (Other wire
    types do not occur in descriptors.) *)
Inductive raw_value := RInt (n : N) | RBlock (b : bytes).
(** protowire.ConsumeField over the whole message (outside /repo) *)
Fixpoint raw_fields (fuel : nat) (b : bytes) : option (list (N * raw_value)) :=
  match b with
  | [] => Some []
  | _ :: _ =>
      match fuel with
      | O => None
      | S f =>
          match get_tag b with
          | None => None
          | Some (num, wt, r) =>
              match (if wt =? wt_varint then match get_varint 9 r with Some (v, r') => Some (RInt v, r') | None => None end
                     else if wt =? wt_bytes then match get_bytes r with Some (v, r') => Some (RBlock v, r') | None => None end
                     else None) with
              | None => None
              | Some (v, r') => match raw_fields f r' with Some l => Some ((num, v) :: l) | None => None end
              end
          end
      end
  end.
(** the same; every field takes at least one byte *)
Definition all_fields (b : bytes) : option (list (N * raw_value)) := raw_fields (length b) b.
(** the varints of field [num], in order *)
Definition ints_at (num : N) (l : list (N * raw_value)) : list N :=
  flat_map (fun p => match p with (n, RInt v) => if n =? num then [v] else [] | _ => [] end) l.
(** the blocks of field [num], in order *)
Definition blocks_at (num : N) (l : list (N * raw_value)) : list bytes :=
  flat_map (fun p => match p with (n, RBlock v) => if n =? num then [v] else [] | _ => [] end) l.
(** the last varint of field [num], 0 if there is none (proto's rule for fields that are not repeated) *)
Definition int_at (num : N) (l : list (N * raw_value)) : N := last (ints_at num l) 0.
(** the last block of field [num] *)
Definition block_at (num : N) (l : list (N * raw_value)) : bytes := last (blocks_at num l) [].

(** a list of results; one failure fails the whole *)
Fixpoint all_some {A} (l : list (option A)) : option (list A) :=
  match l with
  | [] => Some []
  | None :: _ => None
  | Some x :: r => match all_some r with Some r' => Some (x :: r') | None => None end
  end.

(** google/protobuf/descriptor.proto: FieldDescriptorProto.  The label is 3 for repeated; the types
    that occur are 1 double, 3 int64, 4 uint64, 8 bool, 9 string, 11 message, 12 bytes, 14 enum. *)
Record field_desc := { fd_name : text; fd_number : N; fd_label : N; fd_type : N; fd_type_name : text; fd_packed : bool }.
Inductive msg_desc := MsgDesc (md_name : text) (md_fields : list field_desc) (md_nested : list msg_desc).
Record enum_desc := { ed_name : text; ed_values : list (text * N) }.
Record file_desc := { f_package : text; f_messages : list msg_desc; f_enums : list enum_desc; f_syntax : text }.

(** internal/filedesc: Field.unmarshalFull, and unmarshalOptions for packed *)
Definition read_field (b : bytes) : option field_desc :=
  match all_fields b with
  | None => None
  | Some l =>
      match all_fields (block_at 8 l) with
      | None => None
      | Some o => Some {| fd_name := block_at 1 l; fd_number := int_at 3 l; fd_label := int_at 4 l; fd_type := int_at 5 l;
                          fd_type_name := block_at 6 l; fd_packed := negb (int_at 2 o =? 0) |}
      end
  end.
(** Message.unmarshalSeed, unmarshalFull; [fuel] bounds the depth *)
Fixpoint read_msg (fuel : nat) (b : bytes) : option msg_desc :=
  match fuel with
  | O => None
  | S f =>
      match all_fields b with
      | None => None
      | Some l =>
          match all_some (map read_field (blocks_at 2 l)), all_some (map (read_msg f) (blocks_at 3 l)) with
          | Some fs, Some ms => Some (MsgDesc (block_at 1 l) fs ms)
          | _, _ => None
          end
      end
  end.
Definition read_enum (b : bytes) : option enum_desc :=
  match all_fields b with
  | None => None
  | Some l =>
      match all_some (map all_fields (blocks_at 2 l)) with
      | Some vs => Some {| ed_name := block_at 1 l; ed_values := map (fun v => (block_at 1 v, int_at 2 v)) vs |}
      | None => None
      end
  end.
(** File.unmarshalSeed *)
Definition read_file (b : bytes) : option file_desc :=
  match all_fields b with
  | None => None
  | Some l =>
      match all_some (map (read_msg (length b)) (blocks_at 4 l)), all_some (map read_enum (blocks_at 5 l)) with
      | Some ms, Some es => Some {| f_package := block_at 2 l; f_messages := ms; f_enums := es; f_syntax := block_at 12 l |}
      | _, _ => None
      end
  end.
Definition and_then {A B} (o : option A) (f : A -> option B) : option B := match o with Some x => f x | None => None end.
(** legacyLoadFileDesc: panics ([None]) if the descriptor cannot be unpacked or read *)
Definition compiled_file : option file_desc := and_then (gunzip file_descriptor_0) read_file.

(* ------------------------------------------------------------------ *)
(** ** The Go types *)

(** The type of a struct's field; the number of a message type is its place in [go_types]. *)
Inductive go_kind := GoString | GoBytes | GoInt64 | GoUint64 | GoInt32 | GoFloat64 | GoBool | GoFloat64s | GoPtr (t : nat) | GoPtrs (t : nat).
(** path in the descriptor (method Descriptor), fields with their protobuf tags, registered name *)
Record go_type := { gt_path : list nat; gt_fields : list (text * go_kind); gt_registered : text }.

(** packages.pb.go:61-398 (structs and methods Descriptor) and 405-420 (names) *)
Definition go_types : list go_type :=
  [ {| gt_path := [0]; gt_fields := [(T "bytes,1,opt,name=type", GoString); (T "bytes,2,opt,name=data,proto3", GoBytes)];
       gt_registered := T "comm.Envelope" |};
    {| gt_path := [1]; gt_fields := [(T "varint,1,opt,name=clientSend", GoInt64)]; gt_registered := T "comm.TimeSyncRequest" |};
    {| gt_path := [2];
       gt_fields := [(T "varint,1,opt,name=clientSendTime", GoInt64); (T "varint,2,opt,name=serverRecvTime", GoInt64); (T "varint,3,opt,name=serverSendTime", GoInt64)];
       gt_registered := T "comm.TimeSyncResponse" |};
    {| gt_path := [3];
       gt_fields := [(T "varint,1,opt,name=startTime", GoInt64); (T "varint,2,opt,name=chunkId", GoInt64); (T "fixed64,3,rep,packed,name=sampleLow", GoFloat64s);
                     (T "fixed64,4,rep,packed,name=sampleHigh", GoFloat64s); (T "varint,5,opt,name=firstSampleIndex", GoUint64)];
       gt_registered := T "comm.QueueChunkRequest" |};
    {| gt_path := [4]; gt_fields := []; gt_registered := T "comm.PingMessage" |};
    {| gt_path := [5]; gt_fields := []; gt_registered := T "comm.PongMessage" |};
    {| gt_path := [6]; gt_fields := [(T "fixed64,1,opt,name=volume", GoFloat64)]; gt_registered := T "comm.SetVolumeRequest" |};
    {| gt_path := [7]; gt_fields := [(T "varint,1,opt,name=channel,enum=comm.Channel", GoInt32)]; gt_registered := T "comm.SubscribeChannelRequest" |};
    {| gt_path := [8];
       gt_fields := [(T "varint,1,opt,name=firstSampleOfSongIndex", GoUint64); (T "bytes,2,opt,name=songFileName", GoString); (T "varint,3,opt,name=songLength", GoInt64);
                     (T "bytes,4,rep,name=lyrics", GoPtrs 10); (T "bytes,5,opt,name=metadata", GoPtr 11)];
       gt_registered := T "comm.NewSongInfo" |};
    {| gt_path := [8; 0]; gt_fields := [(T "varint,1,opt,name=timestamp", GoInt64); (T "bytes,2,opt,name=caption", GoString)];
       gt_registered := T "comm.NewSongInfo.SongLyricsAtom" |};
    {| gt_path := [8; 1]; gt_fields := [(T "bytes,1,rep,name=atoms", GoPtrs 9)]; gt_registered := T "comm.NewSongInfo.SongLyricsLine" |};
    {| gt_path := [8; 2]; gt_fields := [(T "bytes,1,opt,name=Title", GoString); (T "bytes,2,opt,name=Artist", GoString); (T "bytes,3,opt,name=Album", GoString)];
       gt_registered := T "comm.NewSongInfo.SongMetadata" |};
    {| gt_path := [9];
       gt_fields := [(T "varint,1,opt,name=startTime", GoInt64); (T "varint,2,opt,name=firstSampleIndex", GoUint64); (T "varint,3,opt,name=chunkSize", GoUint64)];
       gt_registered := T "comm.ChunkInfo" |};
    {| gt_path := [10]; gt_fields := [(T "varint,1,opt,name=playing", GoBool); (T "varint,2,opt,name=toggleSampleIndex", GoUint64)];
       gt_registered := T "comm.PauseInfo" |} ]%nat.

(** makeStructInfo: the number of a struct's field is the first part of its tag made of digits *)
Fixpoint split_commas (t cur : text) : list text :=
  match t with
  | [] => [rev cur]
  | c :: r => if c =? 44 then rev cur :: split_commas r [] else split_commas r (c :: cur)
  end.
(** makeStructInfo (internal/impl/message.go, outside /repo): strings.Trim(s, "0123456789") is empty *)
Definition digits_only (t : text) : bool := match t with [] => false | _ => forallb (fun c => (48 <=? c) && (c <=? 57)) t end.
(** makeStructInfo: the field number of a tag such as those of packages.pb.go:62-63 *)
Definition tag_number (t : text) : option N :=
  match filter digits_only (split_commas t []) with
  | [] => None
  | d :: _ => Some (fold_left (fun n c => 10 * n + (c - 48)) d 0)
  end.

(** legacyLoadMessageDesc: the descriptor at a path, with its full name *)
Fixpoint descriptor_at (prefix : text) (ms : list msg_desc) (path : list nat) : option (text * list field_desc) :=
  match path with
  | [] => None
  | i :: r =>
      match nth_error ms i with
      | None => None
      | Some (MsgDesc n fs nested) =>
          let full := prefix ++ [46] ++ n in
          match r with [] => Some (full, fs) | _ => descriptor_at full nested r end
      end
  end.

(* ------------------------------------------------------------------ *)
(** ** Coders *)

(** internal/impl/codec_field.go fieldCoder: the coders that fit the fields of packages.pb.go:61-403 *)
Inductive coder := CInt64 | CUint64 | CEnum | CBool | CDouble | CString | CBytes | CDoubles | CMessage (t : nat) | CMessages (t : nat).

(** codec_tables.go (fieldCoder) for proto3: by the descriptor's type and label and by the type
    of the struct's field; any other combination panics *)
Definition coder_for (fd : field_desc) (k : go_kind) : option coder :=
  if fd_label fd =? 3 then
    match k with
    | GoFloat64s => if (fd_type fd =? 1) && fd_packed fd then Some CDoubles else None
    | GoPtrs t => if fd_type fd =? 11 then Some (CMessages t) else None
    | _ => None
    end
  else
    match k with
    | GoFloat64 => if fd_type fd =? 1 then Some CDouble else None
    | GoInt64 => if fd_type fd =? 3 then Some CInt64 else None
    | GoUint64 => if fd_type fd =? 4 then Some CUint64 else None
    | GoBool => if fd_type fd =? 8 then Some CBool else None
    | GoString => if fd_type fd =? 9 then Some CString else None
    | GoPtr t => if fd_type fd =? 11 then Some (CMessage t) else None
    | GoBytes => if fd_type fd =? 12 then Some CBytes else None
    | GoInt32 => if fd_type fd =? 14 then Some CEnum else None
    | _ => None
    end.

(** MessageInfo.makeCoderMethods: a coder for each field of the struct.  [None]: the program
    panics, or a field of the struct has no descriptor, or the other way round. *)
Definition layout_in (f : file_desc) (t : nat) : option (list (N * coder)) :=
  if negb (text_eqb (f_syntax f) (T "proto3")) then None else
  match nth_error go_types t with
  | None => None
  | Some g =>
      match descriptor_at (f_package f) (f_messages f) (gt_path g) with
      | None => None
      | Some (_, fds) =>
          if negb (length fds =? length (gt_fields g))%nat then None else
          all_some (map (fun p =>
            match tag_number (fst p) with
            | None => None
            | Some n =>
                match find (fun fd => fd_number fd =? n) fds with
                | None => None
                | Some fd => match coder_for fd (snd p) with Some c => Some (n, c) | None => None end
                end
            end) (gt_fields g))
      end
  end.
(** the coders of the type [t] of packages.pb.go:61-403 *)
Definition layout (t : nat) : option (list (N * coder)) := and_then compiled_file (fun f => layout_in f t).
(** proto.MessageName: the full name in the descriptor *)
Definition name_in (f : file_desc) (g : go_type) : option text :=
  match descriptor_at (f_package f) (f_messages f) (gt_path g) with Some (n, _) => Some n | None => None end.
(** the name under which packages.pb.go:405-421 registers the type *)
Definition name_of_type (t : nat) : option text := and_then compiled_file (fun f => and_then (nth_error go_types t) (name_in f)).

(** A struct: the values of its fields in order.  (A nil pointer is [VPtr None].) *)
Inductive value := VInt (z : Z) | VBool (b : bool) | VFloat (n : N) | VText (b : bytes) | VFloats (l : list N)
| VPtr (p : option (list value)) | VPtrs (l : list (list value)).

(** the zero value of a struct's field *)
Definition zero_of (c : coder) : value :=
  match c with
  | CInt64 | CUint64 | CEnum => VInt 0
  | CBool => VBool false
  | CDouble => VFloat 0
  | CString | CBytes => VText []
  | CDoubles => VFloats []
  | CMessage _ => VPtr None
  | CMessages _ => VPtrs []
  end.
(** Below, [lay] gives the layout of each type. *)
Definition layouts : Type := nat -> option (list (N * coder)).
(** new(T) (reflect.New, in proto.Unmarshal's caller) *)
Definition zero_struct (lay : layouts) (t : nat) : list value := match lay t with Some l => map (fun p => zero_of (snd p)) l | None => [] end.

(** codec_gen.go, codec_field.go: append...NoZero, ...ValidateUTF8, appendMessageInfo,
    appendMessageSliceInfo *)
Definition put_field (put : nat -> list value -> option bytes) (num : N) (c : coder) (v : value) : option bytes :=
  match c, v with
  | CInt64, VInt z | CUint64, VInt z | CEnum, VInt z => Some (f_varint num (u64 z))
  | CBool, VBool b => Some (f_varint num (bool_n b))
  | CDouble, VFloat n => Some (f_double num n)
  | CString, VText b => if utf8_valid b then Some (f_bytes num b) else None
  | CBytes, VText b => Some (f_bytes num b)
  | CDoubles, VFloats l => Some (f_doubles num l)
  | CMessage _, VPtr None => Some []
  | CMessage t, VPtr (Some s) => match put t s with Some b => Some (f_block num b) | None => None end
  | CMessages t, VPtrs l => match all_some (map (put t) l) with Some bs => Some (flat_map (f_block num) bs) | None => None end
  | _, _ => None
  end.
(** the fields in order of their numbers (orderedCoderFields) *)
Fixpoint insert_field (x : N * coder * value) (l : list (N * coder * value)) : list (N * coder * value) :=
  match l with
  | [] => [x]
  | y :: r => if fst (fst x) <=? fst (fst y) then x :: l else y :: insert_field x r
  end.
(** internal/impl/codec_message.go orderedCoderFields: sorted by number *)
Definition sorted_fields (l : list (N * coder * value)) : list (N * coder * value) := fold_right insert_field [] l.
(** MessageInfo.marshalAppendPointer; [fuel] bounds the depth of the types *)
Fixpoint put_struct (lay : layouts) (fuel : nat) (t : nat) (s : list value) : option bytes :=
  match fuel with
  | O => None
  | S f =>
      match lay t with
      | None => None
      | Some l =>
          match all_some (map (fun p => put_field (put_struct lay f) (fst (fst p)) (snd (fst p)) (snd p)) (sorted_fields (combine l s))) with
          | Some bs => Some (concat bs)
          | None => None
          end
      end
  end.

(** plumbing: apply a function to a result *)
Definition on_result {A B} (f : A -> B) (r : field_result A) : field_result B :=
  match r with FieldOk a rest => FieldOk (f a) rest | FieldBad => FieldBad | FieldUnknown => FieldUnknown end.

(** consume...: a sub-message is merged into the one there is, or into a new one *)
Definition take_field (lay : layouts) (take : nat -> list value -> bytes -> option (list value)) (c : coder) (v : value) (wt : N) (b : bytes) : field_result value :=
  match c, v with
  | CInt64, _ => on_varint wt b (fun x => VInt (i64 x))
  | CUint64, _ => on_varint wt b (fun x => VInt (Z.of_N x))
  | CEnum, _ => on_varint wt b (fun x => VInt (e32 x))
  | CBool, _ => on_varint wt b (fun x => VBool (negb (x =? 0)))
  | CDouble, _ => on_fixed64 wt b (fun x => VFloat x)
  | CString, _ => on_string wt b (fun x => VText x)
  | CBytes, _ => on_bytes wt b (fun x => Some (VText x))
  | CDoubles, VFloats l => on_doubles wt b (fun x => VFloats (l ++ x))
  | CMessage t, VPtr p =>
      on_bytes wt b (fun x => match take t (match p with Some s => s | None => zero_struct lay t end) x with Some s => Some (VPtr (Some s)) | None => None end)
  | CMessages t, VPtrs l =>
      on_bytes wt b (fun x => match take t (zero_struct lay t) x with Some s => Some (VPtrs (l ++ [s])) | None => None end)
  | _, _ => FieldBad
  end.
(** the field with number [num] of the struct, if there is one *)
Fixpoint take_into (lay : layouts) (take : nat -> list value -> bytes -> option (list value)) (l : list (N * coder)) (num wt : N) (s : list value) (b : bytes) : field_result (list value) :=
  match l, s with
  | (n, c) :: l', v :: s' =>
      if num =? n then on_result (fun v' => v' :: s') (take_field lay take c v wt b)
      else on_result (cons v) (take_into lay take l' num wt s' b)
  | _, _ => FieldUnknown
  end.
(** MessageInfo.unmarshalPointer; [fuel] bounds the depth of the types *)
Fixpoint take_struct (lay : layouts) (fuel : nat) (t : nat) (s : list value) (b : bytes) : option (list value) :=
  match fuel with
  | O => None
  | S f =>
      match lay t with
      | None => None
      | Some l => decode (take_into lay (take_struct lay f) l) s b
      end
  end.

(** no type contains another one deeper than there are types *)
Definition depth : nat := length go_types.

(** proto.Marshal, proto.Unmarshal on a value of the type *)
Definition proto_marshal (t : nat) (s : list value) : option bytes := put_struct layout depth t s.
(** proto.Unmarshal into a new value of the type (comm/package_util.go:67, 82) *)
Definition proto_unmarshal (t : nat) (b : bytes) : option (list value) := take_struct layout depth t (zero_struct layout t) b.
