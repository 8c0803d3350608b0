(** The memory reading one frame takes: the sizes of the buffers that
    comm/package_util.go lines 58-88 and 106-117 make.  Buffers the libraries make besides
    (fixed size, or growing by doubling) are not counted. *)
From Verif Require Import GoBase GoUtf8 WireModel ZlibModel.

(** line 105 for the eight bytes of length (line 59), line 105 for the announced size (line 64,
    made before anything is read), line 76 for the decompressed data *)
Definition frame_costs (w : wire_env) (c : conn_in) : list Z :=
  8%Z :: match read_bytes 8 c with
         | Ok (Some sb, c1) =>
             let size := i64 (get_le sb) in
             size :: match read_bytes size c1 with
                     | Ok (envo, _) =>
                         match decode fld_envelope ([], []) (match envo with Some e => e | None => [] end) with
                         | Some (type, body) =>
                             match message_type w type, zinflate w body with
                             | Some _, Some data => [zlen data]
                             | _, _ => []
                             end
                         | None => []
                         end
                     | Panic => []
                     end
         | _ => []
         end.
