(** Model of the reader side of compress/zlib and compress/flate (Go 1.14) as
    comm/package_util.go lines 75-77 uses it:

      r, _ := zlib.NewReader(bytes.NewBuffer(envelope.Data))
      data, _ := ioutil.ReadAll(r)

    Both errors are dropped.  Unlike DescrModel's [gunzip] this keeps what was decoded before
    an error: flate's Read hands out the decoded bytes before it reports the error
    (inflate.go: "flush what's left in case of error"), and ReadAll returns what it has got.
    The bit and Huffman functions are those of DescrModel. *)
From Verif Require Import GoBase GoUtf8 WireModel DescrModel.
Local Open Scope N_scope.
Local Open Scope bool_scope.

(** The bytes decoded so far, the last one first, and the bits left; [None] after an error. *)
Definition flow : Type := bytes * option (list bool).

(** inflate.go huffmanBlock: length and distance of a copy whose length symbol is [s];
    symbols 286, 287 and distances 30, 31 are errors *)
Definition get_copy (dist : list (list N)) (s : N) (bs : list bool) : option (nat * nat * list bool) :=
  match nth_error length_base (N.to_nat (s - 257)), nth_error length_extra (N.to_nat (s - 257)) with
  | Some base, Some extra =>
      match get_bits extra bs with
      | None => None
      | Some (e, r1) =>
          match get_symbol dist 0 0 r1 with
          | None => None
          | Some (d, r2) =>
              match nth_error dist_base (N.to_nat d), nth_error dist_extra (N.to_nat d) with
              | Some dbase, Some dextra =>
                  match get_bits dextra r2 with
                  | None => None
                  | Some (de, r3) => Some (N.to_nat (base + e), N.to_nat (dbase + de), r3)
                  end
              | _, _ => None
              end
          end
      end
  | _, _ => None
  end.

(** inflate.go huffmanBlock, copyHistory.  A distance beyond what was written is an error.
    [least]: the length of the end-of-block code; readHuffman has huffSym ask for at least
    that many bits for every symbol, so that near the end of a cut body a symbol may be lost
    although its bits are there. *)
Fixpoint block_flow (fuel : nat) (least : nat) (lit dist : list (list N)) (bs : list bool) (out : bytes) : flow :=
  match fuel with
  | O => (out, None)
  | S f =>
      match (if (length bs <? least)%nat then None else get_symbol lit 0 0 bs) with
      | None => (out, None)
      | Some (s, r) =>
          if s <? 256 then block_flow f least lit dist r (s :: out)
          else if s =? 256 then (out, Some r)
          else
            match get_copy dist s r with
            | None => (out, None)
            | Some (len, d, r') =>
                match copy_back len (d - 1) out with
                | None => (out, None)
                | Some out' => block_flow f least lit dist r' out'
                end
            end
      end
  end.

(** inflate.go copyData: the bytes of a stored block; what is there of a block cut short
    counts *)
Fixpoint stored_flow (n : nat) (bs : list bool) (out : bytes) : flow :=
  match n with
  | O => (out, Some bs)
  | S m => match get_bits 8 bs with
           | None => (out, None)
           | Some (x, r) => stored_flow m r (x :: out)
           end
  end.

(** inflate.go dataBlock: the rest of the byte is skipped; 16 bits of length, and the same
    complemented *)
Definition stored_block (bs : list bool) (out : bytes) : flow :=
  match get_bits (length bs mod 8) bs with
  | None => (out, None)
  | Some (_, r1) =>
      match get_bits 16 r1 with
      | None => (out, None)
      | Some (len, r2) =>
          match get_bits 16 r2 with
          | None => (out, None)
          | Some (nlen, r3) => if len + nlen =? 65535 then stored_flow (N.to_nat len) r3 out else (out, None)
          end
      end
  end.

(** inflate.go huffmanDecoder.init: the empty code is accepted (using it fails later), else
    the code must be complete or have a single symbol of length 1 *)
Definition code_ok (lengths : list N) : bool :=
  forallb (fun n => n =? 0) lengths || complete_code lengths.

(** inflate.go readHuffman: at most 286 literal/length and 30 distance codes *)
Definition read_huffman (bs : list bool) : option (list N * list N * list bool) :=
  match get_bits 5 bs with
  | None => None
  | Some (hlit, r1) =>
      if 286 <? hlit + 257 then None else
      match get_bits 5 r1 with
      | None => None
      | Some (hdist, r2) =>
          if 30 <? hdist + 1 then None else
          match get_bits 4 r2 with
          | None => None
          | Some (hclen, r3) =>
              match get_many (N.to_nat (hclen + 4)) 3 r3 with
              | None => None
              | Some (cl, r4) =>
                  if negb (code_ok (in_order cl)) then None else
                  match code_lengths (length r4) (code_table (in_order cl)) (hlit + 257 + (hdist + 1)) r4 [] with
                  | None => None
                  | Some (ls, r5) =>
                      let lit := firstn (N.to_nat (hlit + 257)) ls in
                      let dist := skipn (N.to_nat (hlit + 257)) ls in
                      if code_ok lit && code_ok dist then Some (lit, dist, r5) else None
                  end
              end
          end
      end
  end.

(** inflate.go nextBlock: one block after its first bit *)
Definition one_block (t0 t1 : bool) (bs : list bool) (out : bytes) : flow :=
  match t0, t1 with
  | false, false => stored_block bs out
  | true, false => block_flow (length bs) 7 (code_table fixed_lengths) (code_table (repeat 5 30)) bs out
  | false, true =>
      match read_huffman bs with
      | None => (out, None)
      | Some (lit, dist, r) => block_flow (length r) (N.to_nat (nth 256 lit 0)) (code_table lit) (code_table dist) r out
      end
  | true, true => (out, None)
  end.

(** inflate.go: block after block until one is marked final; each takes at least three bits *)
Fixpoint blocks_flow (fuel : nat) (bs : list bool) (out : bytes) : flow :=
  match fuel with
  | O => (out, None)
  | S f =>
      match bs with
      | final :: t0 :: t1 :: r =>
          match one_block t0 t1 r out with
          | (out', None) => (out', None)
          | (out', Some r') => if final : bool then (out', Some r') else blocks_flow f r' out'
          end
      | _ => (out, None)
      end
  end.

(** compress/flate: what comes out of a stream, and whether it ended well (read by comm/package_util.go 77-79) *)
Definition inflate_flow (b : bytes) : flow := blocks_flow (length (all_bits b)) (all_bits b) [].

(** zlib/reader.go Reset: the two header bytes; with the dictionary flag the check sum of the
    (empty) dictionary, which is 1, must follow.  [None]: an error. *)
Definition zlib_header (b : bytes) : option bytes :=
  match b with
  | cmf :: flg :: r =>
      if (cmf mod 16 =? 8) && ((256 * cmf + flg) mod 31 =? 0) then
        if N.testbit flg 5 then
          match r with
          | a :: b :: c :: d :: r' => if (a =? 0) && (b =? 0) && (c =? 0) && (d =? 1) then Some r' else None
          | _ => None
          end
        else Some r
      else None
  | _ => None
  end.

(** package_util.go lines 77-79: what ReadAll gets.  The check sum after the compressed data
    is read, but a missing or wrong one only gives an error, after all data. *)
Definition read_all (b : bytes) : option bytes :=
  match zlib_header b with
  | None => None
  | Some r => Some (rev (fst (inflate_flow r)))
  end.

(** hash/adler32 *)
Definition adler32 (b : bytes) : N :=
  let '(s1, s2) := fold_left (fun s x => let s1 := (fst s + x) mod 65521 in (s1, (snd s + s1) mod 65521)) b (1, 0) in
  65536 * s2 + s1.
Definition put_be32 (x : N) : bytes := [x / 16777216; x / 65536 mod 256; x / 256 mod 256; x mod 256].

(** zlib/reader.go Read: does ReadAll return an error (which is dropped)? *)
Definition read_all_error (b : bytes) : bool :=
  match zlib_header b with
  | None => true
  | Some r =>
      match inflate_flow r with
      | (_, None) => true
      | (out, Some rest) =>
          match get_bits (length rest mod 8) rest with
          | None => true
          | Some (_, rest) =>
              match get_many 4 8 rest with
              | None => true
              | Some (sum, _) => negb (text_eqb sum (put_be32 (adler32 (rev out))))
              end
          end
      end
  end.

(** The environment of the wire format with this reader, some compressor and the message
    types of other packages *)
Definition program_env (compress : bytes -> bytes) (types : bytes -> option (bytes -> bool)) : wire_env :=
  {| zdeflate := compress; zinflate := read_all; foreign := types |}.
