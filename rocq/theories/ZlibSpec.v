(** RFC 1950 and RFC 1951 from the writer's side: which bytes are a zlib stream of which data.
    Nothing here decodes anything. *)
From Verif Require Import GoBase GoUtf8 WireModel WireSpec ProtoSpec.
Local Open Scope N_scope.

(** 3.1.1: [n] bits of a number, the least significant one first; Huffman codes are packed
    with the most significant one first. *)
Fixpoint low_first (n : nat) (v : N) : list bool :=
  match n with O => [] | S m => N.odd v :: low_first m (v / 2) end.
Definition high_first (n : nat) (v : N) : list bool := rev (low_first n v).
(** the bits of bytes *)
Definition bits_of (b : bytes) : list bool := flat_map (low_first 8) b.

(** 3.2.2: the Huffman code given by the code lengths of the symbols 0, 1, ... (0: no code).
    Shorter codes precede longer ones, codes of one length follow the order of the symbols. *)
Definition code_length (ls : list N) (s : N) : N := nth (N.to_nat s) ls 0.
Definition sum (l : list N) : N := fold_right N.add 0 l.
Definition space (bits : N) (ls : list N) : N :=
  sum (map (fun l => if (0 <? l) && (l <=? bits) then 2 ^ (bits - l) else 0) ls)%bool.
Definition code_value (ls : list N) (s : N) : N :=
  let l := code_length ls s in
  sum (map (fun k => if (0 <? k) && (k <? l) then 2 ^ (l - k) else 0) ls)%bool
  + N.of_nat (length (filter (fun t => code_length ls (N.of_nat t) =? l) (seq 0 (N.to_nat s)))).
Definition symbol_bits (ls : list N) (s : N) : list bool :=
  high_first (N.to_nat (code_length ls s)) (code_value ls s).
Definition has_code (ls : list N) (s : N) : Prop := 0 < code_length ls s.
(** The code uses all bit patterns, or is a single code of one bit, or there is none. *)
Definition usable (ls : list N) : Prop :=
  Forall (fun l => l <= 15) ls
  /\ (space 15 ls = 2 ^ 15
      \/ filter (fun l => negb (l =? 0)) ls = [1] \/ Forall (fun l => l = 0) ls).

(** 3.2.5: lengths 3 to 258 and distances 1 to 32768 as symbol and extra bits *)
Inductive length_code : N -> N -> nat -> N -> Prop :=
| LenShort k : k < 8 -> length_code (3 + k) (257 + k) 0 0
| LenGroup e j x : 1 <= e <= 5 -> j < 4 -> x < 2 ^ e ->
    length_code (3 + 2 ^ (e + 2) + j * 2 ^ e + x) (265 + 4 * (e - 1) + j) (N.to_nat e) x
| LenMax : length_code 258 285 0 0.
Inductive dist_code : N -> N -> nat -> N -> Prop :=
| DistShort k : k < 4 -> dist_code (1 + k) k 0 0
| DistGroup e j x : 1 <= e <= 13 -> j < 2 -> x < 2 ^ e ->
    dist_code (1 + 2 ^ (e + 1) + j * 2 ^ e + x) (2 * e + 2 + j) (N.to_nat e) x.

(** [coded lit dist before after bits]: with the two codes, [bits] stand for the bytes that
    follow [before] in [after]: single bytes and copies of earlier ones, which may overlap
    what they produce. *)
Inductive coded (lit dist : list N) : bytes -> bytes -> list bool -> Prop :=
| CodedNil o : coded lit dist o o []
| CodedByte o x o' b : x < 256 -> has_code lit x -> coded lit dist (o ++ [x]) o' b ->
    coded lit dist o o' (symbol_bits lit x ++ b)
| CodedCopy o added len d ls le lx ds de dx o' b :
    length_code len ls le lx -> dist_code d ds de dx -> has_code lit ls -> has_code dist ds ->
    (N.to_nat d <= length o)%nat -> length added = N.to_nat len ->
    (forall i, (i < length added)%nat ->
       nth (length o + i) (o ++ added) 0 = nth (length o + i - N.to_nat d) (o ++ added) 0) ->
    coded lit dist (o ++ added) o' b ->
    coded lit dist o o' (symbol_bits lit ls ++ low_first le lx ++ symbol_bits dist ds ++ low_first de dx ++ b).

(** 3.2.6: the fixed codes *)
Definition fixed_lit : list N :=
  map (fun s => if (s <? 144)%nat then 8 else if (s <? 256)%nat then 9 else if (s <? 280)%nat then 7 else 8) (seq 0 288).
Definition fixed_dist : list N := repeat 5 32.

(** 3.2.7: code lengths, run-length coded with the code [cl] *)
Inductive length_runs (cl : list N) : list N -> list N -> list bool -> Prop :=
| RunsNil l : length_runs cl l l []
| RunsOne l n l' b : n <= 15 -> has_code cl n -> length_runs cl (l ++ [n]) l' b ->
    length_runs cl l l' (symbol_bits cl n ++ b)
| RunsAgain l n k l' b : 3 <= k <= 6 -> has_code cl 16 -> length_runs cl ((l ++ [n]) ++ repeat n (N.to_nat k)) l' b ->
    length_runs cl (l ++ [n]) l' (symbol_bits cl 16 ++ low_first 2 (k - 3) ++ b)
| RunsZeros l k l' b : 3 <= k <= 10 -> has_code cl 17 -> length_runs cl (l ++ repeat 0 (N.to_nat k)) l' b ->
    length_runs cl l l' (symbol_bits cl 17 ++ low_first 3 (k - 3) ++ b)
| RunsMany l k l' b : 11 <= k <= 138 -> has_code cl 18 -> length_runs cl (l ++ repeat 0 (N.to_nat k)) l' b ->
    length_runs cl l l' (symbol_bits cl 18 ++ low_first 7 (k - 11) ++ b).
Definition sending_order : list nat := [16; 17; 18; 0; 8; 7; 9; 6; 10; 5; 11; 4; 12; 3; 13; 2; 14; 1; 15]%nat.

(** 3.2.3-3.2.7: a block, from its two type bits on; [pos] is the number of bits before it *)
Inductive block (pos : nat) : bytes -> bytes -> list bool -> Prop :=
| StoredBlock o data pad :
    Forall byte data -> N.of_nat (length data) <= 65535 -> (length pad < 8)%nat -> ((pos + 2 + length pad) mod 8 = 0)%nat ->
    block pos o (o ++ data) ([false; false] ++ pad ++ low_first 16 (N.of_nat (length data))
                               ++ low_first 16 (65535 - N.of_nat (length data)) ++ bits_of data)
| FixedBlock o o' b :
    coded fixed_lit fixed_dist o o' b -> block pos o o' ([true; false] ++ b ++ symbol_bits fixed_lit 256)
| DynamicBlock o o' cl k lit dist runs b :
    length cl = 19%nat -> Forall (fun l => l <= 7) cl -> usable cl -> (4 <= k <= 19)%nat ->
    (forall i, (k <= i < 19)%nat -> nth (nth i sending_order 0%nat) cl 0 = 0) ->
    (257 <= length lit <= 286)%nat -> (1 <= length dist <= 30)%nat -> usable lit -> usable dist ->
    length_runs cl [] (lit ++ dist) runs -> has_code lit 256 -> coded lit dist o o' b ->
    block pos o o' ([false; true] ++ low_first 5 (N.of_nat (length lit) - 257) ++ low_first 5 (N.of_nat (length dist) - 1)
                     ++ low_first 4 (N.of_nat k - 4)
                     ++ flat_map (fun i => low_first 3 (nth (nth i sending_order 0%nat) cl 0)) (seq 0 k)
                     ++ runs ++ b ++ symbol_bits lit 256).

(** the blocks; the first bit of the last one is set *)
Inductive deflated : nat -> bytes -> bytes -> list bool -> Prop :=
| LastBlock pos o o' b : block (pos + 1) o o' b -> deflated pos o o' (true :: b)
| MoreBlocks pos o o1 o' b b' : block (pos + 1) o o1 b -> deflated (pos + 1 + length b) o1 o' b' ->
    deflated pos o o' (false :: b ++ b').

(** RFC 1950, 8.2: Adler-32, and a number as four bytes, the highest one first *)
Fixpoint partial_sums (s : N) (d : bytes) : list N := match d with [] => [] | x :: r => (s + x) :: partial_sums (s + x) r end.
Definition adler (d : bytes) : N := 65536 * (sum (partial_sums 1 d) mod 65521) + (1 + sum d) mod 65521.
Definition big_endian (x : N) : bytes := map (fun i => x / 256 ^ i mod 256) [3; 2; 1; 0].

(** [body] is compressed data of [d], filled up to whole bytes. *)
Definition deflate_bytes (d body : bytes) : Prop :=
  Forall byte body /\ exists b pad, deflated 0 [] d b /\ bits_of body = b ++ pad /\ (length pad < 8)%nat.
(** RFC 1950, 2.2: two header bytes (method 8, no preset dictionary, check bits), the data, the check sum *)
Definition zlib_header_bytes (h : bytes) : Prop :=
  exists cmf flg, h = [cmf; flg] /\ byte cmf /\ byte flg /\ cmf mod 16 = 8 /\ cmf / 16 <= 7
    /\ (256 * cmf + flg) mod 31 = 0 /\ flg / 32 mod 2 = 0.
(** What the reader takes for the start of a stream: the method and the check bits are right,
    and a stream that needs a preset dictionary (RFC 1950, 2.2: FDICT) names the empty one.
    The window size is not looked at.  [body]: what comes behind the header. *)
Definition opens_with (z body : bytes) : Prop :=
  exists cmf flg r, z = cmf :: flg :: r /\ cmf mod 16 = 8 /\ (256 * cmf + flg) mod 31 = 0
    /\ (flg / 32 mod 2 = 0 /\ body = r \/ flg / 32 mod 2 = 1 /\ r = big_endian (adler []) ++ body).
Definition zlib_stream (d z : bytes) : Prop :=
  exists h body, z = h ++ body ++ big_endian (adler d) /\ zlib_header_bytes h /\ deflate_bytes d body.

(** A compressor: all data in stored blocks of at most 65535 bytes.  [last]: is the last one
    of these blocks marked final? *)
Fixpoint stored_pieces (last : bool) (fuel : nat) (d : bytes) : bytes :=
  match fuel with
  | O => []
  | S f =>
      let piece := firstn (N.to_nat 65535) d in
      let rest := skipn (N.to_nat 65535) d in
      let n := N.of_nat (length piece) in
      [match rest with [] => if last then 1 else 0 | _ => 0 end; n mod 256; n / 256; (65535 - n) mod 256; (65535 - n) / 256] ++ piece
      ++ match rest with [] => [] | _ => stored_pieces last f rest end
  end.
Definition store (d : bytes) : bytes := [120; 1] ++ stored_pieces true (S (length d)) d ++ big_endian (adler d).
(** the same with a block border between two parts of the data *)
Definition store_two (d1 d2 : bytes) : bytes :=
  [120; 1] ++ stored_pieces false (S (length d1)) d1 ++ stored_pieces true (S (length d2)) d2 ++ big_endian (adler (d1 ++ d2)).

(** ** Frames *)

(** A standard frame (see ProtoSpec) around the body [payload] for a message of the type
    [name]: nothing is said about the body. *)
Definition frame_around (name payload s : bytes) : Prop :=
  exists size env efs type,
    s = size ++ env /\ length size = 8%nat /\ le_value size = N.of_nat (length env) /\ (zlen env <= 2 ^ 48)%Z
    /\ record_bytes efs env /\ Forall is_text (blocks 1 efs) /\ type = the_block 1 efs /\ payload = the_block 2 efs
    /\ names type name.
(** [data] is a standard encoding of [m]. *)
Definition encodes (m : message) (data : bytes) : Prop := exists fs, record_bytes fs data /\ means fs m.
