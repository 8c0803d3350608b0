(** C117: compressed bodies. *)
From Verif Require Import GoBase GoBaseFacts GoUtf8 GoUtf8Facts WireModel WireSpec WireProofs WireProps ProtoSpec ProtoProofs ProtoMore ProtoProps
  DescrModel ZlibModel ZlibSpec ZlibProofs ZlibCutProofs.
From Coq Require Import ZifyBool ZifyNat ZifyN.
Local Open Scope N_scope.

(** Whatever compressor wrote it - any division into stored, fixed-code and dynamic-code
    blocks, any codes, any choice of copies - a zlib stream (RFC 1950 and 1951) is
    decompressed to its data, without error. *)
Theorem C117_standard_streams : forall d z : bytes, zlib_stream d z -> read_all z = Some d /\ read_all_error z = false.
Proof.
  intros d z H. split; [|now apply (read_all_ok d)]. destruct H as (h & body & -> & Hh & Hb). now apply read_all_is.
Qed.
Print Assumptions C117_standard_streams.

(** Reading fails - and with it the process, C31 - exactly on what does not open with a header;
    behind any header the data is read, the window size and a named empty dictionary make no
    difference. *)
Theorem C117_headers : forall z : bytes,
  (read_all z = None <-> forall body, ~ opens_with z body)
  /\ (forall d body trailer, opens_with z (body ++ trailer) -> deflate_bytes d body -> read_all z = Some d).
Proof.
  assert (H : forall z body, opens_with z body <-> zlib_header z = Some body).
  { intros z body. unfold zlib_header, opens_with. destruct z as [|cmf [|flg r]].
    - split; [intros (? & ? & ? & X & _); discriminate X|discriminate].
    - split; [intros (? & ? & ? & X & _); discriminate X|discriminate].
    - rewrite N.testbit_eqb. change (2 ^ 5) with 32. split.
      + intros (c & f & r' & X & H1 & H2 & H3). injection X as <- <- <-. rewrite H1, H2. cbn [N.eqb andb].
        destruct H3 as [[-> ->]|[-> ->]]; [reflexivity|]. vm_compute (big_endian (adler [])). reflexivity.
      + destruct ((cmf mod 16 =? 8) && ((256 * cmf + flg) mod 31 =? 0))%bool eqn:E; [|discriminate]. intros X.
        exists cmf, flg, r. split; [reflexivity|]. split; [lia|]. split; [lia|].
        pose proof (N.mod_lt (flg / 32) 2 ltac:(discriminate)) as M. destruct (flg / 32 mod 2 =? 1) eqn:E1.
        * right. split; [now apply N.eqb_eq|]. destruct r as [|a [|b [|c [|d r]]]]; try discriminate X.
          destruct ((a =? 0) && (b =? 0) && (c =? 0) && (d =? 1))%bool eqn:E2; [|discriminate X]. injection X as ->.
          vm_compute (big_endian (adler [])). cbn [app]. repeat f_equal; lia.
        * left. apply N.eqb_neq in E1. injection X as ->. split; [lia|reflexivity]. }
  intros z. split.
  - unfold read_all. split.
    + intros R body O. apply H in O. rewrite O in R. discriminate R.
    + intros R. destruct (zlib_header z) as [r|] eqn:E; [|reflexivity]. exfalso. apply (R r). now apply H.
  - intros d body trailer O D. apply H in O. unfold read_all. rewrite O. destruct (inflate_flow_is d body trailer D) as (pad & _ & ->).
    cbn [fst]. now rewrite rev_involutive.
Qed.
Print Assumptions C117_headers.
Example C117_headers_example :
  read_all ([120; 32; 0; 0; 0; 1] ++ skipn 2 (store [5; 6])) = Some [5; 6]   (* dictionary flag, the empty dictionary *)
  /\ read_all ([248; 0] ++ skipn 2 (store [5; 6])) = Some [5; 6]             (* window size 15 *)
  /\ Forall (fun h => read_all (h ++ skipn 2 (store [5; 6])) = None)
       [[120; 32; 0; 0; 0; 2]; [120; 2]; [121; 24]; [120; 32; 0; 0; 1; 1]; [120; 32; 0; 1; 0; 1]; [120; 32; 1; 0; 0; 1]]
  /\ read_all [] = None /\ read_all [120] = None.
Proof.
  split; [vm_compute; reflexivity|]. split; [vm_compute; reflexivity|]. split; [|split; reflexivity].
  repeat (apply Forall_cons; [vm_compute; reflexivity|]). apply Forall_nil.
Qed.

(** So the wire theorems need to assume nothing about the decompressor, and of the compressor
    only that it writes zlib streams. *)
Theorem C117_messages_arrive : forall (compress : bytes -> bytes) (types : bytes -> option (bytes -> bool))
    (msgs : list message) (frames pieces : list bytes),
  (forall d, Forall byte d -> zlib_stream d (compress d)) ->
  let w := program_env compress types in
  Forall (sendable w) msgs -> Forall2 (frame_of w) msgs frames -> concat pieces = concat frames ->
  handle_connection w pieces = (msgs, Closed).
Proof.
  intros compress types msgs frames pieces Hc w Hs Hf E. apply (C29_any_segmentation w msgs frames pieces); try assumption.
  intros d Hd. apply C117_standard_streams. now apply Hc.
Qed.
Print Assumptions C117_messages_arrive.

(** There is such a compressor. *)
Example C117_compressor_exists : forall d, Forall byte d -> zlib_stream d (store d).
Proof. exact store_stream. Qed.

(** The bytes zlib 1.2 writes for a short text: one block with dynamic codes, with all forms
    of run-length coding and with copies.  They are a zlib stream in the sense of the
    specification, and the reader reads them. *)
Definition sample_text : bytes := [98; 97; 99; 97; 98; 98; 99; 98; 98; 97; 99; 97; 97; 99; 99; 99; 97; 98; 99; 98; 99; 97; 97; 98; 98; 99].
Definition sample_stream : bytes := [120; 218; 13; 136; 55; 1; 0; 0; 0; 130; 178; 10; 253; 59; 200; 197; 96; 14; 132; 56; 45; 36; 107; 29; 134; 118; 9; 246].
Definition sample_lit : list N := repeat 0 97 ++ [3] ++ [2; 2] ++ repeat 0 156 ++ [3] ++ [2].
Definition sample_dist : list N := repeat 0 5 ++ repeat 2 4.
Definition sample_cl : list N := [0; 0] ++ [2; 2] ++ repeat 0 12 ++ [3; 3] ++ [2].
Ltac coded_lit x := eapply (CodedByte _ _ _ x); [lia|vm_compute; reflexivity|].
Ltac copied := let i := fresh in let H := fresh in intros i H; cbn [length] in H; do 8 (destruct i as [|i]; [first [exfalso; lia | vm_compute; reflexivity]|]); exfalso; lia.
Lemma sample_coded : exists b, coded sample_lit sample_dist [] sample_text b
  /\ exists runs, length_runs sample_cl [] (sample_lit ++ sample_dist) runs
  /\ bits_of (firstn 22 (skipn 2 sample_stream))
     = (true :: [false; true] ++ low_first 5 (N.of_nat (length sample_lit) - 257) ++ low_first 5 (N.of_nat (length sample_dist) - 1)
          ++ low_first 4 (N.of_nat 16 - 4) ++ flat_map (fun i => low_first 3 (nth (nth i sending_order 0%nat) sample_cl 0)) (seq 0 16)
          ++ runs ++ b ++ symbol_bits sample_lit 256) ++ repeat false 3.
Proof.
  eexists. split.
  coded_lit 98.
  coded_lit 97.
  coded_lit 99.
  coded_lit 97.
  coded_lit 98.
  coded_lit 98.
  coded_lit 99.
  coded_lit 98.
  coded_lit 98.
  eapply (CodedCopy _ _ _ [97; 99; 97] 3 8 257 0 0 5 1 1); [exact (LenShort 0 ltac:(reflexivity))|exact (DistGroup 1 1 1 ltac:(lia) ltac:(lia) ltac:(cbn; lia))|vm_compute; reflexivity|vm_compute; reflexivity|vm_compute; lia|reflexivity|copied|].
  coded_lit 97.
  coded_lit 99.
  coded_lit 99.
  eapply (CodedCopy _ _ _ [99; 97; 98] 3 13 257 0 0 7 2 0); [exact (LenShort 0 ltac:(reflexivity))|exact (DistGroup 2 1 0 ltac:(lia) ltac:(lia) ltac:(cbn; lia))|vm_compute; reflexivity|vm_compute; reflexivity|vm_compute; lia|reflexivity|copied|].
  coded_lit 99.
  coded_lit 98.
  eapply (CodedCopy _ _ _ [99; 97; 97] 3 10 257 0 0 6 2 1); [exact (LenShort 0 ltac:(reflexivity))|exact (DistGroup 2 0 1 ltac:(lia) ltac:(lia) ltac:(cbn; lia))|vm_compute; reflexivity|vm_compute; reflexivity|vm_compute; lia|reflexivity|copied|].
  eapply (CodedCopy _ _ _ [98; 98; 99] 3 19 257 0 0 8 3 2); [exact (LenShort 0 ltac:(reflexivity))|exact (DistGroup 3 0 2 ltac:(lia) ltac:(lia) ltac:(cbn; lia))|vm_compute; reflexivity|vm_compute; reflexivity|vm_compute; lia|reflexivity|copied|].
  apply CodedNil.
  eexists. split.
  eapply (RunsMany _ _ 97); [lia|vm_compute; reflexivity|].
  eapply (RunsOne _ _ 3); [lia|vm_compute; reflexivity|].
  eapply (RunsOne _ _ 2); [lia|vm_compute; reflexivity|].
  eapply (RunsOne _ _ 2); [lia|vm_compute; reflexivity|].
  eapply (RunsMany _ _ 138); [lia|vm_compute; reflexivity|].
  eapply (RunsMany _ _ 18); [lia|vm_compute; reflexivity|].
  eapply (RunsOne _ _ 3); [lia|vm_compute; reflexivity|].
  eapply (RunsOne _ _ 2); [lia|vm_compute; reflexivity|].
  eapply (RunsZeros _ _ 5); [lia|vm_compute; reflexivity|].
  eapply (RunsOne _ _ 2); [lia|vm_compute; reflexivity|].
  match goal with |- length_runs _ (?l ++ [?n]) _ _ => eapply (RunsAgain _ l n 3); [lia|vm_compute; reflexivity|] end.
  apply RunsNil.
  vm_compute. reflexivity.
Qed.
Lemma up_to_15 l : forallb (fun x => x <=? 15) l = true -> Forall (fun x => x <= 15) l.
Proof. intros H. apply Forall_forall. rewrite forallb_forall in H. intros x Hx. specialize (H x Hx). cbn beta in H. lia. Qed.
Example C117_dynamic_example : zlib_stream sample_text sample_stream /\ read_all sample_stream = Some sample_text.
Proof.
  assert (H : zlib_stream sample_text sample_stream); [|split; [exact H|now apply C117_standard_streams]].
  exists (firstn 2 sample_stream), (firstn 22 (skipn 2 sample_stream)). split; [vm_compute; reflexivity|].
  split; [exists 120, 218; repeat split; vm_compute; try reflexivity; discriminate|].
  split; [repeat constructor|]. destruct sample_coded as (b & Hb & runs & Hr & E). eexists. eexists. split; [|split; [exact E|cbn; lia]].
  apply LastBlock. apply DynamicBlock; try assumption.
  - reflexivity.
  - repeat constructor; discriminate.
  - split; [apply up_to_15; reflexivity|left; vm_compute; reflexivity].
  - lia.
  - intros i Hi. do 19 (destruct i as [|i]; [try lia; vm_compute; reflexivity|]). lia.
  - vm_compute. lia.
  - vm_compute. lia.
  - split; [apply up_to_15; reflexivity|left; vm_compute; reflexivity].
  - split; [apply up_to_15; reflexivity|left; vm_compute; reflexivity].
  - vm_compute. reflexivity.
Qed.
(** Cut before its end it gives the first part of the text, and an error nobody sees. *)
Example C117_cut_example : read_all (firstn 20 sample_stream) = Some (firstn 13 sample_text)
  /\ read_all_error (firstn 20 sample_stream) = true.
Proof. vm_compute. split; reflexivity. Qed.

Lemma program_reads compress types m pieces f payload data rest :
  types [] = None -> Forall byte (concat pieces) -> (forall n, m <> OtherMessage n) ->
  concat pieces = f ++ rest -> frame_around (type_name m) payload f -> read_all payload = Some data -> encodes m data ->
  exists pieces', read_wire (program_env compress types) pieces = Ok (Some m, pieces') /\ concat pieces' = rest.
Proof.
  intros Ht Hb Ho Hc (size & env & efs & type & H) Hr (fs & Hfs & Hm).
  apply C103_reads_standard; [intros d x _; apply read_all_bytes|exact Ht|exact Hb|exact Ho|].
  exists f. split; [exact Hc|]. exists data, fs. split; [|split; assumption].
  exists size, env, efs, type, payload. cbn [program_env zinflate]. intuition.
Qed.

(** Any standard frame with any zlib stream of any standard encoding of a message is read as
    that message. *)
Theorem C117_any_compressor : forall compress types (m : message) (pieces : list bytes) (f z data rest : bytes),
  types [] = None -> Forall byte (concat pieces) -> (forall n, m <> OtherMessage n) ->
  concat pieces = f ++ rest -> frame_around (type_name m) z f -> zlib_stream data z -> encodes m data ->
  exists pieces', read_wire (program_env compress types) pieces = Ok (Some m, pieces') /\ concat pieces' = rest.
Proof.
  intros compress types m pieces f z data rest Ht Hb Ho Hc Hf Hz He.
  apply (program_reads compress types m pieces f z data rest); try assumption. now apply C117_standard_streams.
Qed.
Print Assumptions C117_any_compressor.

(** What a cut body can do at most: a stream cut anywhere behind its header is decompressed to
    the first part of its data. *)
Theorem C117_cut_partial : forall (d z : bytes) (k : nat), zlib_stream d z -> (2 <= k)%nat ->
  exists d1 d2, read_all (firstn k z) = Some d1 /\ d = d1 ++ d2.
Proof.
  intros d z k H Hk. destruct (C117_standard_streams d z H) as [E _]. destruct H as (h & body & -> & Hh & Hb).
  exact (read_all_cut h _ k Hh d E Hk).
Qed.
Print Assumptions C117_cut_partial.

(** The check sum is not checked: whatever stands in its place, and also with nothing there,
    the message is handled. *)
Theorem C117_checksum_refuted : forall compress types (m : message) (pieces : list bytes) (f h body data trailer rest : bytes),
  types [] = None -> Forall byte (concat pieces) -> (forall n, m <> OtherMessage n) ->
  zlib_header_bytes h -> deflate_bytes data body -> encodes m data ->
  concat pieces = f ++ rest -> frame_around (type_name m) (h ++ body ++ trailer) f ->
  exists pieces', read_wire (program_env compress types) pieces = Ok (Some m, pieces') /\ concat pieces' = rest.
Proof.
  intros compress types m pieces f h body data trailer rest Ht Hb Ho Hh Hbo He Hc Hf.
  apply (program_reads compress types m pieces f (h ++ body ++ trailer) data rest); try assumption. now apply read_all_is.
Qed.
Print Assumptions C117_checksum_refuted.

(** A frame around any body can be made. *)
Lemma make_frame m payload : field_values m -> Forall byte payload -> (zlen payload <= 2 ^ 47)%Z ->
  exists f, Forall byte f /\ frame_around (type_name m) payload f.
Proof.
  intros Hv Hb Hs. set (env := enc_envelope (message_name m) payload).
  assert (En : message_name m = type_name m) by (destruct m; reflexivity).
  assert (Hn : (zlen (message_name m) <= 64)%Z) by (destruct m; try (vm_compute; discriminate); contradiction).
  assert (Hname : Forall byte (message_name m)) by (apply text_byte, utf8_valid_spec; apply message_name_ok; exact Hv).
  assert (Hp : forall num b, num <= 5 -> (zlen b <= 2 ^ 47)%Z -> (zlen (f_bytes num b) <= zlen b + 20)%Z).
  { intros num b Hnum Hlen. destruct b as [|x b]; [cbn; lia|]. cbn [f_bytes]. unfold f_block. rewrite !zlen_app.
    assert (V : forall k n, (zlen (put_varint k n) <= Z.of_nat k + 1)%Z).
    { induction k as [|k IH]; intros n; cbn [put_varint]; [cbn; lia|]. destruct (n <? 128); [cbn; lia|].
      specialize (IH (n / 128)). unfold zlen in *. cbn [length]. lia. }
    pose proof (V 9%nat (num * 8 + wt_bytes)). pose proof (V 9%nat (N.of_nat (length (x :: b)))). unfold tag. lia. }
  assert (He : (zlen env <= max_alloc)%Z).
  { unfold env, enc_envelope. rewrite zlen_app. pose proof (Hp 1 (message_name m) ltac:(lia) ltac:(lia)). pose proof (Hp 2 payload ltac:(lia) Hs).
    unfold max_alloc. lia. }
  assert (Hbe : Forall byte env).
  { unfold env, enc_envelope. apply Forall_app. split; apply f_bytes_byte; try assumption; unfold max_alloc; lia. }
  pose proof (dec_envelope (message_name m) payload (message_name_ok m Hv) He) as D. fold env in D.
  apply (decode_iff _ _ _ _ _ impl_envelope reads_envelope Hbe) in D. destruct D as (efs & He1 & He2).
  apply run_envelope in He2. destruct He2 as [He2 He3]. injection He3 as E1 E2.
  exists (put_le 8 (N.of_nat (length env)) ++ env). split; [apply Forall_app; split; [apply put_le_byte|exact Hbe]|].
  exists (put_le 8 (N.of_nat (length env))), env, efs, (message_name m).
  repeat split; try assumption.
  - apply size_iff; [apply put_le_byte|reflexivity|exact He|].
    unfold zlen, max_alloc in *. rewrite get_put_le by (change (256 ^ N.of_nat 8) with (2 ^ 64); lia). unfold i64. rewrite wrap64_id; unfold in_int64; lia.
  - destruct m; cbn [type_name]; try (cbn; intuition discriminate); contradiction.
  - left. exact En.
Qed.

Lemma pieces_length last fuel : forall d, (length (stored_pieces last fuel d) <= 5 * fuel + length d)%nat.
Proof.
  induction fuel as [|fuel IH]; intros d; [cbn; lia|]. cbn [stored_pieces].
  assert (E : length d = (length (firstn (N.to_nat 65535) d) + length (skipn (N.to_nat 65535) d))%nat) by (rewrite <- app_length, firstn_skipn; reflexivity).
  rewrite E. clear E.
  generalize (firstn (N.to_nat 65535) d) as piece. generalize (skipn (N.to_nat 65535) d) as rest. intros rest piece.
  rewrite !app_length. cbn [length]. destruct rest; [cbn [length]; lia|]. specialize (IH (n :: rest)). lia.
Qed.
Lemma encoded m : field_values m -> texts_utf8 m -> (zlen (enc_message m) <= max_alloc)%Z -> encodes m (enc_message m).
Proof.
  intros Hv Ht Hs. assert (Ho : ours m) by (intros n ->; contradiction).
  destruct (proj1 (message_iff (empty_of m) (enc_message m) m (enc_byte m Hv Ht Hs) (in_empty m Ho)) (dec_message m Hv Ht Hs)) as (_ & _ & H). exact H.
Qed.

(** Every announcement of a song has an encoding and a zlib stream of it which, cut at some
    place and sent in a standard frame, is handled as an announcement without lyrics and
    metadata. *)
Theorem C117_cut_refuted : forall types first file len ly md,
  let m := NewSongInfo first file len ly md in
  types [] = None -> field_values m -> texts_utf8 m -> (zlen (enc_message m) <= 2 ^ 40)%Z ->
  exists data z k f, encodes m data /\ zlib_stream data z /\ (2 <= k < length z)%nat
    /\ frame_around (T "comm.NewSongInfo") (firstn k z) f
    /\ forall compress pieces rest, Forall byte rest -> concat pieces = f ++ rest ->
         exists pieces', read_wire (program_env compress types) pieces = Ok (Some (NewSongInfo first file len [] None), pieces')
                         /\ concat pieces' = rest.
Proof.
  intros types first file len ly md m Ht Hv Htx Hs.
  set (m' := NewSongInfo first file len [] None).
  assert (Hv' : field_values m') by (destruct Hv as (H1 & H2 & _); repeat split; try assumption; try constructor; apply H1 || apply H2).
  assert (Htx' : texts_utf8 m') by (destruct Htx as (H1 & _); cbn; repeat split; [exact H1|constructor]).
  set (d2 := flat_map (fun l => f_block 4 (enc_line l)) ly ++ match md with None => [] | Some m => f_block 5 (enc_metadata m) end).
  assert (E : enc_message m = enc_message m' ++ d2).
  { unfold m, m', d2. cbn [enc_message flat_map]. rewrite !app_nil_r, <- !app_assoc. reflexivity. }
  assert (Hs' : (zlen (enc_message m') <= 2 ^ 40)%Z) by (rewrite E, zlen_app in Hs; pose proof (zlen_nonneg d2); lia).
  assert (Hb : Forall byte (enc_message m)) by (apply enc_byte; try assumption; unfold max_alloc; lia).
  rewrite E in Hb. apply Forall_app in Hb. destruct Hb as [Hb1 Hb2].
  set (d1 := enc_message m') in *.
  set (k := (2 + length (stored_pieces false (S (length d1)) d1))%nat).
  assert (Hz : zlib_stream (d1 ++ d2) (store_two d1 d2)) by now apply store_two_stream.
  assert (Lk : (2 <= k < length (store_two d1 d2))%nat).
  { unfold k, store_two. rewrite !app_length. change (length (big_endian (adler (d1 ++ d2)))) with 4%nat. change (length [120; 1]) with 2%nat. lia. }
  destruct (make_frame m' (firstn k (store_two d1 d2)) Hv') as (f & Hf1 & Hf2).
  { apply part_bytes. unfold store_two. apply Forall_app. split; [repeat constructor|]. rewrite !Forall_app.
    split; [now apply pieces_bytes|]. split; [now apply pieces_bytes|apply big_endian_byte]. }
  { unfold zlen in *. rewrite firstn_length. pose proof (pieces_length false (S (length d1)) d1). unfold k. lia. }
  exists (d1 ++ d2), (store_two d1 d2), k, f.
  split; [rewrite <- E; apply encoded; try assumption; unfold max_alloc; lia|]. split; [exact Hz|]. split; [exact Lk|]. split; [exact Hf2|].
  intros compress pieces rest Hr Hc.
  apply (program_reads compress types m' pieces f (firstn k (store_two d1 d2)) d1 rest); try assumption.
  - rewrite Hc. apply Forall_app. now split.
  - intros n; discriminate.
  - now apply store_two_cut.
  - apply (encoded m' Hv' Htx'). fold d1. unfold max_alloc. lia.
Qed.
Print Assumptions C117_cut_refuted.

(** A pause message whose body ends in a wrong check sum, or in none. *)
Definition bad_sum (sum d : bytes) : bytes := [120; 1] ++ stored_pieces true (S (length d)) d ++ sum.
Example C117_checksum_example :
  let m := PauseInfo true 5 in
  Forall (fun sum => read_all_error (bad_sum sum (enc_message m)) = true
            /\ match to_wire (program_env (bad_sum sum) (fun _ => None)) m with
               | None => False
               | Some f => read_wire (program_env store (fun _ => None)) [f] = Ok (Some m, [])
               end) [[0; 0; 0; 0]; [255; 1]; []].
Proof. do 3 (apply Forall_cons; [split; vm_compute; reflexivity|]). apply Forall_nil. Qed.
(** The hypotheses of [C117_cut_refuted] are met by every small announcement. *)
Example C117_cut_song_example : let m := NewSongInfo 7 (T "a.mp3") 100 [[(3%Z, T "la")]] (Some (T "x", T "y", T "z")) in
  field_values m /\ texts_utf8 m /\ (zlen (enc_message m) <= 2 ^ 40)%Z.
Proof.
  assert (U : forall b, utf8_valid b = true -> exists t, Forall scalar t /\ b = utf8_encode t) by (intros b; apply utf8_valid_spec).
  split; [|split; [|vm_compute; discriminate]].
  - cbn [field_values]. unfold in_uint64, in_int64. split; [lia|]. split; [lia|].
    apply Forall_cons; [|apply Forall_nil]. apply Forall_cons; [cbn [fst]; lia|apply Forall_nil].
  - cbn [texts_utf8]. split; [apply U; reflexivity|]. split; [|split; [apply U; reflexivity|split; apply U; reflexivity]].
    apply Forall_cons; [|apply Forall_nil]. apply Forall_cons; [apply U; reflexivity|apply Forall_nil].
Qed.
