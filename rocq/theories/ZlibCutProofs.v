(** What the zlib reader does with a part of a stream. *)
From Verif Require Import GoBase GoBaseFacts GoUtf8 WireModel WireSpec DescrModel ZlibModel ZlibSpec ZlibProofs.
From Coq Require Import ZifyBool ZifyNat ZifyN.
Local Open Scope N_scope.

(** * Reading with more bits to come *)
Lemma get_bits_more t n : forall bs v r, get_bits n bs = Some (v, r) -> get_bits n (bs ++ t) = Some (v, r ++ t).
Proof.
  induction n as [|n IH]; intros bs v r H; cbn [get_bits] in *; [injection H as <- <-; reflexivity|].
  destruct bs as [|x bs]; [discriminate H|]. cbn [app]. destruct (get_bits n bs) as [[v' r']|] eqn:E; [|discriminate H].
  injection H as <- <-. now rewrite (IH _ _ _ E).
Qed.
Lemma get_many_more t k n : forall bs l r, get_many k n bs = Some (l, r) -> get_many k n (bs ++ t) = Some (l, r ++ t).
Proof.
  induction k as [|k IH]; intros bs l r H; cbn [get_many] in *; [injection H as <- <-; reflexivity|].
  destruct (get_bits n bs) as [[v r1]|] eqn:E; [|discriminate H]. rewrite (get_bits_more t _ _ _ _ E).
  destruct (get_many k n r1) as [[l' r2]|] eqn:E2; [|discriminate H]. rewrite (IH _ _ _ E2). injection H as <- <-. reflexivity.
Qed.
Lemma get_symbol_more t table : forall c f bs s r, get_symbol table c f bs = Some (s, r) -> get_symbol table c f (bs ++ t) = Some (s, r ++ t).
Proof.
  induction table as [|sy table IH]; intros c f bs s r H; cbn [get_symbol] in H; [discriminate H|].
  destruct bs as [|x bs]; [discriminate H|]. cbn [app get_symbol].
  destruct (2 * c + (if x then 1 else 0) <? 2 * f + N.of_nat (length sy)); [injection H as <- <-; reflexivity|].
  now apply IH.
Qed.
Lemma code_lengths_more t table f1 : forall f2 want bs acc l r, (f1 <= f2)%nat -> code_lengths f1 table want bs acc = Some (l, r) ->
  code_lengths f2 table want (bs ++ t) acc = Some (l, r ++ t).
Proof.
  induction f1 as [|f1 IH]; intros f2 want bs acc l r Hf H; cbn [code_lengths] in H.
  - destruct (N.eqb_spec want 0) as [->|]; [|discriminate H]. injection H as <- <-. apply code_lengths_done.
  - destruct (N.eqb_spec want 0) as [->|Hw]; [injection H as <- <-; apply code_lengths_done|].
    destruct f2 as [|f2]; [lia|]. cbn [code_lengths]. replace (want =? 0) with false by lia.
    destruct (get_symbol table 0 0 bs) as [[s r1]|] eqn:E; [|discriminate H]. rewrite (get_symbol_more t _ _ _ _ _ _ E).
    destruct (s <? 16); [now apply IH; [lia|]|].
    destruct (if s =? 16 then _ else _) as [[[x base] extra]|]; [|discriminate H].
    destruct (get_bits extra r1) as [[e r2]|] eqn:E2; [|discriminate H]. rewrite (get_bits_more t _ _ _ _ E2).
    destruct (want <? base + e); [discriminate H|]. now apply IH; [lia|].
Qed.
Lemma read_huffman_more t bs lit dist r : read_huffman bs = Some (lit, dist, r) -> read_huffman (bs ++ t) = Some (lit, dist, r ++ t).
Proof.
  unfold read_huffman. intros H.
  destruct (get_bits 5 bs) as [[hlit r1]|] eqn:E1; [|discriminate H]. rewrite (get_bits_more t _ _ _ _ E1).
  destruct (286 <? hlit + 257); [discriminate H|].
  destruct (get_bits 5 r1) as [[hdist r2]|] eqn:E2; [|discriminate H]. rewrite (get_bits_more t _ _ _ _ E2).
  destruct (30 <? hdist + 1); [discriminate H|].
  destruct (get_bits 4 r2) as [[hclen r3]|] eqn:E3; [|discriminate H]. rewrite (get_bits_more t _ _ _ _ E3).
  destruct (get_many (N.to_nat (hclen + 4)) 3 r3) as [[cl r4]|] eqn:E4; [|discriminate H]. rewrite (get_many_more t _ _ _ _ _ E4).
  destruct (negb (code_ok (in_order cl))); [discriminate H|].
  destruct (code_lengths (length r4) (code_table (in_order cl)) (hlit + 257 + (hdist + 1)) r4 []) as [[ls r5]|] eqn:E5; [|discriminate H].
  rewrite (code_lengths_more t _ (length r4) (length (r4 ++ t)) _ _ _ _ _ ltac:(rewrite app_length; lia) E5).
  destruct (code_ok _ && code_ok _)%bool; [|discriminate H]. injection H as <- <- <-. reflexivity.
Qed.
Lemma get_copy_more t dist s bs len d r : get_copy dist s bs = Some (len, d, r) -> get_copy dist s (bs ++ t) = Some (len, d, r ++ t).
Proof.
  unfold get_copy. intros H.
  destruct (nth_error length_base _) as [base|]; [|discriminate H]. destruct (nth_error length_extra _) as [extra|]; [|discriminate H].
  destruct (get_bits extra bs) as [[e r1]|] eqn:E1; [|discriminate H]. rewrite (get_bits_more t _ _ _ _ E1).
  destruct (get_symbol dist 0 0 r1) as [[ds r2]|] eqn:E2; [|discriminate H]. rewrite (get_symbol_more t _ _ _ _ _ _ E2).
  destruct (nth_error dist_base _) as [dbase|]; [|discriminate H]. destruct (nth_error dist_extra _) as [dextra|]; [|discriminate H].
  destruct (get_bits dextra r2) as [[de r3]|] eqn:E3; [|discriminate H]. rewrite (get_bits_more t _ _ _ _ E3).
  injection H as <- <- <-. reflexivity.
Qed.

(** * Output is only added to, and consists of bytes *)
Definition grows (out : bytes) (f : flow) : Prop := exists x, fst f = x ++ out /\ (Forall byte out -> Forall byte x).
Lemma grows_refl out o : grows out (out, o).
Proof. exists []. split; [reflexivity|constructor]. Qed.
Lemma grows_more out x f : grows (x ++ out) f -> (Forall byte out -> Forall byte x) -> grows out f.
Proof.
  intros (y & E & H) Hx. exists (y ++ x). rewrite <- app_assoc. split; [exact E|]. intros Ho. specialize (Hx Ho).
  apply Forall_app. split; [apply H; apply Forall_app; now split|exact Hx].
Qed.
Lemma copy_back_grows n d : forall out out', copy_back n d out = Some out' -> exists x, out' = x ++ out /\ (Forall byte out -> Forall byte x).
Proof.
  induction n as [|n IH]; intros out out' H; cbn [copy_back] in H; [injection H as <-; exists []; split; [reflexivity|constructor]|].
  destruct (nth_error out d) as [x|] eqn:E; [|discriminate H]. destruct (IH _ _ H) as (y & -> & Hy). exists (y ++ [x]).
  rewrite <- app_assoc. split; [reflexivity|]. intros Ho. assert (byte x) as Hx by (rewrite Forall_forall in Ho; apply Ho; eapply nth_error_In; exact E).
  apply Forall_app. split; [apply Hy; now constructor|now constructor].
Qed.
Lemma block_grows fuel least lit dist : forall bs out, grows out (block_flow fuel least lit dist bs out).
Proof.
  induction fuel as [|fuel IH]; intros bs out; cbn [block_flow]; [apply grows_refl|].
  destruct (if (length bs <? least)%nat then _ else _) as [[s r]|]; [|apply grows_refl].
  destruct (N.ltb_spec s 256); [apply (grows_more out [s] _ (IH r (s :: out))); intros _; repeat constructor; assumption|].
  destruct (s =? 256); [apply grows_refl|]. destruct (get_copy dist s r) as [[[len d] r']|]; [|apply grows_refl].
  destruct (copy_back len (d - 1) out) as [out'|] eqn:E; [|apply grows_refl].
  destruct (copy_back_grows _ _ _ _ E) as (x & -> & Hx). apply (grows_more out x _ (IH r' (x ++ out)) Hx).
Qed.
Lemma get_bits_bound n : forall bs v r, get_bits n bs = Some (v, r) -> v < 2 ^ N.of_nat n.
Proof.
  induction n as [|n IH]; intros bs v r H; cbn [get_bits] in H; [injection H as <- _; cbn; lia|].
  destruct bs as [|x bs]; [discriminate H|]. destruct (get_bits n bs) as [[v' r']|] eqn:E; [|discriminate H].
  injection H as <- _. specialize (IH _ _ _ E). rewrite Nat2N.inj_succ, N.pow_succ_r'.
  change ((if x then 1 else 0) + 2 * v' < 2 * 2 ^ N.of_nat n). destruct x; lia.
Qed.
Lemma stored_grows n : forall bs out, grows out (stored_flow n bs out).
Proof.
  induction n as [|n IH]; intros bs out; cbn [stored_flow]; [apply grows_refl|].
  destruct (get_bits 8 bs) as [[x r]|] eqn:E; [|apply grows_refl]. apply (grows_more out [x] _ (IH r (x :: out))).
  intros _. repeat constructor. exact (get_bits_bound _ _ _ _ E).
Qed.
Lemma one_block_grows t0 t1 bs out : grows out (one_block t0 t1 bs out).
Proof.
  destruct t0, t1; cbn [one_block]; try apply grows_refl; try apply block_grows.
  - destruct (read_huffman bs) as [[[lit dist] r]|]; [apply block_grows|apply grows_refl].
  - unfold stored_block. destruct (get_bits _ bs) as [[v1 r1]|]; [|apply grows_refl]. destruct (get_bits 16 r1) as [[v2 r2]|]; [|apply grows_refl].
    destruct (get_bits 16 r2) as [[v3 r3]|]; [|apply grows_refl]. destruct (v2 + v3 =? 65535); [apply stored_grows|apply grows_refl].
Qed.
Lemma blocks_grow fuel : forall bs out, grows out (blocks_flow fuel bs out).
Proof.
  induction fuel as [|fuel IH]; intros bs out; cbn [blocks_flow]; [apply grows_refl|].
  destruct bs as [|final [|t0 [|t1 r]]]; try apply grows_refl. pose proof (one_block_grows t0 t1 r out) as G.
  destruct (one_block t0 t1 r out) as [out' [r'|]]; [|exact G]. destruct G as (x & E & Hx). cbn [fst] in E. subst out'.
  destruct final; [exists x; split; [reflexivity|exact Hx]|]. exact (grows_more out x _ (IH r' (x ++ out)) Hx).
Qed.

(** * A part of the bits gives a part of the output *)
Definition part (t : list bool) (a b : flow) : Prop :=
  (snd a = None /\ exists x, fst b = x ++ fst a) \/ (exists r, snd a = Some r /\ b = (fst a, Some (r ++ t))).
Lemma part_stop t out f : grows out f -> part t (out, None) f.
Proof. intros (x & E & _). left. split; [reflexivity|]. now exists x. Qed.

Lemma block_part t lit dist least f1 : forall f2 bs out, (f1 <= f2)%nat ->
  part t (block_flow f1 least lit dist bs out) (block_flow f2 least lit dist (bs ++ t) out).
Proof.
  induction f1 as [|f1 IH]; intros f2 bs out Hf; [apply part_stop, block_grows|].
  destruct f2 as [|f2]; [lia|]. pose proof (block_grows (S f2) least lit dist (bs ++ t) out) as G. cbn [block_flow] in *.
  destruct (Nat.ltb_spec (length bs) least) as [Hl|Hl]; [apply part_stop; exact G|].
  destruct (Nat.ltb_spec (length (bs ++ t)) least) as [Hl2|Hl2]; [rewrite app_length in Hl2; lia|].
  destruct (get_symbol lit 0 0 bs) as [[s r]|] eqn:E; [|apply part_stop; exact G].
  rewrite (get_symbol_more t _ _ _ _ _ _ E) in *. destruct (s <? 256); [apply IH; lia|].
  destruct (s =? 256); [right; exists r; split; reflexivity|].
  destruct (get_copy dist s r) as [[[len d] r']|] eqn:E2; [|apply part_stop; exact G].
  rewrite (get_copy_more t _ _ _ _ _ _ E2) in *. destruct (copy_back len (d - 1) out) as [out'|]; [apply IH; lia|apply part_stop; exact G].
Qed.
Lemma stored_part t n : forall bs out, part t (stored_flow n bs out) (stored_flow n (bs ++ t) out).
Proof.
  induction n as [|n IH]; intros bs out; [right; exists bs; split; reflexivity|].
  pose proof (stored_grows (S n) (bs ++ t) out) as G. cbn [stored_flow] in *.
  destruct (get_bits 8 bs) as [[x r]|] eqn:E; [|apply part_stop; exact G]. rewrite (get_bits_more t _ _ _ _ E). apply IH.
Qed.
Lemma one_block_part t t0 t1 bs out : (length t mod 8 = 0)%nat -> part t (one_block t0 t1 bs out) (one_block t0 t1 (bs ++ t) out).
Proof.
  intros Ht. pose proof (one_block_grows t0 t1 (bs ++ t) out) as G. destruct t0, t1; cbn [one_block] in *.
  - apply part_stop, G.
  - apply block_part. rewrite app_length. lia.
  - destruct (read_huffman bs) as [[[lit dist] r]|] eqn:E; [|apply part_stop; exact G]. rewrite (read_huffman_more t _ _ _ _ E).
    apply block_part. rewrite app_length. lia.
  - unfold stored_block in *.
    replace (length (bs ++ t) mod 8)%nat with (length bs mod 8)%nat in *
      by (rewrite app_length, Nat.add_mod, Ht, Nat.add_0_r, Nat.mod_mod by lia; reflexivity).
    destruct (get_bits _ bs) as [[v1 r1]|] eqn:E1; [|apply part_stop; exact G]. rewrite (get_bits_more t _ _ _ _ E1) in *.
    destruct (get_bits 16 r1) as [[v2 r2]|] eqn:E2; [|apply part_stop; exact G]. rewrite (get_bits_more t _ _ _ _ E2) in *.
    destruct (get_bits 16 r2) as [[v3 r3]|] eqn:E3; [|apply part_stop; exact G]. rewrite (get_bits_more t _ _ _ _ E3) in *.
    destruct (v2 + v3 =? 65535); [apply stored_part|apply part_stop; exact G].
Qed.
Lemma blocks_part t : (length t mod 8 = 0)%nat -> forall f1 f2 bs out, (f1 <= f2)%nat -> part t (blocks_flow f1 bs out) (blocks_flow f2 (bs ++ t) out).
Proof.
  intros Ht. induction f1 as [|f1 IH]; intros f2 bs out Hf; [apply part_stop, blocks_grow|].
  destruct f2 as [|f2]; [lia|]. pose proof (blocks_grow (S f2) (bs ++ t) out) as G. cbn [blocks_flow] in *.
  destruct bs as [|final [|t0 [|t1 r]]]; try (apply part_stop; exact G). cbn [app] in *.
  destruct (one_block_part t t0 t1 r out Ht) as [[E1 (x & E2)]|(r' & E1 & E2)].
  - destruct (one_block t0 t1 r out) as [o' [r1|]] eqn:E; [discriminate E1|]. cbn [fst] in E2.
    destruct (one_block t0 t1 (r ++ t) out) as [o2 [r2|]]; cbn [fst] in E2; subst o2.
    + destruct final; [left; split; [reflexivity|now exists x]|]. destruct (blocks_grow f2 r2 (x ++ o')) as (y & Ey & _).
      left. split; [reflexivity|]. exists (y ++ x). rewrite Ey. cbn [fst]. apply app_assoc.
    + left. split; [reflexivity|now exists x].
  - rewrite E2. destruct (one_block t0 t1 r out) as [o' [r1|]] eqn:E; [|discriminate E1]. cbn [fst snd] in *. injection E1 as <-.
    destruct final; [right; exists r1; split; reflexivity|]. apply IH. lia.
Qed.

(** reading the first part of the compressed data *)
Lemma inflate_part a b : exists x, fst (inflate_flow (a ++ b)) = x ++ fst (inflate_flow a).
Proof.
  unfold inflate_flow. rewrite !all_bits_of, bits_of_app.
  destruct (blocks_part (bits_of b) ltac:(rewrite bits_of_length, Nat.mul_comm; apply Nat.mod_mul; lia)
    (length (bits_of a)) (length (bits_of a ++ bits_of b)) (bits_of a) [] ltac:(rewrite app_length; lia)) as [[_ H]|(r & _ & E)]; [exact H|].
  rewrite E. now exists [].
Qed.
Lemma read_all_bytes z d : read_all z = Some d -> Forall byte d.
Proof.
  unfold read_all. destruct (zlib_header z) as [r|]; [|discriminate]. intros H. injection H as <-. apply Forall_rev.
  destruct (blocks_grow (length (all_bits r)) (all_bits r) []) as (x & E & H). fold (inflate_flow r) in E. rewrite E, app_nil_r. now apply H.
Qed.
Lemma read_all_cut h body k : zlib_header_bytes h -> forall d, read_all (h ++ body) = Some d -> (2 <= k)%nat ->
  exists d1 d2, read_all (firstn k (h ++ body)) = Some d1 /\ d = d1 ++ d2.
Proof.
  intros Hh d H Hk. assert (length h = 2)%nat as L by (destruct Hh as (x & y & -> & _); reflexivity).
  rewrite firstn_app, L, firstn_all2 by lia. unfold read_all in *. rewrite zlib_header_is in H |- * by exact Hh.
  destruct (inflate_part (firstn (k - 2) body) (skipn (k - 2) body)) as (x & E). rewrite firstn_skipn in E.
  injection H as <-. do 2 eexists. split; [reflexivity|]. rewrite E, rev_app_distr. reflexivity.
Qed.

(** * Streams of stored blocks *)
Lemma part_bytes k (d : bytes) : Forall byte d -> Forall byte (firstn k d) /\ Forall byte (skipn k d).
Proof. intros H. rewrite <- (firstn_skipn k d) in H. now apply Forall_app in H. Qed.
Lemma low_first_split a b : forall v, low_first (a + b) v = low_first a (v mod 2 ^ N.of_nat a) ++ low_first b (v / 2 ^ N.of_nat a).
Proof.
  induction a as [|a IH]; intros v.
  - cbn [plus low_first app]. change (2 ^ N.of_nat 0) with 1. now rewrite N.div_1_r.
  - cbn [plus low_first app]. rewrite Nat2N.inj_succ, N.pow_succ_r'. 
    assert (2 ^ N.of_nat a <> 0) by (apply N.pow_nonzero; lia).
    rewrite N.mod_mul_r by lia. rewrite <- (N.div_div v 2) by lia.
    f_equal.
    + rewrite N.odd_add, N.odd_mul. cbn [N.odd andb]. rewrite Bool.xorb_false_r.
      rewrite <- !N.bit0_odd. rewrite N.bit0_eqb, N.bit0_eqb. now rewrite N.mod_mod by lia.
    + rewrite IH. f_equal. f_equal. rewrite N.mul_comm, N.div_add by lia. rewrite (N.div_small (v mod 2)) by (apply N.mod_upper_bound; lia). apply N.add_0_l.
Qed.
Lemma low_16 v : low_first 16 v = bits_of [v mod 256; v / 256].
Proof. unfold bits_of. cbn [flat_map]. rewrite app_nil_r. exact (low_first_split 8 8 v). Qed.

Lemma piece_bits (first : bool) piece : bits_of ([if first then 1 else 0; N.of_nat (length piece) mod 256; N.of_nat (length piece) / 256;
    (65535 - N.of_nat (length piece)) mod 256; (65535 - N.of_nat (length piece)) / 256] ++ piece)
  = first :: [false; false] ++ [false; false; false; false; false] ++ low_first 16 (N.of_nat (length piece))
    ++ low_first 16 (65535 - N.of_nat (length piece)) ++ bits_of piece.
Proof.
  rewrite bits_of_app, !low_16. unfold bits_of. cbn [flat_map]. rewrite !app_nil_r, <- !app_assoc. destruct first; reflexivity.
Qed.
Lemma piece_block pos o piece : Forall byte piece -> N.of_nat (length piece) <= 65535 -> (pos mod 8 = 0)%nat ->
  block (pos + 1) o (o ++ piece) ([false; false] ++ [false; false; false; false; false] ++ low_first 16 (N.of_nat (length piece))
    ++ low_first 16 (65535 - N.of_nat (length piece)) ++ bits_of piece).
Proof.
  intros H1 H2 H3. apply StoredBlock; try assumption; [cbn; lia|]. cbn [length].
  replace (pos + 1 + 2 + 5)%nat with (pos + 1 * 8)%nat by lia. now rewrite Nat.mod_add by lia.
Qed.
Lemma mod8_add a b : (a mod 8 = 0 -> (a + 8 * b) mod 8 = 0)%nat.
Proof. intros H. rewrite Nat.mul_comm, Nat.mod_add by lia. exact H. Qed.

Lemma pieces_bytes last fuel : forall d, Forall byte d -> Forall byte (stored_pieces last fuel d).
Proof.
  induction fuel as [|fuel IH]; intros d H; [constructor|]. cbn [stored_pieces].
  assert (H1 : Forall byte (firstn (N.to_nat 65535) d)) by now apply part_bytes.
  assert (H2 : Forall byte (skipn (N.to_nat 65535) d)) by now apply part_bytes.
  assert (L : N.of_nat (length (firstn (N.to_nat 65535) d)) <= 65535) by (pose proof (firstn_le_length (N.to_nat 65535) d); lia).
  revert H1 H2 L. generalize (firstn (N.to_nat 65535) d) as piece. generalize (skipn (N.to_nat 65535) d) as rest. intros rest piece H1 H2 L.
  apply Forall_app. split; [|apply Forall_app; split; [exact H1|]].
  - assert (H0 : forall n, n <= 65535 -> n / 256 < 256) by (intros; apply N.div_lt_upper_bound; lia).
    assert (H3 : forall n, n mod 256 < 256) by (intros; apply N.mod_upper_bound; lia).
    apply Forall_cons; [unfold byte; destruct rest; [destruct last|]; lia|]. apply Forall_cons; [apply H3|]. apply Forall_cons; [apply H0; lia|].
    apply Forall_cons; [apply H3|]. apply Forall_cons; [apply H0; lia|]. constructor.
  - destruct rest; [constructor|]. now apply IH.
Qed.
(** the blocks of some data, followed by more blocks *)
Lemma pieces_before fuel : forall pos o d o' b, Forall byte d -> (length d < fuel)%nat -> (pos mod 8 = 0)%nat ->
  deflated (pos + length (bits_of (stored_pieces false fuel d))) (o ++ d) o' b -> deflated pos o o' (bits_of (stored_pieces false fuel d) ++ b).
Proof.
  induction fuel as [|fuel IH]; intros pos o d o' b H Hf Hp HD; [lia|]. cbn [stored_pieces] in *.
  assert (H1 : Forall byte (firstn (N.to_nat 65535) d)) by now apply part_bytes.
  assert (H2 : Forall byte (skipn (N.to_nat 65535) d)) by now apply part_bytes.
  assert (L : N.of_nat (length (firstn (N.to_nat 65535) d)) <= 65535) by (pose proof (firstn_le_length (N.to_nat 65535) d); lia).
  assert (L2 : skipn (N.to_nat 65535) d = [] \/ (length (skipn (N.to_nat 65535) d) < fuel)%nat).
  { destruct d; [left; now rewrite skipn_nil|]. right. rewrite skipn_length. cbn [length] in *. lia. }
  pose proof (firstn_skipn (N.to_nat 65535) d) as ED. revert H1 H2 L L2 ED HD.
  generalize (firstn (N.to_nat 65535) d) as piece. generalize (skipn (N.to_nat 65535) d) as rest. intros rest piece H1 H2 L L2 ED HD.
  replace (match rest with [] => if false then 1 else 0 | _ => 0 end) with (if false then 1 else 0) in * by (destruct rest; reflexivity).
  set (tail := match rest with [] => [] | _ => stored_pieces false fuel rest end) in *.
  pose proof (piece_block pos o piece H1 L Hp) as PB. pose proof (piece_bits false piece) as EB.
  set (W := [false; false] ++ [false; false; false; false; false] ++ low_first 16 (N.of_nat (length piece))
    ++ low_first 16 (65535 - N.of_nat (length piece)) ++ bits_of piece) in *.
  assert (LW : (length W = 7 + 8 * (4 + length piece))%nat).
  { unfold W. cbn [app length]. rewrite !app_length, !low_first_length, bits_of_length. lia. }
  rewrite (app_assoc _ piece), bits_of_app, EB in HD |- *. cbn [app] in HD |- *. rewrite <- app_assoc.
  apply MoreBlocks with (o1 := o ++ piece); [exact PB|]. cbn [length] in HD. rewrite app_length in HD.
  destruct rest as [|x rest]; unfold tail in *.
  - rewrite app_nil_r in ED. subst d. cbn [bits_of flat_map app length] in *.
    replace (pos + 1 + length W)%nat with (pos + S (length W + 0))%nat by lia. exact HD.
  - destruct L2 as [L2|L2]; [discriminate L2|]. apply IH; [assumption|assumption| |].
    + rewrite LW. replace (pos + 1 + (7 + 8 * (4 + length piece)))%nat with (pos + 8 * (5 + length piece))%nat by lia. now apply mod8_add.
    + rewrite <- app_assoc, ED.
      match goal with |- deflated ?a _ _ _ => match type of HD with deflated ?b _ _ _ => replace a with b by lia end end. exact HD.
Qed.
Lemma pieces_last fuel : forall pos o d, Forall byte d -> (length d < fuel)%nat -> (pos mod 8 = 0)%nat ->
  deflated pos o (o ++ d) (bits_of (stored_pieces true fuel d)).
Proof.
  induction fuel as [|fuel IH]; intros pos o d H Hf Hp; [lia|]. cbn [stored_pieces].
  assert (H1 : Forall byte (firstn (N.to_nat 65535) d)) by now apply part_bytes.
  assert (H2 : Forall byte (skipn (N.to_nat 65535) d)) by now apply part_bytes.
  assert (L : N.of_nat (length (firstn (N.to_nat 65535) d)) <= 65535) by (pose proof (firstn_le_length (N.to_nat 65535) d); lia).
  assert (L2 : skipn (N.to_nat 65535) d = [] \/ (length (skipn (N.to_nat 65535) d) < fuel)%nat).
  { destruct d; [left; now rewrite skipn_nil|]. right. rewrite skipn_length. cbn [length] in *. lia. }
  pose proof (firstn_skipn (N.to_nat 65535) d) as ED. revert H1 H2 L L2 ED.
  generalize (firstn (N.to_nat 65535) d) as piece. generalize (skipn (N.to_nat 65535) d) as rest. intros rest piece H1 H2 L L2 ED.
  pose proof (piece_block pos o piece H1 L Hp) as PB. pose proof (fun f => piece_bits f piece) as EB.
  set (W := [false; false] ++ [false; false; false; false; false] ++ low_first 16 (N.of_nat (length piece))
    ++ low_first 16 (65535 - N.of_nat (length piece)) ++ bits_of piece) in *.
  assert (LW : (length W = 7 + 8 * (4 + length piece))%nat).
  { unfold W. cbn [app length]. rewrite !app_length, !low_first_length, bits_of_length. lia. }
  destruct rest as [|x rest].
  - rewrite app_nil_r in ED |- *. subst d. rewrite (EB true). now apply LastBlock.
  - destruct L2 as [L2|L2]; [discriminate L2|]. rewrite (app_assoc _ piece), bits_of_app. rewrite (EB false). cbn [app].
    apply MoreBlocks with (o1 := o ++ piece); [exact PB|]. rewrite <- ED, app_assoc. apply IH; [assumption|assumption|].
    rewrite LW. replace (pos + 1 + (7 + 8 * (4 + length piece)))%nat with (pos + 8 * (5 + length piece))%nat by lia. now apply mod8_add.
Qed.

Lemma header_120 : zlib_header_bytes [120; 1].
Proof. exists 120, 1. repeat split; vm_compute; try reflexivity; discriminate. Qed.
Lemma store_stream d : Forall byte d -> zlib_stream d (store d).
Proof.
  intros H. exists [120; 1], (stored_pieces true (S (length d)) d). split; [reflexivity|]. split; [apply header_120|].
  split; [now apply pieces_bytes|]. exists (bits_of (stored_pieces true (S (length d)) d)), [].
  rewrite app_nil_r. split; [|split; [reflexivity|cbn; lia]]. apply (pieces_last (S (length d)) 0 [] d H); [lia|reflexivity].
Qed.
Lemma store_two_stream d1 d2 : Forall byte d1 -> Forall byte d2 -> zlib_stream (d1 ++ d2) (store_two d1 d2).
Proof.
  intros H1 H2. exists [120; 1], (stored_pieces false (S (length d1)) d1 ++ stored_pieces true (S (length d2)) d2).
  split; [unfold store_two; now rewrite <- app_assoc|]. split; [apply header_120|].
  split; [apply Forall_app; split; now apply pieces_bytes|].
  exists (bits_of (stored_pieces false (S (length d1)) d1) ++ bits_of (stored_pieces true (S (length d2)) d2)), [].
  rewrite app_nil_r, bits_of_app. split; [|split; [reflexivity|cbn; lia]].
  apply (pieces_before (S (length d1)) 0 [] d1); [assumption|lia|reflexivity|]. cbn [app plus].
  apply pieces_last; [assumption|lia|]. rewrite bits_of_length, Nat.mul_comm. apply Nat.mod_mul. lia.
Qed.
(** the reader at a block border where the data stops *)
Lemma pieces_flow fuel : forall pos o d, Forall byte d -> (length d < fuel)%nat -> (pos mod 8 = 0)%nat ->
  forall rest F, (length rest mod 8 = 0)%nat -> (length (bits_of (stored_pieces false fuel d)) <= F)%nat ->
  exists F', blocks_flow F (bits_of (stored_pieces false fuel d) ++ rest) (rev o) = blocks_flow F' rest (rev (o ++ d)).
Proof.
  induction fuel as [|fuel IH]; intros pos o d H Hf Hp more F Hm HF; [lia|]. cbn [stored_pieces] in *.
  assert (H1 : Forall byte (firstn (N.to_nat 65535) d)) by now apply part_bytes.
  assert (H2 : Forall byte (skipn (N.to_nat 65535) d)) by now apply part_bytes.
  assert (L : N.of_nat (length (firstn (N.to_nat 65535) d)) <= 65535) by (pose proof (firstn_le_length (N.to_nat 65535) d); lia).
  assert (L2 : skipn (N.to_nat 65535) d = [] \/ (length (skipn (N.to_nat 65535) d) < fuel)%nat).
  { destruct d; [left; now rewrite skipn_nil|]. right. rewrite skipn_length. cbn [length] in *. lia. }
  pose proof (firstn_skipn (N.to_nat 65535) d) as ED. revert H1 H2 L L2 ED HF.
  generalize (firstn (N.to_nat 65535) d) as piece. generalize (skipn (N.to_nat 65535) d) as rest. intros rest piece H1 H2 L L2 ED HF.
  replace (match rest with [] => if false then 1 else 0 | _ => 0 end) with (if false then 1 else 0) in * by (destruct rest; reflexivity).
  set (tail := match rest with [] => [] | _ => stored_pieces false fuel rest end) in *.
  pose proof (piece_block pos o piece H1 L Hp) as PB. pose proof (piece_bits false piece) as EB.
  set (W := [false; false] ++ [false; false; false; false; false] ++ low_first 16 (N.of_nat (length piece))
    ++ low_first 16 (65535 - N.of_nat (length piece)) ++ bits_of piece) in *.
  assert (LW : (length W = 7 + 8 * (4 + length piece))%nat).
  { unfold W. cbn [app length]. rewrite !app_length, !low_first_length, bits_of_length. lia. }
  rewrite (app_assoc _ piece), bits_of_app, EB in HF |- *. cbn [app] in HF |- *. rewrite <- app_assoc.
  cbn [length] in HF. rewrite app_length in HF. destruct F as [|F]; [lia|].
  destruct (one_block_is _ _ _ _ PB) as (t0 & t1 & b' & E & G).
  specialize (G (bits_of tail ++ more)).
  assert (Ga : ((pos + 1 + length (W ++ bits_of tail ++ more)) mod 8 = 0)%nat).
  { rewrite !app_length, LW, bits_of_length. 
    replace (pos + 1 + (7 + 8 * (4 + length piece) + (8 * length tail + length more)))%nat with (pos + length more + 8 * (5 + length piece + length tail))%nat by lia.
    apply mod8_add. rewrite Nat.add_mod, Hp, Hm by lia. reflexivity. }
  specialize (G Ga). rewrite E in *. cbn [app blocks_flow]. rewrite G. clear G Ga E PB EB W LW.
  destruct rest as [|x rest]; unfold tail in *.
  - rewrite app_nil_r in ED. subst d. exists F. reflexivity.
  - destruct L2 as [L2|L2]; [discriminate L2|].
    destruct (IH 0%nat (o ++ piece) (x :: rest) H2 L2 eq_refl more F Hm) as (F' & EF); [cbn [length] in HF; lia|].
    exists F'. rewrite EF, <- app_assoc, ED. reflexivity.
Qed.
Lemma blocks_flow_end F out : blocks_flow F [] out = (out, None).
Proof. destruct F; reflexivity. Qed.
Lemma store_two_cut d1 d2 : Forall byte d1 ->
  read_all (firstn (2 + length (stored_pieces false (S (length d1)) d1)) (store_two d1 d2)) = Some d1.
Proof.
  intros H. unfold store_two. rewrite firstn_app. change (length [120; 1]) with 2%nat.
  rewrite (firstn_all2 [120; 1]) by (cbn [length]; lia).
  replace (2 + length (stored_pieces false (S (length d1)) d1) - 2)%nat with (length (stored_pieces false (S (length d1)) d1)) by lia.
  rewrite firstn_app, Nat.sub_diag, firstn_all. cbn [firstn]. rewrite app_nil_r.
  unfold read_all. rewrite zlib_header_is by apply header_120. unfold inflate_flow. rewrite all_bits_of.
  destruct (pieces_flow (S (length d1)) 0 [] d1 H ltac:(lia) eq_refl [] (length (bits_of (stored_pieces false (S (length d1)) d1))) eq_refl ltac:(lia)) as (F' & E).
  rewrite app_nil_r in E. cbn [rev app] in E. rewrite E, blocks_flow_end. cbn [fst]. now rewrite rev_involutive.
Qed.
