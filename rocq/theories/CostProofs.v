From Verif Require Import GoBase GoBaseFacts GoUtf8 GoUtf8Facts WireModel WireSpec WireProofs ProtoSpec ProtoProofs ProtoMore
  DescrModel ZlibModel ZlibSpec ZlibProofs ZlibCutProofs CostModel CostSpec.
From Coq Require Import ZifyBool ZifyNat ZifyN.
Local Open Scope N_scope.

(** * Decompression makes at most 129 bytes of a bit *)
Lemma get_symbol_takes table : forall c f bs s r, get_symbol table c f bs = Some (s, r) -> (length r + 1 <= length bs)%nat.
Proof.
  induction table as [|sy table IH]; intros c f bs s r H; cbn [get_symbol] in H; [discriminate H|].
  destruct bs as [|x bs]; [discriminate H|]. cbn [length].
  destruct (2 * c + (if x then 1 else 0) <? 2 * f + N.of_nat (length sy)); [injection H as _ <-; lia|].
  specialize (IH _ _ _ _ _ H). lia.
Qed.
Lemma copy_back_length n d : forall out out', copy_back n d out = Some out' -> length out' = (n + length out)%nat.
Proof.
  induction n as [|n IH]; intros out out' H; cbn [copy_back] in H; [injection H as <-; reflexivity|].
  destruct (nth_error out d); [|discriminate H]. rewrite (IH _ _ H). cbn [length]. lia.
Qed.
Lemma nth_le (P : N -> bool) (l : list N) i x : nth_error l i = Some x -> forallb P l = true -> P x = true.
Proof. intros H F. rewrite forallb_forall in F. apply F. eapply nth_error_In. exact H. Qed.
Lemma length_at i base extra : nth_error length_base i = Some base -> nth_error length_extra i = Some extra -> base + 2 ^ N.of_nat extra <= 259.
Proof.
  intros H1 H2. assert (L : (i < 29)%nat) by (change 29%nat with (length length_base); apply nth_error_Some; rewrite H1; discriminate).
  do 29 (destruct i as [|i]; [cbn in H1, H2; injection H1 as <-; injection H2 as <-; cbn; lia|]). lia.
Qed.
Lemma get_copy_takes dist s bs len d r : get_copy dist s bs = Some (len, d, r) -> (len <= 258 /\ length r + 1 <= length bs)%nat.
Proof.
  unfold get_copy. intros H.
  destruct (nth_error length_base _) as [base|] eqn:B1; [|discriminate H]. destruct (nth_error length_extra _) as [extra|] eqn:B2; [|discriminate H].
  destruct (get_bits extra bs) as [[e r1]|] eqn:E1; [|discriminate H]. pose proof (get_bits_len _ _ _ _ E1). pose proof (get_bits_bound _ _ _ _ E1).
  destruct (get_symbol dist 0 0 r1) as [[ds r2]|] eqn:E2; [|discriminate H]. pose proof (get_symbol_takes _ _ _ _ _ _ E2).
  destruct (nth_error dist_base _) as [dbase|]; [|discriminate H]. destruct (nth_error dist_extra _) as [dextra|]; [|discriminate H].
  destruct (get_bits dextra r2) as [[de r3]|] eqn:E3; [|discriminate H]. pose proof (get_bits_len _ _ _ _ E3).
  injection H as <- _ <-. pose proof (length_at _ _ _ B1 B2). lia.
Qed.
(** [out] was there, [n] bits are left *)
Definition cheap (n : nat) (out : bytes) (f : flow) : Prop :=
  (length (fst f) + 129 * match snd f with Some r => length r | None => 0 end <= length out + 129 * n)%nat.
Lemma cheap_stop n out : cheap n out (out, None).
Proof. unfold cheap. cbn [fst snd]. lia. Qed.
Lemma block_cheap fuel least lit dist : forall bs out, cheap (length bs) out (block_flow fuel least lit dist bs out).
Proof.
  induction fuel as [|fuel IH]; intros bs out; cbn [block_flow]; [apply cheap_stop|].
  destruct (if (length bs <? least)%nat then _ else _) as [[s r]|] eqn:E; [|apply cheap_stop].
  destruct (length bs <? least)%nat; [discriminate E|]. pose proof (get_symbol_takes _ _ _ _ _ _ E).
  destruct (s <? 256). { specialize (IH r (s :: out)). unfold cheap in *. cbn [length] in IH. lia. }
  destruct (s =? 256). { unfold cheap. cbn [fst snd]. lia. }
  destruct (get_copy dist s r) as [[[len d] r']|] eqn:E2; [|apply cheap_stop]. destruct (get_copy_takes _ _ _ _ _ _ E2).
  destruct (copy_back len (d - 1) out) as [out'|] eqn:E3; [|apply cheap_stop]. pose proof (copy_back_length _ _ _ _ E3).
  specialize (IH r' out'). unfold cheap in *. lia.
Qed.
Lemma stored_cheap n : forall bs out, cheap (length bs) out (stored_flow n bs out).
Proof.
  induction n as [|n IH]; intros bs out; cbn [stored_flow]; [unfold cheap; cbn [fst snd]; lia|].
  destruct (get_bits 8 bs) as [[x r]|] eqn:E; [|apply cheap_stop]. pose proof (get_bits_len _ _ _ _ E).
  specialize (IH r (x :: out)). unfold cheap in *. cbn [length] in IH. lia.
Qed.
Lemma get_many_len k n : forall bs l r, get_many k n bs = Some (l, r) -> (length r <= length bs)%nat.
Proof.
  induction k as [|k IH]; intros bs l r H; cbn [get_many] in H; [injection H as _ <-; lia|].
  destruct (get_bits n bs) as [[v r1]|] eqn:E; [|discriminate H]. pose proof (get_bits_len _ _ _ _ E).
  destruct (get_many k n r1) as [[l' r2]|] eqn:E2; [|discriminate H]. specialize (IH _ _ _ E2). injection H as _ <-. lia.
Qed.
Lemma code_lengths_len table f : forall want bs acc l r, code_lengths f table want bs acc = Some (l, r) -> (length r <= length bs)%nat.
Proof.
  induction f as [|f IH]; intros want bs acc l r H; cbn [code_lengths] in H.
  - destruct (want =? 0); [injection H as _ <-; lia|discriminate H].
  - destruct (want =? 0); [injection H as _ <-; lia|].
    destruct (get_symbol table 0 0 bs) as [[s r1]|] eqn:E; [|discriminate H]. pose proof (get_symbol_takes _ _ _ _ _ _ E).
    destruct (s <? 16); [specialize (IH _ _ _ _ _ H); lia|].
    destruct (if s =? 16 then _ else _) as [[[x base] extra]|]; [|discriminate H].
    destruct (get_bits extra r1) as [[e r2]|] eqn:E2; [|discriminate H]. pose proof (get_bits_len _ _ _ _ E2).
    destruct (want <? base + e); [discriminate H|]. specialize (IH _ _ _ _ _ H). lia.
Qed.
Lemma read_huffman_len bs lit dist r : read_huffman bs = Some (lit, dist, r) -> (length r <= length bs)%nat.
Proof.
  unfold read_huffman. intros H.
  destruct (get_bits 5 bs) as [[hlit r1]|] eqn:E1; [|discriminate H]. pose proof (get_bits_len _ _ _ _ E1). destruct (286 <? hlit + 257); [discriminate H|].
  destruct (get_bits 5 r1) as [[hdist r2]|] eqn:E2; [|discriminate H]. pose proof (get_bits_len _ _ _ _ E2). destruct (30 <? hdist + 1); [discriminate H|].
  destruct (get_bits 4 r2) as [[hclen r3]|] eqn:E3; [|discriminate H]. pose proof (get_bits_len _ _ _ _ E3).
  destruct (get_many (N.to_nat (hclen + 4)) 3 r3) as [[cl r4]|] eqn:E4; [|discriminate H]. pose proof (get_many_len _ _ _ _ _ E4).
  destruct (negb (code_ok (in_order cl))); [discriminate H|].
  destruct (code_lengths (length r4) (code_table (in_order cl)) (hlit + 257 + (hdist + 1)) r4 []) as [[ls r5]|] eqn:E5; [|discriminate H].
  pose proof (code_lengths_len _ _ _ _ _ _ _ E5). destruct (code_ok _ && code_ok _)%bool; [|discriminate H]. injection H as _ _ <-. lia.
Qed.
Lemma cheap_more a b out f : (a <= b)%nat -> cheap a out f -> cheap b out f.
Proof. unfold cheap. lia. Qed.
Lemma one_block_cheap t0 t1 bs out : cheap (length bs) out (one_block t0 t1 bs out).
Proof.
  destruct t0, t1; cbn [one_block]; try apply cheap_stop; try apply block_cheap.
  - destruct (read_huffman bs) as [[[lit dist] r]|] eqn:E; [|apply cheap_stop]. eapply cheap_more; [exact (read_huffman_len _ _ _ _ E)|apply block_cheap].
  - unfold stored_block. destruct (get_bits _ bs) as [[v1 r1]|] eqn:E1; [|apply cheap_stop]. pose proof (get_bits_len _ _ _ _ E1).
    destruct (get_bits 16 r1) as [[v2 r2]|] eqn:E2; [|apply cheap_stop]. pose proof (get_bits_len _ _ _ _ E2).
    destruct (get_bits 16 r2) as [[v3 r3]|] eqn:E3; [|apply cheap_stop]. pose proof (get_bits_len _ _ _ _ E3).
    destruct (v2 + v3 =? 65535); [|apply cheap_stop]. eapply cheap_more; [|apply stored_cheap]. lia.
Qed.
Lemma blocks_cheap fuel : forall bs out, cheap (length bs) out (blocks_flow fuel bs out).
Proof.
  induction fuel as [|fuel IH]; intros bs out; cbn [blocks_flow]; [apply cheap_stop|].
  destruct bs as [|final [|t0 [|t1 r]]]; try apply cheap_stop. pose proof (one_block_cheap t0 t1 r out) as G.
  destruct (one_block t0 t1 r out) as [out' [r'|]]; unfold cheap in *; cbn [fst snd length] in *; [|lia].
  destruct final; cbn [fst snd]; [lia|]. specialize (IH r' out'). lia.
Qed.
Lemma zlib_header_len b r : zlib_header b = Some r -> (length r + 2 <= length b)%nat.
Proof.
  unfold zlib_header. destruct b as [|cmf [|flg b]]; try discriminate. destruct (_ && _)%bool; [|discriminate].
  destruct (N.testbit flg 5); [|intros H; injection H as <-; cbn [length]; lia].
  destruct b as [|x [|y [|z [|u b]]]]; try discriminate. destruct (_ && _)%bool; [|discriminate]. intros H. injection H as <-. cbn [length]. lia.
Qed.
Lemma read_all_cheap z d : read_all z = Some d -> (length d <= 1032 * length z)%nat.
Proof.
  unfold read_all. destruct (zlib_header z) as [r|] eqn:E; [|discriminate]. intros H. injection H as <-. rewrite rev_length.
  pose proof (zlib_header_len _ _ E). pose proof (blocks_cheap (length (all_bits r)) (all_bits r) []) as G.
  fold (inflate_flow r) in G. unfold cheap in G. rewrite all_bits_of, bits_of_length in G. cbn [length] in G. lia.
Qed.

(** * The body of an envelope is part of it *)
Lemma blocks_len num fs b : record_bytes fs b -> Forall (fun x : bytes => (length x <= length b)%nat) (ProtoSpec.blocks num fs).
Proof.
  induction 1 as [|n v b fs r Hf Hr IH]; [constructor|]. unfold ProtoSpec.blocks in *. cbn [flat_map fst snd]. apply Forall_app. split.
  - destruct (n =? num); [|constructor]. destruct v; try constructor; [|constructor].
    inversion Hf; subst. rewrite !app_length. lia.
  - eapply Forall_impl; [|exact IH]. cbn beta. intros x Hx. rewrite app_length. lia.
Qed.
Lemma the_block_len num fs b : record_bytes fs b -> (length (the_block num fs) <= length b)%nat.
Proof.
  intros H. pose proof (blocks_len num fs b H) as F. unfold the_block. destruct (ProtoSpec.blocks num fs) as [|x l] eqn:E; [cbn; lia|].
  rewrite <- E in *. rewrite Forall_forall in F. apply F. rewrite E. clear. revert x. induction l as [|y l IH]; intros x; [now left|]. right. apply IH.
Qed.
Lemma envelope_len env type body : Forall byte env -> decode fld_envelope ([], []) env = Some (type, body) -> (length body <= length env)%nat.
Proof.
  intros Hb H. apply (decode_iff _ _ _ _ _ impl_envelope reads_envelope Hb) in H. destruct H as (efs & H1 & H2).
  apply run_envelope in H2. destruct H2 as [_ H2]. injection H2 as _ ->. now apply the_block_len.
Qed.
