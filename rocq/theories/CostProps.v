(** C118: what reading a frame costs. *)
From Verif Require Import GoBase GoBaseFacts GoUtf8 GoUtf8Facts WireModel WireSpec WireProofs WireProps ProtoSpec ProtoProofs ProtoMore
  DescrModel ZlibModel ZlibSpec ZlibProofs ZlibCutProofs ZlibProps CostModel CostSpec CostProofs.
From Coq Require Import ZifyBool ZifyNat ZifyN.
Local Open Scope N_scope.

(** Decompressed data is at most 1032 times as long as what it came in - for every body,
    standard or not. *)
Theorem C118_expansion : forall z d : bytes, read_all z = Some d -> (length d <= 1032 * length z)%nat.
Proof. exact read_all_cheap. Qed.
Print Assumptions C118_expansion.

(** A frame that has arrived takes at most 1033 times its own size, whatever is in it and
    however it was split on the way. *)
Theorem C118_complete_partial : forall compress types (pieces : list bytes) (size : Z),
  Forall byte (concat pieces) -> whole_frame (concat pieces) size -> (size <= 2 ^ 48)%Z ->
  (total (frame_costs (program_env compress types) pieces) <= 1033 * (8 + size))%Z.
Proof.
  intros compress types pieces size Hb (H8 & Hsz & Hall) Hmax.
  assert (S0 : (0 <= size)%Z) by lia.
  unfold frame_costs. unfold read_bytes at 1. cbn [Z.ltb Z.compare orb]. change (max_alloc <? 8)%Z with false. cbn [orb].
  destruct (read_loop_spec pieces 8 []) as (c1 & -> & Hc1); [unfold zlen; lia|]. cbn [app]. change (Z.to_nat 8) with 8%nat in *.
  assert (Bs : Forall byte (firstn 8 (concat pieces))) by now apply part_bytes.
  assert (Es : i64 (get_le (firstn 8 (concat pieces))) = size).
  { rewrite get_le_value. unfold i64. rewrite Hsz. apply wrap64_id. unfold in_int64. lia. }
  cbv zeta. rewrite Es. unfold read_bytes. replace ((size <? 0)%Z || (max_alloc <? size)%Z)%bool with false by (unfold max_alloc; lia).
  destruct (read_loop_spec c1 size []) as (c2 & -> & Hc2).
  { rewrite Hc1. unfold zlen in *. rewrite skipn_length. lia. }
  cbn [app]. set (env := firstn (Z.to_nat size) (concat c1)).
  assert (Be : Forall byte env).
  { unfold env. rewrite Hc1. apply part_bytes. rewrite <- (firstn_skipn 8 (concat pieces)) in Hb. apply Forall_app in Hb. apply Hb. }
  assert (Le : (length env <= Z.to_nat size)%nat) by (unfold env; rewrite firstn_length; lia).
  destruct (decode fld_envelope ([], []) env) as [[type body]|] eqn:E; cbn [total fold_right]; [|lia].
  pose proof (envelope_len env type body Be E).
  destruct (message_type _ type); cbn [total fold_right]; [|lia]. cbn [program_env zinflate].
  destruct (read_all body) as [data|] eqn:E2; cbn [total fold_right]; [|lia].
  pose proof (read_all_cheap _ _ E2). unfold zlen. lia.
Qed.
Print Assumptions C118_complete_partial.

(** But the whole announced size is set aside as soon as the eight bytes that announce it have
    arrived: eight bytes suffice for 2^48. *)
Theorem C118_reserve_refuted : forall w (size : Z), (0 <= size <= 2 ^ 48)%Z ->
  exists header rest, length header = 8%nat /\ Forall byte header
    /\ forall pieces, concat pieces = header -> frame_costs w pieces = 8%Z :: size :: rest.
Proof.
  intros w size H.
  exists (put_le 8 (Z.to_N size)), (tl (tl (frame_costs w [put_le 8 (Z.to_N size)]))).
  split; [reflexivity|]. split; [apply put_le_byte|]. intros pieces Hp.
  assert (G : forall c, concat c = put_le 8 (Z.to_N size) -> exists c1, concat c1 = [] /\ read_loop 8 [] c = (Some (put_le 8 (Z.to_N size)), c1)).
  { intros c Hc. destruct (read_loop_spec c 8 []) as (c1 & R & H1); [rewrite Hc; vm_compute; discriminate|]. exists c1.
    rewrite Hc in R, H1. split; [exact H1|exact R]. }
  assert (V : forall c1, concat c1 = [] -> size = 0%Z /\ read_loop size [] c1 = (Some [], c1) \/ exists c2, read_loop size [] c1 = (None, c2)).
  { intros c1. destruct (size =? 0)%Z eqn:E0.
    - intros _. left. split; [lia|]. assert (size = 0%Z) as -> by lia. destruct c1; reflexivity.
    - intros H1. right. induction c1 as [|p c1 IH]; cbn [read_loop]; replace (size <=? 0)%Z with false by lia; [now eexists|].
      cbn [concat] in H1. apply app_eq_nil in H1. destruct H1 as [-> H1].
      replace (zlen [] <=? size)%Z with true by (unfold zlen; cbn [length]; lia). unfold zlen. cbn [length app]. rewrite Z.sub_0_r. now apply IH. }
  assert (F : forall c, concat c = put_le 8 (Z.to_N size) ->
     frame_costs w c = 8%Z :: size :: match decode fld_envelope ([], []) [] with
                         | Some (type, body) => match message_type w type, zinflate w body with Some _, Some data => [zlen data] | _, _ => [] end
                         | None => [] end).
  { intros c Hc. destruct (G c Hc) as (c1 & H1 & R). unfold frame_costs. unfold read_bytes at 1. change ((8 <? 0)%Z || (max_alloc <? 8)%Z)%bool with false.
    rewrite R. cbv zeta. rewrite get_put_le by (change (256 ^ N.of_nat 8) with (2 ^ 64); lia).
    unfold i64. rewrite Z2N.id by lia. rewrite wrap64_id by (unfold in_int64; lia).
    unfold read_bytes. replace ((size <? 0)%Z || (max_alloc <? size)%Z)%bool with false by (unfold max_alloc; lia).
    destruct (V c1 H1) as [[_ ->]|[c2 ->]]; reflexivity. }
  rewrite (F pieces Hp), (F [put_le 8 (Z.to_N size)]); [reflexivity|]. cbn [concat]. apply app_nil_r.
Qed.
Print Assumptions C118_reserve_refuted.

(** The factor 1032 is reached: streams a compressor may write, of n + 20 bytes, give 1 + 1032 n. *)
Lemma low_first_of : forall bs : list bool, exists v, low_first (length bs) v = bs /\ v < 2 ^ N.of_nat (length bs).
Proof.
  induction bs as [|x bs (v & E & B)]; [exists 0; split; [reflexivity|cbn; lia]|]. exists (2 * v + (if x then 1 else 0)).
  cbn [length low_first]. replace (N.of_nat (S (length bs))) with (N.succ (N.of_nat (length bs))) by lia. rewrite N.pow_succ_r'.
  replace ((2 * v + (if x then 1 else 0)) / 2) with v by (destruct x; lia). rewrite E. split; [|destruct x; lia]. f_equal.
  destruct x; [rewrite N.odd_add, N.odd_mul; reflexivity|rewrite N.add_0_r, N.odd_mul; reflexivity].
Qed.
Lemma pack n : forall bs : list bool, length bs = (8 * n)%nat -> exists body, Forall byte body /\ bits_of body = bs /\ length body = n.
Proof.
  induction n as [|n IH]; intros bs L. { destruct bs; [|discriminate L]. exists []. repeat split. constructor. }
  destruct (low_first_of (firstn 8 bs)) as (v & E & B).
  assert (L8 : length (firstn 8 bs) = 8%nat) by (rewrite firstn_length; lia). rewrite L8 in E, B.
  destruct (IH (skipn 8 bs)) as (body & H1 & H2 & H3); [rewrite skipn_length; lia|].
  exists (v :: body). split; [apply Forall_cons; [exact B|exact H1]|]. split; [|cbn [length]; lia].
  unfold bits_of in *. cbn [flat_map]. rewrite E, H2. apply firstn_skipn.
Qed.
Lemma up_to_7 l : forallb (fun x => x <=? 7) l = true -> Forall (fun x => x <= 7) l.
Proof. intros H. apply Forall_forall. rewrite forallb_forall in H. intros x Hx. specialize (H x Hx). cbn beta in H. lia. Qed.
Definition bomb_lit : list N := [2] ++ repeat 0 255 ++ [2] ++ repeat 0 28 ++ [1].
Definition bomb_dist : list N := [1].
Definition bomb_cl : list N := [0; 2; 2] ++ repeat 0 15 ++ [1].
Lemma bomb_copies j : forall m, coded bomb_lit bomb_dist (repeat 0 (S m)) (repeat 0 (S (m + 258 * j))) (repeat false (2 * j)).
Proof.
  induction j as [|j IH]; intros m.
  - replace (m + 258 * 0)%nat with m by lia. apply CodedNil.
  - replace (repeat false (2 * S j)) with (symbol_bits bomb_lit 285 ++ low_first 0 0 ++ symbol_bits bomb_dist 0 ++ low_first 0 0 ++ repeat false (2 * j)).
    2:{ replace (2 * S j)%nat with (S (S (2 * j))) by lia. vm_compute (symbol_bits bomb_lit 285). vm_compute (symbol_bits bomb_dist 0). reflexivity. }
    apply (CodedCopy _ _ _ (repeat 0 258) 258 1 285 0 0 0 0 0).
    + apply LenMax.
    + exact (DistShort 0 ltac:(lia)).
    + vm_compute. reflexivity.
    + vm_compute. reflexivity.
    + rewrite repeat_length. lia.
    + rewrite repeat_length. lia.
    + intros i _. rewrite <- repeat_app. rewrite !nth_repeat. reflexivity.
    + rewrite <- repeat_app. specialize (IH (m + 258)%nat).
      replace (S m + 258)%nat with (S (m + 258)) by lia. replace (m + 258 * S j)%nat with (m + 258 + 258 * j)%nat by lia. exact IH.
Qed.
Lemma bomb_runs : exists runs, length_runs bomb_cl [] (bomb_lit ++ bomb_dist) runs /\ length runs = 32%nat.
Proof.
  eexists. split.
  eapply (RunsOne _ _ 2); [lia|vm_compute; reflexivity|].
  eapply (RunsMany _ _ 138); [lia|vm_compute; reflexivity|].
  eapply (RunsMany _ _ 117); [lia|vm_compute; reflexivity|].
  eapply (RunsOne _ _ 2); [lia|vm_compute; reflexivity|].
  eapply (RunsMany _ _ 28); [lia|vm_compute; reflexivity|].
  eapply (RunsOne _ _ 1); [lia|vm_compute; reflexivity|].
  eapply (RunsOne _ _ 1); [lia|vm_compute; reflexivity|].
  apply RunsNil.
  vm_compute. reflexivity.
Qed.
Theorem C118_expansion_reached : forall n : nat, exists z,
  zlib_stream (repeat 0 (1 + 1032 * n)) z /\ length z = (n + 20)%nat
  /\ read_all z = Some (repeat 0 (1 + 1032 * n)).
Proof.
  intros n. destruct bomb_runs as (runs & Hr & Lr).
  assert (Hc : coded bomb_lit bomb_dist [] (repeat 0 (1 + 1032 * n)) (symbol_bits bomb_lit 0 ++ repeat false (2 * (4 * n)))).
  { apply CodedByte; [lia|vm_compute; reflexivity|]. replace (1 + 1032 * n)%nat with (S (0 + 258 * (4 * n))) by lia. apply (bomb_copies (4 * n) 0). }
  pose proof (DynamicBlock 1 [] (repeat 0 (1 + 1032 * n)) bomb_cl 18 bomb_lit bomb_dist runs
                (symbol_bits bomb_lit 0 ++ repeat false (2 * (4 * n))) eq_refl) as B.
  assert (Hblock : exists bits, block 1 [] (repeat 0 (1 + 1032 * n)) bits /\ length bits = (106 + 8 * n)%nat).
  { eexists. split.
    - apply B; try exact Hr; try exact Hc.
      + apply up_to_7. reflexivity.
      + split; [apply up_to_15; reflexivity|left; vm_compute; reflexivity].
      + lia.
      + intros i Hi. assert (i = 18%nat) as -> by lia. reflexivity.
      + vm_compute. lia.
      + vm_compute. lia.
      + split; [apply up_to_15; reflexivity|left; vm_compute; reflexivity].
      + split; [apply up_to_15; reflexivity|right; left; reflexivity].
      + vm_compute. reflexivity.
    - rewrite !app_length, repeat_length, Lr.
      vm_compute (length (low_first 5 _)). vm_compute (length (low_first 4 _)). vm_compute (length (flat_map _ _)). vm_compute (length (symbol_bits bomb_lit 0)).
      vm_compute (length (symbol_bits bomb_lit 256)). cbn [length]. lia. }
  destruct Hblock as (bits & Hbl & Lb).
  destruct (pack (14 + n) ((true :: bits) ++ repeat false 5)) as (body & P1 & P2 & P3); [rewrite app_length, repeat_length; cbn [length]; lia|].
  assert (Z : zlib_stream (repeat 0 (1 + 1032 * n)) ([120; 1] ++ body ++ big_endian (adler (repeat 0 (1 + 1032 * n))))).
  { exists [120; 1], body. split; [reflexivity|]. split; [exists 120, 1; repeat split; vm_compute; try reflexivity; discriminate|].
    split; [exact P1|]. exists (true :: bits), (repeat false 5). split; [now apply LastBlock|]. split; [exact P2|cbn; lia]. }
  eexists. split; [exact Z|]. split; [|now apply C117_standard_streams].
  rewrite !app_length, P3. change (length (big_endian (adler (repeat 0 (1 + 1032 * n))))) with 4%nat. cbn [length]. lia.
Qed.
Print Assumptions C118_expansion_reached.

(** A pause message, complete: three small buffers. *)
Example C118_example : let w := program_env store (fun _ => None) in
  match to_wire w (PauseInfo true 5) with
  | None => False
  | Some f => whole_frame f (zlen f - 8) /\ Forall byte f /\ frame_costs w [firstn 3 f; skipn 3 f] = [8; zlen f - 8; 4]%Z
  end.
Proof.
  set (w := program_env _ _). set (f := to_wire w (PauseInfo true 5)). vm_compute in f. subst f. cbv iota.
  split; [|split; [|vm_compute; reflexivity]].
  - split; [vm_compute; lia|]. split; [vm_compute; reflexivity|vm_compute; discriminate].
  - match goal with |- Forall byte ?l => assert (F : forallb (fun x => x <? 256) l = true) by (vm_compute; reflexivity) end.
    apply Forall_forall. intros x Hx. rewrite forallb_forall in F. specialize (F x Hx). unfold byte. lia.
Qed.
(** And eight bytes that cost 2^48. *)
Example C118_reserve_example : frame_costs (program_env store (fun _ => None)) [[0; 0; 0; 0; 0; 0; 1; 0]] = [8; 2 ^ 48]%Z.
Proof. vm_compute. reflexivity. Qed.
