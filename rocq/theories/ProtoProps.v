(** C103: the wire format is standard protobuf in both directions. *)
From Verif Require Import GoBase GoBaseFacts GoUtf8 GoUtf8Facts WireModel WireSpec WireProofs WireProps WireMoreSpec WireMoreProofs ProtoSpec ProtoProofs ProtoMore.
From Coq Require Import ZifyBool ZifyNat ZifyN.
Local Open Scope N_scope.

(** The reader accepts as message [m] exactly the standard frames of [m], however they are
    cut into pieces: all encodings of numbers, all orders of fields, explicit zeros, repeated
    scalars, packed and unpacked doubles, merged embedded messages, unknown fields of every
    wire type, types given as URLs. *)
Theorem C103_reads_standard : forall (w : wire_env) (pieces : list bytes) (m : message) (rest : bytes),
  (forall d x, Forall byte d -> zinflate w d = Some x -> Forall byte x) -> foreign w [] = None ->
  Forall byte (concat pieces) -> (forall n, m <> OtherMessage n) ->
  ((exists pieces', read_wire w pieces = Ok (Some m, pieces') /\ concat pieces' = rest)
   <-> exists f, concat pieces = f ++ rest /\ frame w m f).
Proof.
  intros w pieces m rest Hz Hfo Hb Ho. rewrite <- (good_iff w m (concat pieces) rest Hz Hb Ho). split.
  - intros (p' & H & <-). destruct (proj1 (read_wire_iff w pieces m Hfo) (ex_intro _ p' H)) as (r & G).
    rewrite (read_wire_rest w pieces m p' r H Hfo G). exact G.
  - intros G. destruct (proj2 (read_wire_iff w pieces m Hfo) (ex_intro _ rest G)) as (p' & H). exists p'. split; [exact H|].
    exact (read_wire_rest w pieces m p' rest H Hfo G).
Qed.
Print Assumptions C103_reads_standard.

(** What is sent is a standard frame of the message. *)
Theorem C103_writes_standard : forall (w : wire_env) (m : message) (f : bytes),
  (forall d x, Forall byte d -> zinflate w d = Some x -> Forall byte x) ->
  (forall d, Forall byte d -> Forall byte (zdeflate w d)) -> zlib_inverse w -> foreign w [] = None ->
  sendable w m -> frame_of w m f -> frame w m f.
Proof.
  intros w m f Hz Hz2 Hi Hfo Hs Hf. pose proof (frame_byte w m f Hz2 Hs Hf) as Hb.
  destruct (read_wire_frame w m f [f] [] Hi Hs Hf) as (c' & H1 & H2); [reflexivity|].
  assert (Ho : ours m) by (intros n ->; destruct Hs as [[] _]).
  destruct (proj1 (C103_reads_standard w [f] m [] Hz Hfo ltac:(cbn; rewrite app_nil_r; exact Hb) Ho)) as (g & E & G); [eauto|].
  cbn in E. rewrite !app_nil_r in E. subst g. exact G.
Qed.
Print Assumptions C103_writes_standard.

(** A newer sender may add fields this version does not know, anywhere in a message: it is
    read as if they were not there. *)
Lemma none_of {A B} (g : A -> list B) (P : A -> Prop) l : (forall a, P a -> g a = []) -> Forall P l -> flat_map g l = [].
Proof. intros H HP. induction HP as [|a l Ha HP IH]; [reflexivity|]. cbn. rewrite (H a Ha), IH. reflexivity. Qed.
Lemma without {A} (pick : N -> record -> list A) num fs1 extra fs2 :
  (forall n a b, pick n (a ++ b) = pick n a ++ pick n b) -> pick num extra = [] -> pick num (fs1 ++ extra ++ fs2) = pick num (fs1 ++ fs2).
Proof. intros H E. rewrite !H, E. reflexivity. Qed.
Lemma doubles_without num fs1 extra fs2 l : Forall (fun x : N * pvalue => fst x <> num) extra ->
  all_doubles num (fs1 ++ extra ++ fs2) l <-> all_doubles num (fs1 ++ fs2) l.
Proof.
  intros He. revert l. induction fs1 as [|f fs1 IH]; intros l; cbn [app].
  - induction He as [|[n v] extra Hn He IH]; [reflexivity|]. cbn [app fst] in *. rewrite <- IH. split.
    + intros H. inversion H; subst; try congruence.
    + intros H. apply D_other; [congruence|exact H].
  - split; intros H; inversion H; subst.
    + apply D_packed; [assumption|apply IH; assumption].
    + apply D_one; apply IH; assumption.
    + apply D_other; [assumption|apply IH; assumption].
    + apply D_packed; [assumption|apply IH; assumption].
    + apply D_one; apply IH; assumption.
    + apply D_other; [assumption|apply IH; assumption].
Qed.
Lemma means_without m fs1 extra fs2 : Forall (fun x => ~ In (fst x) (used m)) extra ->
  means (fs1 ++ extra ++ fs2) m <-> means (fs1 ++ fs2) m.
Proof.
  intros H.
  assert (NI : forall num, In num (used m) -> Forall (fun x : N * pvalue => fst x <> num) extra).
  { intros num Hi. eapply Forall_impl; [|exact H]. intros x Hx E. apply Hx. rewrite E. exact Hi. }
  assert (I : forall num, In num (used m) -> the_int num (fs1 ++ extra ++ fs2) = the_int num (fs1 ++ fs2)).
  { intros num Hi. unfold the_int. rewrite (without ints); [reflexivity|apply ints_app|].
    eapply none_of; [|exact (NI num Hi)]. intros x Hx. destruct (N.eqb_spec (fst x) num); [contradiction|reflexivity]. }
  assert (F : forall num, In num (used m) -> the_double num (fs1 ++ extra ++ fs2) = the_double num (fs1 ++ fs2)).
  { intros num Hi. unfold the_double. rewrite (without fix64s); [reflexivity|apply fix64s_app|].
    eapply none_of; [|exact (NI num Hi)]. intros x Hx. destruct (N.eqb_spec (fst x) num); [contradiction|reflexivity]. }
  assert (B : forall num, In num (used m) -> blocks num (fs1 ++ extra ++ fs2) = blocks num (fs1 ++ fs2)).
  { intros num Hi. rewrite (without blocks); [reflexivity|apply blocks_app|].
    eapply none_of; [|exact (NI num Hi)]. intros x Hx. destruct (N.eqb_spec (fst x) num); [contradiction|reflexivity]. }
  destruct m; unfold means, the_block; cbn [used] in *;
    rewrite ?I, ?F, ?B by (cbn; tauto); try reflexivity.
  rewrite !doubles_without by (apply NI; cbn; tauto). reflexivity.
Qed.
Theorem C103_newer_sender : forall (w : wire_env) (m : message) (f data : bytes) (before extra after : record) (pieces : list bytes) (rest : bytes),
  (forall d x, Forall byte d -> zinflate w d = Some x -> Forall byte x) -> foreign w [] = None ->
  Forall byte (concat pieces) -> (forall n, m <> OtherMessage n) ->
  concat pieces = f ++ rest -> carries w (type_name m) data f -> record_bytes (before ++ extra ++ after) data ->
  Forall (fun x => ~ In (fst x) (used m)) extra -> means (before ++ after) m ->
  exists pieces', read_wire w pieces = Ok (Some m, pieces') /\ concat pieces' = rest.
Proof.
  intros w m f data fs1 extra fs2 pieces rest Hz Hfo Hb Ho Hc Hca Hr He Hm.
  apply C103_reads_standard; try assumption. exists f. split; [exact Hc|]. exists data, (fs1 ++ extra ++ fs2).
  split; [exact Hca|]. split; [exact Hr|]. apply means_without; assumption.
Qed.
Print Assumptions C103_newer_sender.

(** A volume message from a newer sender: type given as URL, the number 1 in three forms,
    unknown fields of every wire type, the volume given twice. *)
Definition newer : bytes :=
  [8; 150; 128; 0] ++                              (* field 1 as a number: not a double, skipped *)
  [9] ++ repeat 7 8 ++                             (* a volume *)
  [21; 1; 2; 3; 4] ++                              (* field 2: four bytes *)
  [26; 2; 255; 255] ++                             (* field 3: bytes *)
  [35; 40; 1; 43; 49; 1; 2; 3; 4; 5; 6; 7; 8; 44; 36] ++ (* field 4: a group with a group inside *)
  [9; 0; 0; 0; 0; 0; 0; 240; 63].                  (* the volume 1.0 *)
Definition newer_env : bytes := [10; 23] ++ T "a/b/comm.SetVolumeReque" ++ [10; 25] ++ T "x.y/comm.SetVolumeRequest" ++ [18; 48; 120; 94] ++ newer.
Example C103_nonvacuous :
  read_wire toy_env [[N.of_nat (length newer_env); 0; 0]; [0; 0; 0; 0; 0] ++ newer_env ++ [1; 2]] =
    Ok (Some (SetVolumeRequest 0x3ff0000000000000), [[1; 2]]).
Proof. vm_compute. reflexivity. Qed.
Example C103_frame_nonvacuous :
  exists f, [N.of_nat (length newer_env); 0; 0; 0; 0; 0; 0; 0] ++ newer_env = f ++ [] /\ frame toy_env (SetVolumeRequest 0x3ff0000000000000) f.
Proof.
  apply (C103_reads_standard toy_env [[N.of_nat (length newer_env); 0; 0; 0; 0; 0; 0; 0] ++ newer_env]).
  - intros d x Hd. cbn. destruct d as [|a [|b d]]; try discriminate. destruct (_ && _)%bool; [|discriminate].
    intros H; injection H as <-. inversion Hd; subst. inversion H2; subst. assumption.
  - reflexivity.
  - vm_compute. repeat constructor.
  - discriminate.
  - eexists. split; [vm_compute; reflexivity|reflexivity].
Qed.
