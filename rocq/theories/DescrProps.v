(** C115: the program's messages are those of packages.proto. *)
From Verif Require Import GoBase GoBaseFacts GoUtf8 WireModel WireSpec WireProps WireMoreSpec ProtoSpec ProtoProps DescrModel DescrSpec DescrProofs.
Local Open Scope N_scope.
Opaque layout compiled_file proto_marshal proto_unmarshal.

(** The descriptor compiled into the program can be unpacked (its check sum is right) and read,
    and it is the descriptor of packages.proto. *)
Theorem C115_descriptor : compiled_file = Some (file_descriptor packages_proto).
Proof. exact compiled_file_value. Qed.

(** Every Go type points to the message of the name it is registered under, which is the name
    sent with messages of the type, and has a coder for each of its fields. *)
Theorem C115_names :
  (forall t g, nth_error go_types t = Some g -> name_of_type t = Some (gt_registered g) /\ exists l, layout t = Some l /\ length l = length (gt_fields g)) /\
  (forall m, (forall n, m <> OtherMessage n) -> name_of_type (type_of m) = Some (message_name m)).
Proof.
  split.
  - intros t g E. rewrite layout_lay. unfold name_of_type. rewrite compiled_file_value.
    do 14 (destruct t as [|t]; [injection E as <-; split; [vm_compute; reflexivity|eexists; split; vm_compute; reflexivity]|]). destruct t; discriminate E.
  - intros m Ho. unfold name_of_type. rewrite compiled_file_value. destruct m; try (vm_compute; reflexivity). elim (Ho name eq_refl).
Qed.

(** What the library writes for a message by the compiled descriptor, and what it reads, for all
    messages and all bytes. *)
Theorem C115_marshal : forall m, (forall n, m <> OtherMessage n) -> proto_marshal (type_of m) (struct_of m) = marshal m.
Proof. intros m Ho. rewrite marshal_lay. exact (put_message 11 m Ho). Qed.
Theorem C115_unmarshal : forall w m b, In m empty_messages -> proto_unmarshal (type_of m) b = option_map struct_of (unmarshal w m b).
Proof.
  intros w m b I. assert (Ho : forall n, m <> OtherMessage n).
  { intros n ->. cbn [empty_messages In] in I. repeat (destruct I as [I|I]; [discriminate I|]). destruct I. }
  rewrite unmarshal_lay.
  assert (Z : zero_struct lay (type_of m) = struct_of m).
  { cbn [empty_messages In] in I. repeat (destruct I as [<-|I]; [reflexivity|]). destruct I. }
  rewrite Z. pose proof (take_message 11 b m Ho) as H. change (take_struct lay depth (type_of m) (struct_of m) b = option_map struct_of (decode fld_message m b)) in H.
  rewrite H. destruct m; try reflexivity. elim (Ho name eq_refl).
Qed.
(** the envelope around the messages *)
Theorem C115_envelope : forall type data b,
  proto_marshal 0 [VText type; VText data] = (if utf8_valid type then Some (enc_envelope type data) else None) /\
  proto_unmarshal 0 b = option_map (fun e => [VText (fst e); VText (snd e)]) (decode fld_envelope ([], []) b).
Proof.
  intros type data b. split.
  - rewrite marshal_lay. change depth with 14%nat. cbn [put_struct].
    change (lay 0%nat) with (Some [(1, CString); (2, CBytes)]). cbn iota. rewrite sorted_table by (unfold table; cbn [In]; auto).
    cbn [combine map fst snd put_field all_some]. destruct (utf8_valid type); [|reflexivity]. unfold enc_envelope. cbn [concat]. now rewrite app_nil_r.
  - rewrite unmarshal_lay.
    change (zero_struct lay 0%nat) with ((fun e : bytes * bytes => [VText (fst e); VText (snd e)]) ([], [])). change depth with 14%nat. cbn [take_struct].
    change (lay 0%nat) with (Some [(1, CString); (2, CBytes)]). cbn iota.
    apply (decode_map (fun e : bytes * bytes => [VText (fst e); VText (snd e)])).
    intros n wt [x y] b'. unfold fld_envelope. cbn [take_into take_field fst snd]. push. reflexivity.
Qed.

(** So what C29-C35 and C103 say holds for the messages as they are compiled: a frame made with
    the library by the compiled descriptor (package_util.go:30-56) is a standard frame of the
    message under packages.proto. *)
Theorem C115_frames : forall w m, (forall n, m <> OtherMessage n) -> compiled_to_wire w m = to_wire w m.
Proof.
  intros w m Ho. unfold compiled_to_wire, to_wire. rewrite C115_marshal by exact Ho. destruct (marshal m) as [inner|]; [|reflexivity].
  cbn [and_then]. rewrite (proj2 C115_names m Ho). cbn [and_then]. pose proof (proj1 (C115_envelope (message_name m) (zdeflate w inner) [])) as Env. rewrite Env. clear Env.
  assert (U : utf8_valid (message_name m) = true) by (destruct m; try (vm_compute; reflexivity); elim (Ho name eq_refl)). now rewrite U.
Qed.
Theorem C115_standard : forall (w : wire_env) (m : message) (f : bytes),
  (forall d x, Forall byte d -> zinflate w d = Some x -> Forall byte x) ->
  (forall d, Forall byte d -> Forall byte (zdeflate w d)) -> zlib_inverse w -> foreign w [] = None ->
  sendable w m -> compiled_to_wire w m = Some f -> frame w m f.
Proof.
  intros w m f Hz Hz2 Hi Hfo Hs Hf. assert (Ho : forall n, m <> OtherMessage n) by (intros n ->; destruct Hs as [[] _]).
  rewrite C115_frames in Hf by exact Ho. apply (C103_writes_standard w m f Hz Hz2 Hi Hfo Hs). exact Hf.
Qed.

(** a message with every kind of field, with a frame; bytes with fields out of order, unknown
    fields and an embedded message in two pieces; and text that is refused *)
Definition sample_song : message :=
  NewSongInfo 300 (T "a.mp3") (-1) [[(5%Z, T "la"); (0%Z, [])]; []] (Some (T "t", [], [195; 164])).
Definition sample_bytes : bytes := [42; 3; 10; 1; 120; 24; 7; 56; 9; 42; 3; 18; 1; 121; 34; 0; 8; 2].
Example C115_nonvacuous :
  (exists b, proto_marshal (type_of sample_song) (struct_of sample_song) = Some b /\ length b = 44%nat /\ proto_unmarshal 8 b = Some (struct_of sample_song)) /\
  proto_unmarshal 8 sample_bytes = Some (struct_of (NewSongInfo 2 [] 7 [[]] (Some ([120], [121], [])))) /\
  proto_marshal 8 (struct_of (NewSongInfo 0 [255] 0 [] None)) = None /\
  proto_unmarshal 8 [18; 1; 255] = None /\
  compiled_to_wire toy_env (SetVolumeRequest 5) <> None.
Proof.
  rewrite !C115_frames by discriminate. rewrite !marshal_lay, !unmarshal_lay.
  split; [eexists; split; [vm_compute; reflexivity|split; [vm_compute; reflexivity|]]|].
  - rewrite unmarshal_lay. vm_compute. reflexivity.
  - repeat split; try (vm_compute; reflexivity). vm_compute. discriminate.
Qed.

Print Assumptions C115_descriptor.
Print Assumptions C115_names.
Print Assumptions C115_marshal.
Print Assumptions C115_unmarshal.
Print Assumptions C115_envelope.
Print Assumptions C115_frames.
Print Assumptions C115_standard.
