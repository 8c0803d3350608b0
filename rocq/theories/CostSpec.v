(** What reading a frame may cost. *)
From Verif Require Import GoBase GoUtf8 WireModel WireSpec ProtoSpec.
Definition total (l : list Z) : Z := fold_right Z.add 0%Z l.
(** The stream starts with a frame, all of which has arrived, that announces [size] bytes. *)
Definition whole_frame (s : bytes) (size : Z) : Prop :=
  (8 <= length s)%nat /\ Z.of_N (le_value (firstn 8 s)) = size /\ (size + 8 <= zlen s)%Z.
