(** Readable frames, for the exact characterisation of the receiver. *)
From Verif Require Import GoBase GoUtf8 WireModel WireSpec.

(** The stream [s] starts with a frame that reads as message [m] and is followed by [rest]:
    eight bytes of length, an envelope of that length naming a known message type, with a
    payload that decompresses to an encoding of a message of that type. *)
Definition good_frame (w : wire_env) (m : message) (s rest : bytes) : Prop :=
  exists header env type payload data m0,
    s = header ++ env ++ rest /\ length header = 8%nat
    /\ i64 (get_le header) = zlen env /\ (zlen env <= max_alloc)%Z
    /\ decode fld_envelope ([], []) env = Some (type, payload)
    /\ message_type w type = Some m0
    /\ zinflate w payload = Some data
    /\ unmarshal w m0 data = Some m.

(** The stream starts with readable frames for the messages [ms]. *)
Inductive good_frames (w : wire_env) : list message -> bytes -> bytes -> Prop :=
| GoodNil s : good_frames w [] s s
| GoodCons m ms s r rest : good_frame w m s r -> good_frames w ms r rest -> good_frames w (m :: ms) s rest.
