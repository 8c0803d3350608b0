(** Who is authorised, in terms of the users file. *)
From Verif Require Import GoBase AuthModel.

(** The entry that counts for a user: the last one with the name. *)
Definition entry_of (users : list (text * user_auth)) (user : text) (auth : user_auth) : Prop :=
  exists before after, users = before ++ (user, auth) :: after /\ ~ In user (map fst after).

Section AuthSpec.
Variable key : Type.
Variable parse_public_key : text -> option key.
Variable marshal_key : key -> text.

(** The user exists and has proved knowledge of its (non-empty) password or possession of its key. *)
Definition authorised (users : list (text * user_auth)) (user : text) (a : attempt key) : Prop :=
  exists auth, entry_of users user auth /\
    match a with
    | NoAuth _ => False
    | Password _ p => u_password auth = p /\ p <> []
    | PublicKey _ k => u_pubkey auth <> [] /\
        exists k', parse_public_key (u_pubkey auth) = Some k' /\ marshal_key k' = marshal_key k
    end.
End AuthSpec.
