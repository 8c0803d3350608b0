(** Specifications for the player. *)
From Verif Require Import GoBase PlaylistModel QueueModel PlayerModel.
Local Open Scope Z_scope.

(** Sample i of a chunk with the timestamp it must carry: startTime plus i sample periods,
    rounded down to a nanosecond. *)
Definition stamped (sr : Z) (c : chunk) (i : nat) (x : tsample) : Prop :=
  nth_error (c_samples c) i = Some (fst x) /\
  c_start c + Z.of_nat i * 1000000000 / sr = snd x.

(** [f] holds exactly the samples of the chunk, in order. *)
Definition stamped_all (sr : Z) (c : chunk) (f : list tsample) : Prop :=
  length f = length (c_samples c) /\
  forall i x, nth_error f i = Some x -> stamped sr c i x.

Inductive stamped_chunks (sr : Z) : list chunk -> list tsample -> Prop :=
| st_nil : stamped_chunks sr [] []
| st_cons c cs f fs : stamped_all sr c f -> stamped_chunks sr cs fs -> stamped_chunks sr (c :: cs) (f ++ fs).

(** The chunks queued after the last Init (chunks arriving before it are not played). *)
Fixpoint queued_from (ready : bool) (acts : list pl_act) : list chunk :=
  match acts with
  | [] => []
  | LInit :: r => queued_from true r
  | LQueue c :: r => if ready then c :: queued_from ready r else queued_from ready r
  | LRead :: r => queued_from ready r
  end.

(** ** Output of the player.

    [pos] says for every output slot which element of the feed it holds ([None]: silence). *)
Definition outputs (feed : list tsample) (pos : list (option nat)) (out : list slot) : Prop :=
  Forall2 (fun p o =>
     match p, o with
     | None, None => True
     | Some i, Some x => nth_error feed i = Some x /\ ts_nan x = false
     | _, _ => False
     end) pos out.

Definition nan_at (feed : list tsample) (i : nat) : Prop :=
  exists x, nth_error feed i = Some x /\ ts_nan x = true.

(** Whatever follows sample i in the output, it is sample i+1, unless that is a NaN. *)
Fixpoint consecutive (feed : list tsample) (pos : list (option nat)) : Prop :=
  match pos with
  | Some i :: ((p :: _) as r) => (p = Some (S i) \/ nan_at feed (S i)) /\ consecutive feed r
  | _ :: r => consecutive feed r
  | [] => True
  end.

(** No sample is played twice or out of feed order. *)
Fixpoint increasing (lo : nat) (pos : list (option nat)) : Prop :=
  match pos with
  | [] => True
  | None :: r => increasing lo r
  | Some i :: r => (lo <= i)%nat /\ increasing (S i) r
  end.

(** Timestamps never decrease along a list. *)
Fixpoint nondecreasing (l : list Z) : Prop :=
  match l with
  | a :: ((b :: _) as r) => a <= b /\ nondecreasing r
  | _ => True
  end.
Definition played (out : list slot) : list tsample :=
  concat (map (fun o => match o with Some x => [x] | None => [] end) out).

(** The feed follows the server's schedule: element i carries the timestamp of sample
    i mod size of chunk i / size. *)
Definition scheduled (start size sr : Z) (i : Z) : Z :=
  start + (i / size) * (size * 1000000000 / sr) + (i mod size) * 1000000000 / sr.
