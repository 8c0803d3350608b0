(** Model of the two sample channels between StreamLoop and Fill
    (playback/playlist.go:126-130, 216-224, 268-272). *)
From Verif Require Import GoBase PlaylistModel.
Local Open Scope Z_scope.

(** The goroutine running StreamLoop, inside pushSample (playlist.go:126-130). *)
Inductive producer :=
| PIdle                              (* between two calls of pushSample *)
| PSendLow (l h : f64)               (* line 127: pl.low <- low *)
| PSendHigh (h : f64)                (* line 128: pl.high <- high *)
| PIncr.                             (* line 129: pl.sampleIndexWrite++ *)

(** Fill (playlist.go:216-224) and its two copyFloatChannel goroutines (268-272):
    [gl], [gh] are the values already stored in low[0..], high[0..]. *)
Inductive filler :=
| FIdle
| FRun (k : nat) (gl gh : list f64).

(** the fields of Playlist that matter here (playlist.go:16-35, made at 253-266) and where the goroutines stand *)
Record cstate := {
  cap : nat;                         (* bufferSize of NewPlaylist *)
  lowq : list f64;                   (* contents of pl.low, oldest first *)
  highq : list f64;
  prod : producer;
  fill : filler;
  idx_w : Z;                         (* sampleIndexWrite *)
  idx_r : Z;                         (* sampleIndexRead *)
  (* history, not part of the program state *)
  hist : list sample;                (* arguments of all calls of pushSample so far *)
  returned : list (Z * list f64 * list f64)  (* result and filled slices of every returned Fill *)
}.

(** the atomic steps of playlist.go:126-130, 216-224 and 268-272 *)
Inductive caction :=
| CPush (x : sample) | CSendLow | CSendHigh | CIncr       (* StreamLoop goroutine *)
| CFill (k : nat) | CRecvLow | CRecvHigh | CReturn.       (* Fill caller and its goroutines *)

(** playlist.go:253-266 (NewPlaylist) *)
Definition init_chan (c : nat) : cstate :=
  {| cap := c; lowq := []; highq := []; prod := PIdle; fill := FIdle; idx_w := 0; idx_r := 0;
     hist := []; returned := [] |}.

(** One atomic step; [None] when the goroutine is not there or blocks (send on a full
    channel, receive from an empty one; line numbers of playlist.go). *)
Definition cstep (s : cstate) (a : caction) : option cstate :=
  match a with
  | CPush (l, h) =>                                                   (* 126 *)
      match prod s with
      | PIdle => Some {| cap := cap s; lowq := lowq s; highq := highq s; prod := PSendLow l h; fill := fill s;
                         idx_w := idx_w s; idx_r := idx_r s; hist := hist s ++ [(l, h)]; returned := returned s |}
      | _ => None
      end
  | CSendLow =>                                                       (* 127 *)
      match prod s with
      | PSendLow l h =>
          if (length (lowq s) <? cap s)%nat
          then Some {| cap := cap s; lowq := lowq s ++ [l]; highq := highq s; prod := PSendHigh h; fill := fill s;
                       idx_w := idx_w s; idx_r := idx_r s; hist := hist s; returned := returned s |}
          else None
      | _ => None
      end
  | CSendHigh =>                                                      (* 128 *)
      match prod s with
      | PSendHigh h =>
          if (length (highq s) <? cap s)%nat
          then Some {| cap := cap s; lowq := lowq s; highq := highq s ++ [h]; prod := PIncr; fill := fill s;
                       idx_w := idx_w s; idx_r := idx_r s; hist := hist s; returned := returned s |}
          else None
      | _ => None
      end
  | CIncr =>                                                          (* 129 *)
      match prod s with
      | PIncr => Some {| cap := cap s; lowq := lowq s; highq := highq s; prod := PIdle; fill := fill s;
                         idx_w := idx_w s + 1; idx_r := idx_r s; hist := hist s; returned := returned s |}
      | _ => None
      end
  | CFill k =>                                                        (* 216-220, both slices of length k *)
      match fill s with
      | FIdle => Some {| cap := cap s; lowq := lowq s; highq := highq s; prod := prod s; fill := FRun k [] [];
                         idx_w := idx_w s; idx_r := idx_r s; hist := hist s; returned := returned s |}
      | _ => None
      end
  | CRecvLow =>                                                       (* 270 on pl.low *)
      match fill s, lowq s with
      | FRun k gl gh, x :: q =>
          if (length gl <? k)%nat
          then Some {| cap := cap s; lowq := q; highq := highq s; prod := prod s; fill := FRun k (gl ++ [x]) gh;
                       idx_w := idx_w s; idx_r := idx_r s; hist := hist s; returned := returned s |}
          else None
      | _, _ => None
      end
  | CRecvHigh =>                                                      (* 270 on pl.high *)
      match fill s, highq s with
      | FRun k gl gh, x :: q =>
          if (length gh <? k)%nat
          then Some {| cap := cap s; lowq := lowq s; highq := q; prod := prod s; fill := FRun k gl (gh ++ [x]);
                       idx_w := idx_w s; idx_r := idx_r s; hist := hist s; returned := returned s |}
          else None
      | _, _ => None
      end
  | CReturn =>                                                        (* 221-223 *)
      match fill s with
      | FRun k gl gh =>
          if (Nat.eqb (length gl) k && Nat.eqb (length gh) k)%bool
          then Some {| cap := cap s; lowq := lowq s; highq := highq s; prod := prod s; fill := FIdle;
                       idx_w := idx_w s; idx_r := idx_r s + Z.of_nat k; hist := hist s;
                       returned := returned s ++ [(idx_r s, gl, gh)] |}
          else None
      | _ => None
      end
  end.

(** a schedule: one step after the other (no code of its own) *)
Fixpoint crun (s : cstate) (acts : list caction) : option cstate :=
  match acts with
  | [] => Some s
  | a :: r => match cstep s a with None => None | Some s1 => crun s1 r end
  end.
