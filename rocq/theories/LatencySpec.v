(** What C132 is about: how far the stream handed out by Fill runs behind the controls. *)
From Verif Require Import GoBase PlaylistModel PlaylistSpec ChanModel ChanSpec LatencyModel.
Local Open Scope Z_scope.

(** The calls made on the playlist and the steps of its loop, without those in the channels. *)
Fixpoint loop_part (acts : list saction) : list action :=
  match acts with [] => [] | SoLoop a :: r => a :: loop_part r | _ :: r => loop_part r end.

(** Everything Fill has handed out so far. *)
Definition heard_so_far (s : source) : list sample := handed_out (returned (so_chan s)).

(** Number of samples asked for by a Fill under way. *)
Definition asked_for (s : source) : nat := match fill (so_chan s) with FIdle => 0%nat | FRun k _ _ => k end.

(** Number of samples of the stream that can no longer be changed by any control: those handed out,
    those asked for by a Fill under way, a full channel of [c] and one block of 512. *)
Definition settled (s : source) (c : nat) : nat := (length (heard_so_far s) + asked_for s + c + 512)%nat.

(** Every Fill asks for [size] samples (as streamMusic does, schedule/server_state.go 150-153). *)
Definition fills_of (size : nat) (acts : list saction) : Prop :=
  forall k, In (SoChan (CFill k)) acts -> k = size.

(** Both values of a sample are NaN: the players play it as silence. *)
Definition no_sound (x : sample) : Prop := is_nan (fst x) = true /\ is_nan (snd x) = true.

(** The samples of the song on air that have not been pushed, wherever inside the song the loop is. *)
Definition left_of_song (pc : pc) : option (list sample) :=
  match pc with
  | InSong r | TogStore r | TogCall r | BlockRead r => Some r
  | Checking r _ _ => Some r
  | _ => None
  end.
