(** currentSong as it lies in memory: playback/playlist.go 26, 48 (written by the streaming loop) and
    237-239 (read by control sessions, schedule/server_state_commands.go 110), without a lock.  A
    string is two words, the address of its bytes and their number; by the Go memory model a
    value larger than a word is read and written as words, in an order not specified.  PlaylistModel takes
    it as one value. *)
From Verif Require Import GoBase PlaylistModel.

(** the two words; the empty string a variable starts with has no bytes anywhere *)
Record header := { bytes_at : option song; count : nat }.
(** a store of line 48 that is still to be made *)
Inductive half := HalfBytes | HalfCount.

(** the playlist (playlist.go 16-35) with currentSong's two words, the stores of line 48 to be made, and a
    reader of line 238 with what it has loaded *)
Record hstate := {
  inner : pstate;
  cur : header;
  to_store : list half;
  got_bytes : option (option song);
  got_count : option nat
}.

(** steps: those of PlaylistModel, the two stores of line 48, the two loads of line 238 *)
Inductive haction := HAct (a : action) | HStore (h : half) | HLoad (h : half).

(** line 48 for the song [f]: the word [h] of the header *)
Definition store_half (c : header) (f : song) (h : half) : header :=
  match h with
  | HalfBytes => {| bytes_at := Some f; count := count c |}
  | HalfCount => {| bytes_at := bytes_at c; count := length f |}
  end.

(** the stores to be made without [h], if it is one of them *)
Definition without_half (h : half) (l : list half) : option (list half) :=
  match h, l with
  | HalfBytes, HalfBytes :: r => Some r
  | HalfBytes, HalfCount :: HalfBytes :: r => Some (HalfCount :: r)
  | HalfCount, HalfCount :: r => Some r
  | HalfCount, HalfBytes :: HalfCount :: r => Some (HalfBytes :: r)
  | _, _ => None
  end.

Section Header.
(** getStreamer (playback.go:34-47) and the samples of the song; nanBreakSize (playlist.go:23) *)
Variable decode : song -> option (list sample).
Variable nan_break : Z.

(** one step; [None] if it is not possible now.  The loop makes both stores of line 48 before line 50. *)
Definition hstep (s : hstate) (a : haction) : option (hstate * list event) :=
  match a with
  | HAct a =>
      match a, to_store s with
      | POpen, _ :: _ => None
      | _, _ =>
          match pstep decode nan_break (inner s) a with
          | None => None
          | Some (p, es) =>
              Some ({| inner := p; cur := cur s;
                       to_store := match a, at_pc p with PNext, Opening _ => [HalfBytes; HalfCount] | _, _ => to_store s end;
                       got_bytes := got_bytes s; got_count := got_count s |}, es)
          end
      end
  | HStore h =>
      match at_pc (inner s), without_half h (to_store s) with
      | Crashed, _ => None
      | _, None => None
      | _, Some r => Some ({| inner := inner s; cur := store_half (cur s) (current_song (inner s)) h; to_store := r;
                              got_bytes := got_bytes s; got_count := got_count s |}, [])
      end
  | HLoad HalfBytes =>
      match at_pc (inner s), got_bytes s with
      | Crashed, _ => None
      | _, Some _ => None
      | _, None => Some ({| inner := inner s; cur := cur s; to_store := to_store s;
                            got_bytes := Some (bytes_at (cur s)); got_count := got_count s |}, [])
      end
  | HLoad HalfCount =>
      match at_pc (inner s), got_count s with
      | Crashed, _ => None
      | _, Some _ => None
      | _, None => Some ({| inner := inner s; cur := cur s; to_store := to_store s;
                            got_bytes := got_bytes s; got_count := Some (count (cur s)) |}, [])
      end
  end.

(** a schedule: one step after the other (no code of its own) *)
Fixpoint hrun (s : hstate) (acts : list haction) : option (hstate * list event) :=
  match acts with
  | [] => Some (s, [])
  | a :: rest =>
      match hstep s a with
      | None => None
      | Some (s1, e1) => match hrun s1 rest with None => None | Some (s2, e2) => Some (s2, e1 ++ e2) end
      end
  end.
End Header.

(** NewPlaylist (playlist.go 250-265): currentSong is the empty string; nobody reads yet *)
Definition unread (l : list song) : hstate :=
  {| inner := new_playlist l; cur := {| bytes_at := None; count := 0 |}; to_store := [];
     got_bytes := None; got_count := None |}.

(** the bytes of a string with these two words: [beyond f k] are the [k] bytes that happen to lie
    behind those of [f] in memory; bytes at no address cannot be read (a nil dereference ends the
    process) *)
Definition string_of (beyond : song -> nat -> list N) (b : option song) (n : nat) : outcome (list N) :=
  match b with
  | None => match n with O => Ok [] | S _ => Panic end
  | Some f => Ok (firstn n f ++ beyond f (n - length f)%nat)
  end.
