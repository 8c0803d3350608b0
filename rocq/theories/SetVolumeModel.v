(** The server's volume, which is not protected by a lock: schedule/server_state.go 19, 27-29, 45-56
    and schedule/server_state_commands.go 159-177, with comm/message_sender.go 25-56, 81-89 and
    comm/package_handler.go 102-105.  CommandsModel takes a volume command, and ServerModel what a new
    client is sent, as one step; here storing the volume, reading it for the message,
    writing the message to each client and reading it for the reply are steps of their own. *)
From Verif Require Import GoBase.

(** a control session in volumeCommand (server_state_commands.go 164-174); volumes are float64 bits *)
Inductive command :=
| Idle                                        (* not in the command *)
| Stored                                      (* behind line 168 *)
| Built (v : N)                               (* line 170: the message holds [v], SendMessage is called *)
| Sending (v : N) (left : list nat) (ok : bool)  (* message_sender.go 25-46: under the read lock; the clients the goroutines have still to write to, no error so far *)
| Sent (ok : bool).                           (* back in line 170 *)

(** a connected client: the goroutine handling its SubscribeChannelRequest (package_handler.go 102-105) *)
Inductive subscription :=
| Fresh                (* has not subscribed *)
| Subscribed           (* behind Subscribe *)
| Read (v : N)         (* server_state.go 28: the message holds [v] *)
| Done.                (* the message was sent *)

(** what is seen: a client receives the volume, a session is told one (or that sending failed), or the usage *)
Inductive seen := Received (c : nat) (v : N) | Told (i : nat) (ok : bool) (v : N) | Usage (i : nat).

(** serverState (19), the sessions, the read locks of multiMessageSender that are held (22), the connected
    clients (20) and what they are at *)
Record vstate := {
  volume : N;
  session : nat -> command;
  readers : nat;
  clients : list nat;
  client : nat -> subscription
}.

(** the steps: session [i] executes lines 166-168 (for a text that is read as [r]), reads the volume
    for the message, takes the read lock, writes to a client (or fails), ends the broadcast, replies;
    client [c] subscribes, its handler reads the volume, sends it *)
Inductive vact :=
| Type_ (i : nat) (r : option N) | Build (i : nat) | Begin (i : nat) | Write (i c : nat) (ok : bool) | End_ (i : nat) | Reply (i : nat)
| Subscribe (c : nat) | ReadVolume (c : nat) | Send (c : nat) (ok : bool).

(** an assignment to one element (no code of its own) *)
Definition set {A} (f : nat -> A) (i : nat) (x : A) : nat -> A := fun j => if (j =? i)%nat then x else f j.
(** a session goes on (server_state_commands.go 164-174) *)
Definition at_command (s : vstate) (i : nat) (p : command) : vstate :=
  {| volume := volume s; session := set (session s) i p; readers := readers s; clients := clients s; client := client s |}.
(** a subscription goes on (package_handler.go 102-105) *)
Definition at_client (s : vstate) (c : nat) (p : subscription) : vstate :=
  {| volume := volume s; session := session s; readers := readers s; clients := clients s; client := set (client s) c p |}.

(** RLock and RUnlock (message_sender.go 26-27): the number of read locks *)
Definition locked (s : vstate) (n : nat) : vstate :=
  {| volume := volume s; session := session s; readers := n; clients := clients s; client := client s |}.

(** isSubscribed (message_sender.go 91-100); audio and info clients both are for the volume (package_util.go 17-28) *)
Definition subscribed (p : subscription) : bool := match p with Fresh => false | _ => true end.
(** [l] without [c] (the goroutine writing to [c] is done; no code of its own) *)
Definition without (c : nat) (l : list nat) : list nat := filter (fun x => negb (x =? c)%nat) l.

(** one step; [None] if it is not possible now.  Subscribe takes the write lock (81-83), which it
    gets when nobody is in SendMessage. *)
Definition vstep (s : vstate) (a : vact) : option (vstate * list seen) :=
  match a with
  | Type_ i r =>
      match session s i, r with
      | Idle, Some v => Some ({| volume := v; session := set (session s) i Stored; readers := readers s; clients := clients s; client := client s |}, [])
      | Idle, None => Some ({| volume := 0; session := session s; readers := readers s; clients := clients s; client := client s |}, [Usage i])
      | _, _ => None
      end
  | Build i => match session s i with Stored => Some (at_command s i (Built (volume s)), []) | _ => None end
  | Begin i =>
      match session s i with
      | Built v => Some (locked (at_command s i (Sending v (filter (fun c => subscribed (client s c)) (clients s)) true)) (S (readers s)), [])
      | _ => None
      end
  | Write i c ok =>
      match session s i with
      | Sending v l b =>
          if existsb (Nat.eqb c) l
          then Some (at_command s i (Sending v (without c l) (b && ok)), if ok then [Received c v] else [])
          else None
      | _ => None
      end
  | End_ i => match session s i with Sending _ [] b => Some (locked (at_command s i (Sent b)) (pred (readers s)), []) | _ => None end
  | Reply i => match session s i with Sent b => Some (at_command s i Idle, [Told i b (volume s)]) | _ => None end
  | Subscribe c =>
      match client s c with
      | Fresh => if (readers s =? 0)%nat && existsb (Nat.eqb c) (clients s) then Some (at_client s c Subscribed, []) else None
      | _ => None
      end
  | ReadVolume c => match client s c with Subscribed => Some (at_client s c (Read (volume s)), []) | _ => None end
  | Send c ok => match client s c with Read v => Some (at_client s c Done, if ok then [Received c v] else []) | _ => None end
  end.

(** a schedule: one step after the other (no code of its own) *)
Fixpoint vrun (s : vstate) (acts : list vact) : option (vstate * list seen) :=
  match acts with
  | [] => Some (s, [])
  | a :: r =>
      match vstep s a with
      | None => None
      | Some (s1, e1) => match vrun s1 r with None => None | Some (s2, e2) => Some (s2, e1 ++ e2) end
      end
  end.

(** a server that has just started (server.go 20) with these clients connected *)
Definition started (v : N) (cs : list nat) : vstate :=
  {| volume := v; session := fun _ => Idle; readers := 0; clients := cs; client := fun _ => Fresh |}.
