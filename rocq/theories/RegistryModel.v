(** The table of commands (ssh/command.go 13-25) while the server registers its commands
    (schedule/server.go 33-39, in a goroutine of its own: cmd/music-sync-server/main.go 105) and
    sessions look commands up (command.go 65-72, session_handler.go 83, auto_completer.go 51) or list
    them (command.go 81, 93, 116, auto_completer.go 35).  Nothing locks the table.

    The variable holds a slice: array, length, capacity (all of the array).  A Command is more
    than one word: copying one reads its name and the rest (usage, info, functions) separately,
    storing one writes them separately, in this order.  The name itself and the slice header are read and
    written as a whole here (simplification: strings and headers have several words too).
    CommandsModel has the same table for sessions that run after the registrations. *)
From Verif Require Import GoBase CommandsModel.
Local Open Scope nat_scope.

(** Replace element [i] (Go would panic behind the end; the swaps of sort.Sort stay inside) *)
Definition put {A} (l : list A) (i : nat) (x : A) : list A :=
  if i <? length l then firstn i l ++ x :: skipn (S i) l else l.

Section Registry.
Variable B : Type.                                    (* what a Command holds besides its name *)
Variable zero : B.                                    (* of the zero Command *)
(** The swaps sort.Sort makes for these names (command.go 24; 17-19: it asks for the length,
    compares names and swaps).  Which ones depends on the Go version. *)
Variable swaps : list text -> list (nat * nat).
(** The capacity append gives a full slice that needs this many elements (at least as many). *)
Variable grow : nat -> nat.

(** command.go 28-38: a Command *)
Notation entry := (text * B)%type.

(** What a session does with the table: look for a name (65-72) or go through all of it (81). *)
Inductive want := Find (name : text) | All.

(** A session's goroutine.  [a] is the array of the slice that range has read, [n] its length. *)
Inductive lpc :=
| LIdle
| LAsked (w : want)                                              (* before range reads the variable *)
| LScan (w : want) (a n i : nat) (seen : list entry)             (* before the copy of element i *)
| LHalf (w : want) (a n i : nat) (seen : list entry) (name : text). (* the name is copied, the rest is not *)

(** The goroutine that registers. *)
Inductive wpc :=
| WNext                                                          (* between two calls of RegisterCommand *)
| WSort (ops : list (nat * nat))                                 (* 24: the swaps to make *)
| WSwap (i j : nat) (x y : entry) (k : nat) (ops : list (nat * nat)).
      (* 19: c[i], c[j] = c[j], c[i]: [x] is to be stored in i and [y] in j; k of the four stores are made *)

Record rstate := {
  arrays : list (list entry);      (* all arrays ever made; their length is the capacity *)
  cur : nat;                       (* the variable: array and length *)
  len : nat;
  todo : list entry;               (* commands to register *)
  known : list entry;              (* history: commands registered, in order (with the one being registered) *)
  wr : wpc;
  ls : nat -> lpc
}.

(** What is visible: a lookup found a command or not, a listing. *)
Inductive revent :=
| Found (g : nat) (name : text) (c : entry)
| Unknown (g : nat) (name : text)
| Listed (g : nat) (l : list entry).

Inductive raction := AAsk (g : nat) (w : want) | ALook (g : nat) | AReg.

Definition array (s : rstate) (a : nat) : list entry := nth a (arrays s) [].
(** What the variable shows *)
Definition view (s : rstate) : list entry := firstn (len s) (array s (cur s)).

Definition set_ls (s : rstate) (g : nat) (p : lpc) : rstate :=
  {| arrays := arrays s; cur := cur s; len := len s; todo := todo s; known := known s; wr := wr s;
     ls := fun x => if Nat.eqb x g then p else ls s x |}.
Definition set_wr (s : rstate) (p : wpc) : rstate :=
  {| arrays := arrays s; cur := cur s; len := len s; todo := todo s; known := known s; wr := p; ls := ls s |}.
(** A store into the current array *)
Definition store (s : rstate) (i : nat) (f : entry -> entry) (p : wpc) : rstate :=
  {| arrays := put (arrays s) (cur s) (put (array s (cur s)) i (f (nth i (array s (cur s)) ([], zero))));
     cur := cur s; len := len s; todo := todo s; known := known s; wr := p; ls := ls s |}.

(** command.go 23: commands = append(commands, c).  Storing the element behind the slice is not
    seen by anybody, so it is one step with the assignment. *)
Definition append_cmd (s : rstate) (c : entry) (rest : list entry) : rstate :=
  let a := array s (cur s) in
  let n := len s in
  let '(arrs, k) :=
    if n <? length a then (put (arrays s) (cur s) (put a n c), cur s)
    else (arrays s ++ [firstn n a ++ c :: repeat ([], zero) (grow (S n) - S n)], length (arrays s)) in
  {| arrays := arrs; cur := k; len := S n; todo := rest; known := known s ++ [c];
     wr := WSort (swaps (map fst (firstn n a ++ [c]))); ls := ls s |}.

(** One step of a session's goroutine: range (66, 81), the comparison (67) *)
Definition look (s : rstate) (g : nat) : option (rstate * list revent) :=
  match ls s g with
  | LIdle => None
  | LAsked w => Some (set_ls s g (LScan w (cur s) (len s) 0 []), [])
  | LScan w a n i seen =>
      if i <? n then Some (set_ls s g (LHalf w a n i seen (fst (nth i (array s a) ([], zero)))), [])
      else Some (set_ls s g LIdle, match w with Find name => [Unknown g name] | All => [Listed g seen] end)
  | LHalf w a n i seen nm =>
      let c := (nm, snd (nth i (array s a) ([], zero))) in
      let go_on := Some (set_ls s g (LScan w a n (S i) (seen ++ [c])), []) in
      match w with
      | Find name => if text_eqb nm name then Some (set_ls s g LIdle, [Found g name c]) else go_on
      | All => go_on
      end
  end.

(** One step of the registering goroutine (22-25) *)
Definition reg (s : rstate) : option rstate :=
  match wr s with
  | WNext => match todo s with [] => None | c :: rest => Some (append_cmd s c rest) end
  | WSort [] => Some (set_wr s WNext)
  | WSort ((i, j) :: ops) =>
      let a := array s (cur s) in
      Some (set_wr s (WSwap i j (nth j a ([], zero)) (nth i a ([], zero)) 0 ops))
  | WSwap i j x y k ops =>
      let next := WSwap i j x y (S k) ops in
      match k with
      | 0 => Some (store s i (fun e => (fst x, snd e)) next)
      | 1 => Some (store s i (fun e => (fst e, snd x)) next)
      | 2 => Some (store s j (fun e => (fst y, snd e)) next)
      | _ => Some (store s j (fun e => (fst e, snd y)) (WSort ops))
      end
  end.

(** [None]: that goroutine has nothing to do *)
Definition rstep (s : rstate) (a : raction) : option (rstate * list revent) :=
  match a with
  | AAsk g w => match ls s g with LIdle => Some (set_ls s g (LAsked w), []) | _ => None end
  | ALook g => look s g
  | AReg => match reg s with Some s' => Some (s', []) | None => None end
  end.
Fixpoint rrun (s : rstate) (acts : list raction) : option (rstate * list revent) :=
  match acts with
  | [] => Some (s, [])
  | a :: rest =>
      match rstep s a with
      | None => None
      | Some (s1, e1) => match rrun s1 rest with None => None | Some (s2, e2) => Some (s2, e1 ++ e2) end
      end
  end.

(** command.go 13: at process start; [cs] will be registered: 155-158 (init: help and ls), then
    schedule/server.go 33-39. *)
Definition rinit (cs : list entry) : rstate :=
  {| arrays := [[]]; cur := 0; len := 0; todo := cs; known := []; wr := WNext; ls := fun _ => LIdle |}.
End Registry.
Arguments LIdle {B}. Arguments LAsked {B}. Arguments LScan {B}. Arguments LHalf {B}.
Arguments WNext {B}. Arguments WSort {B}. Arguments WSwap {B}.
Arguments arrays {B}. Arguments cur {B}. Arguments len {B}. Arguments todo {B}. Arguments known {B}. Arguments wr {B}. Arguments ls {B}.
Arguments Found {B}. Arguments Unknown {B}. Arguments Listed {B}.
Arguments array {B}. Arguments view {B}. Arguments set_ls {B}. Arguments set_wr {B}. Arguments rinit {B}.

(** sort.Sort for at most twelve elements is insertion sort (sort/sort.go, insertionSort; before
    Go 1.19 one pass with gap 6 comes first, which for the names of this program swaps nothing):
    the swaps made when element [i] = length [rp] is [x] and the elements before it, from the last to the
    first, are [rp]. *)
Fixpoint larger (rp : list text) (x : text) : nat :=
  match rp with [] => 0 | y :: r => if text_ltb x y then S (larger r x) else 0 end.
(** One round: [k] swaps down from [i]. *)
Definition down (i k : nat) : list (nat * nat) := map (fun t => (i - t, i - t - 1)) (seq 0 k).
(** [rp]: the elements before the next one after the rounds so far, last first. *)
Fixpoint rounds (rp : list text) (l : list text) : list (nat * nat) :=
  match l with
  | [] => []
  | x :: r =>
      let k := larger rp x in
      down (length rp) k ++ rounds (firstn k rp ++ x :: skipn k rp) r
  end.
(** sort/sort.go, insertionSort: the calls of Swap. *)
Definition insertion_swaps (l : list text) : list (nat * nat) := rounds [] l.
