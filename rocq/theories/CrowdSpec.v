(** What any number of goroutines may rely on (C129): linearizability towards the bounded FIFO of QueueSpec. *)
From Verif Require Import GoBase QueueModel QueueSpec CrowdModel.

(** A history with the moments at which the calls take effect. *)
Inductive point := Begins (g : nat) (o : qop) | Takes_effect (g : nat) (o : qop) (r : qout) | Ends (g : nat) (r : qout).

(** the history without these moments *)
Fixpoint seen_of (ps : list point) : list mevent :=
  match ps with
  | [] => []
  | Begins g o :: l => Called g o :: seen_of l
  | Takes_effect _ _ _ :: l => seen_of l
  | Ends g r :: l => Returned g r :: seen_of l
  end.
(** the calls in the order in which they take effect, and their results *)
Fixpoint ops_of (ps : list point) : list qop :=
  match ps with [] => [] | Takes_effect _ o _ :: l => o :: ops_of l | _ :: l => ops_of l end.
Fixpoint outs_of (ps : list point) : list qout :=
  match ps with [] => [] | Takes_effect _ _ r :: l => r :: outs_of l | _ :: l => outs_of l end.

(** where a goroutine is: in no call; in a call that has had no effect yet; in one that has *)
Inductive stage := NotIn | Before (o : qop) | After (r : qout).
(** Every call of [g] begins, takes effect once and ends with the result it had then. *)
Inductive in_turn (g : nat) : list point -> stage -> Prop :=
| turn_nil : in_turn g [] NotIn
| turn_begins ps o : in_turn g ps NotIn -> in_turn g (ps ++ [Begins g o]) (Before o)
| turn_effect ps o r : in_turn g ps (Before o) -> in_turn g (ps ++ [Takes_effect g o r]) (After r)
| turn_ends ps r : in_turn g ps (After r) -> in_turn g (ps ++ [Ends g r]) NotIn
| turn_other ps st p : (match p with Begins h _ | Takes_effect h _ _ | Ends h _ => h <> g end) -> in_turn g ps st -> in_turn g (ps ++ [p]) st.

(** The calls behave as if each were made at one moment between its beginning and its end, on a FIFO
    of capacity [n]; [l] is what it holds. *)
Definition linearizable (n : nat) (es : list mevent) (l : list tsample) : Prop :=
  exists ps, seen_of ps = es /\ (forall g, exists st, in_turn g ps st) /\ fifo_run n [] (ops_of ps) = Some (l, outs_of ps).

(** Nobody calls Len. *)
Definition no_len (acts : list mact) : Prop := forall g, ~ In (Calls g QLen) acts.
(** [g] has called [o] and has not got its result. *)
Definition pending (es : list mevent) (g : nat) (o : qop) : Prop :=
  exists a b, es = a ++ Called g o :: b /\ forall r, ~ In (Returned g r) b.
Definition adding (es : list mevent) (g : nat) : Prop := exists x, pending es g (QAdd x).
Definition taking (es : list mevent) (g : nat) : Prop := pending es g QRemove \/ pending es g QPeek.
(** Nobody who is in a call can go on. *)
Definition stuck (s : mstate) : Prop := forall g, mstep s (Steps g) = None.
(** No call ever ends again, whatever is called and whoever goes on. *)
Definition dead (s : mstate) : Prop :=
  forall acts s' es g r, mrun s acts = Some (s', es) -> ~ In (Returned g r) es.

(** The element of the buffer that [g] is about to store into (line 21), or about to read (33, 46). *)
Definition stores_into (s : mstate) (g i : nat) : Prop := exists x, places s g = Write x /\ i = (head (mq s) mod q_cap (mq s))%nat.
Definition reads_from (s : mstate) (g i : nat) : Prop :=
  (places s g = ReadRemove \/ places s g = ReadPeek) /\ i = (tail (mq s) mod q_cap (mq s))%nat.
