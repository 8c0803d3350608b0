(** Vocabulary of C99. *)
From Verif Require Import GoBase WireModel TimingModel TimingSpec LifeModel SyncModel.
Local Open Scope Z_scope.

(** One exchange: the client's clock when it sends, and how long the request travels, the
    server works and the response travels. *)
Record exchange := { x_sent : Z; x_out : Z; x_work : Z; x_back : Z }.

(** [clock t] is the server's clock at the moment the client's clock shows [t].  The two
    clocks run [theta] apart, up to [rho]. *)
Definition apart (clock : Z -> Z) (theta rho : Z) : Prop := forall t, Z.abs (clock t - (t + theta)) <= rho.

(** [o] is what the client measures in the exchange: the server handles the request, the
    client the message the server wrote. *)
Definition measures (clock : Z -> Z) (x : exchange) (o : Z) : Prop :=
  exists s s' c m,
    server_handle true s c (sync_request (x_sent x))
      (clock (x_sent x + x_out x)) (clock (x_sent x + x_out x + x_work x)) = Ok s' /\
    sv_out s' c = sv_out s c ++ [m] /\
    on_response (x_sent x + x_out x + x_work x + x_back x) m = [TAppend o].

(** Every measurement comes from an exchange whose two ways differ by at most [A]. *)
Definition measured_with (clock : Z -> Z) (A : Z) (acts : list tact) : Prop :=
  Forall (fun o => exists x, Z.abs (x_out x - x_back x) <= A /\ measures clock x o) (measured acts).

(** Clocks and delays far from the limits of an int64 (2^60 ns are 36 years). *)
Definition sane (theta rho A : Z) : Prop :=
  Z.abs theta <= 2 ^ 60 /\ 0 <= rho <= 2 ^ 60 /\ 0 <= A <= 2 ^ 60.
