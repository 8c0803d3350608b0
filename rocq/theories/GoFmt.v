(** fmt's %d and strconv.Atoi, on code points. *)
From Verif Require Import GoBase.
From Coq Require Import Decimal DecimalN.
Local Open Scope Z_scope.

Fixpoint uint_text (u : Decimal.uint) : text :=
  match u with
  | Nil => []
  | D0 u => 48%N :: uint_text u | D1 u => 49%N :: uint_text u | D2 u => 50%N :: uint_text u
  | D3 u => 51%N :: uint_text u | D4 u => 52%N :: uint_text u | D5 u => 53%N :: uint_text u
  | D6 u => 54%N :: uint_text u | D7 u => 55%N :: uint_text u | D8 u => 56%N :: uint_text u
  | D9 u => 57%N :: uint_text u
  end.

(** strconv.Itoa, fmt's %d *)
Definition itoa (z : Z) : text :=
  if z <? 0 then 45%N :: uint_text (N.to_uint (Z.to_N (- z))) else uint_text (N.to_uint (Z.to_N z)).

(** fmt's %0wd for non-negative values *)
Definition itoa0 (w : nat) (z : Z) : text := repeat 48%N (w - length (itoa z)) ++ itoa z.

Fixpoint text_uint (t : text) : option Decimal.uint :=
  match t with
  | [] => Some Nil
  | c :: r =>
      match text_uint r with
      | None => None
      | Some u =>
          if N.eqb c 48 then Some (D0 u) else if N.eqb c 49 then Some (D1 u)
          else if N.eqb c 50 then Some (D2 u) else if N.eqb c 51 then Some (D3 u)
          else if N.eqb c 52 then Some (D4 u) else if N.eqb c 53 then Some (D5 u)
          else if N.eqb c 54 then Some (D6 u) else if N.eqb c 55 then Some (D7 u)
          else if N.eqb c 56 then Some (D8 u) else if N.eqb c 57 then Some (D9 u) else None
      end
  end.

Definition magnitude (t : text) : option Z :=
  match t with
  | [] => None
  | _ => match text_uint t with None => None | Some u => Some (Z.of_N (N.of_uint u)) end
  end.

(** strconv.Atoi: optional sign, at least one digit, int64 range; [None] is an error. *)
Definition atoi (t : text) : option Z :=
  let v := match t with
           | 45%N :: r => match magnitude r with Some m => Some (- m) | None => None end
           | 43%N :: r => magnitude r
           | _ => magnitude t
           end in
  match v with
  | Some z => if ((- 2 ^ 63 <=? z) && (z <? 2 ^ 63))%bool then Some z else None
  | None => None
  end.

Lemma text_uint_text u : text_uint (uint_text u) = Some u.
Proof. induction u as [|u IH|u IH|u IH|u IH|u IH|u IH|u IH|u IH|u IH|u IH]; [reflexivity|..]; cbn; now rewrite IH. Qed.

Lemma uint_text_nonnil u : u <> Nil -> uint_text u <> [].
Proof. destruct u; [congruence|..]; discriminate. Qed.

Lemma to_uint_nonnil n : N.to_uint n <> Nil.
Proof.
  destruct n as [|p]; [discriminate|]. cbn. intro H.
  pose proof (DecimalN.Unsigned.of_to (N.pos p)) as E. cbn in E. rewrite H in E. discriminate.
Qed.

Lemma text_uint_zeros k u t : text_uint t = Some u ->
  exists v, text_uint (repeat 48%N k ++ t) = Some v /\ N.of_uint v = N.of_uint u.
Proof.
  intro H. induction k as [|k (v & E & F)]; [exists u; auto|].
  exists (D0 v). change (repeat 48%N (S k) ++ t) with (48%N :: (repeat 48%N k ++ t)).
  cbn [text_uint]. rewrite E. split; [reflexivity|exact F].
Qed.

Lemma uint_text_digit u c r : uint_text u = c :: r -> c <> 45%N /\ c <> 43%N.
Proof. destruct u; cbn; intro E; try discriminate; injection E as <- _; split; discriminate. Qed.

Lemma atoi_magnitude t z : (forall c r, t = c :: r -> c <> 45%N /\ c <> 43%N) ->
  magnitude t = Some z -> 0 <= z < 2 ^ 63 -> atoi t = Some z.
Proof.
  intros H M B.
  assert (E : atoi t = match magnitude t with Some z => if ((- 2 ^ 63 <=? z) && (z <? 2 ^ 63))%bool then Some z else None | None => None end).
  { unfold atoi. destruct t as [|c r]; [reflexivity|].
    destruct (H c r eq_refl) as [A1 A2].
    destruct c as [|p]; [reflexivity|].
    do 6 (destruct p as [p|p|]; try reflexivity; try congruence). }
  rewrite E, M.
  replace (- 2 ^ 63 <=? z) with true by (symmetry; apply Z.leb_le; lia).
  replace (z <? 2 ^ 63) with true by (symmetry; apply Z.ltb_lt; lia). reflexivity.
Qed.

Lemma atoi_itoa0 w z : 0 <= z < 2 ^ 63 -> atoi (itoa0 w z) = Some z.
Proof.
  intro B. unfold itoa0, itoa. replace (z <? 0) with false by (symmetry; apply Z.ltb_ge; lia).
  set (u := N.to_uint (Z.to_N z)). set (k := (w - length (uint_text u))%nat).
  destruct (text_uint_zeros k u (uint_text u) (text_uint_text u)) as (v & E & F).
  apply atoi_magnitude; [| |exact B].
  - intros c r Ec. destruct k; cbn in Ec; [now apply uint_text_digit in Ec|].
    injection Ec as <- _. split; discriminate.
  - unfold magnitude. rewrite E.
    destruct (repeat 48%N k ++ uint_text u) as [|c r] eqn:Q.
    + apply app_eq_nil in Q as [_ Q]. now apply uint_text_nonnil in Q; [|apply to_uint_nonnil].
    + f_equal. rewrite F. unfold u. rewrite DecimalN.Unsigned.of_to. lia.
Qed.

Lemma itoa0_0 z : itoa0 0 z = itoa z. Proof. reflexivity. Qed.

Lemma atoi_itoa z : - 2 ^ 63 <= z < 2 ^ 63 -> atoi (itoa z) = Some z.
Proof.
  intro B. destruct (Z.ltb_spec z 0) as [H|H].
  - unfold itoa. replace (z <? 0) with true by (symmetry; apply Z.ltb_lt; lia).
    set (u := N.to_uint (Z.to_N (- z))). unfold atoi.
    replace (magnitude (uint_text u)) with (Some (- z)).
    + replace (- - z) with z by lia.
      replace (- 2 ^ 63 <=? z) with true by (symmetry; apply Z.leb_le; lia).
      replace (z <? 2 ^ 63) with true by (symmetry; apply Z.ltb_lt; lia). reflexivity.
    + unfold magnitude. destruct (uint_text u) as [|c r] eqn:Q.
      * now apply uint_text_nonnil in Q; [|apply to_uint_nonnil].
      * rewrite <- Q, text_uint_text. f_equal. unfold u. rewrite DecimalN.Unsigned.of_to. lia.
  - rewrite <- itoa0_0. apply atoi_itoa0. lia.
Qed.

Lemma atoi_range t z : atoi t = Some z -> in_int64 z.
Proof.
  unfold atoi, in_int64. destruct (match t with [] => _ | _ => _ end) as [v|]; [|discriminate].
  destruct ((- 2 ^ 63 <=? v) && (v <? 2 ^ 63))%bool eqn:E; [|discriminate].
  intros [= <-]. apply andb_prop in E as [A B]. apply Z.leb_le in A. apply Z.ltb_lt in B. lia.
Qed.
