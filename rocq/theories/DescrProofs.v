(** Proofs about the compiled descriptor (C115). *)
From Verif Require Import GoBase GoBaseFacts GoUtf8 WireModel DescrModel DescrSpec.
Local Open Scope N_scope.

Lemma compiled_file_value : compiled_file = Some (file_descriptor packages_proto).
Proof. vm_compute. reflexivity. Qed.

Definition table : list (list (N * coder)) :=
  [ [(1, CString); (2, CBytes)];
    [(1, CInt64)];
    [(1, CInt64); (2, CInt64); (3, CInt64)];
    [(1, CInt64); (2, CInt64); (3, CDoubles); (4, CDoubles); (5, CUint64)];
    []; [];
    [(1, CDouble)];
    [(1, CEnum)];
    [(1, CUint64); (2, CString); (3, CInt64); (4, CMessages 10%nat); (5, CMessage 11%nat)];
    [(1, CInt64); (2, CString)];
    [(1, CMessages 9%nat)];
    [(1, CString); (2, CString); (3, CString)];
    [(1, CInt64); (2, CUint64); (3, CUint64)];
    [(1, CBool); (2, CUint64)] ].
Definition lay : layouts := fun t => nth_error table t.
Lemma layout_lay t : layout t = lay t.
Proof.
  unfold layout. rewrite compiled_file_value. cbn [and_then].
  do 14 (destruct t as [|t]; [vm_compute; reflexivity|]).
  match goal with |- layout_in _ ?x = _ => set (u := x) end. assert (U : (14 <= u)%nat) by (subst u; lia). clearbody u. unfold layout_in.
  assert (E1 : nth_error go_types u = None) by (apply nth_error_None; change (length go_types) with 14%nat; exact U).
  assert (E2 : lay u = None) by (apply nth_error_None; change (length table) with 14%nat; exact U).
  rewrite E1, E2. now destruct (negb (text_eqb (f_syntax (file_descriptor packages_proto)) (T "proto3"))).
Qed.

(** ** The same layouts give the same coding *)
Lemma all_some_ext {A B} (f g : A -> option B) l : (forall x, f x = g x) -> all_some (map f l) = all_some (map g l).
Proof. intros H. now rewrite (map_ext _ _ H). Qed.
Lemma put_ext l1 l2 : (forall t, l1 t = l2 t) -> forall fuel t s, put_struct l1 fuel t s = put_struct l2 fuel t s.
Proof.
  intros H. induction fuel as [|f IH]; intros t s; [reflexivity|]. cbn [put_struct]. rewrite H. destruct (l2 t) as [l|]; [|reflexivity].
  rewrite (all_some_ext _ (fun p => put_field (put_struct l2 f) (fst (fst p)) (snd (fst p)) (snd p))); [reflexivity|].
  intros [[n c] v]. cbn [fst snd]. destruct c, v as [| | | | |[p|]|]; cbn [put_field]; try reflexivity; [now rewrite IH|].
  now rewrite (all_some_ext _ (put_struct l2 f t0)).
Qed.
Lemma zero_ext l1 l2 t : (forall t, l1 t = l2 t) -> zero_struct l1 t = zero_struct l2 t.
Proof. intros H. unfold zero_struct. now rewrite H. Qed.

Lemma decode_ext {A} (f g : N -> N -> A -> bytes -> field_result A) : (forall n wt a b, f n wt a b = g n wt a b) -> forall a b, decode f a b = decode g a b.
Proof.
  intros H a b. unfold decode. generalize (length b) as k. intros k. revert a b. induction k as [|k IH]; intros a b; destruct b as [|x b]; try reflexivity.
  cbn [decode_loop]. destruct (get_tag (x :: b)) as [[[num wt] r]|]; [|reflexivity]. destruct (wt =? wt_end_group); [reflexivity|].
  rewrite H. destruct (g num wt a r); [apply IH|reflexivity|]. destruct (skip_value (S (length r)) num wt r); [apply IH|reflexivity].
Qed.
Lemma on_bytes_ext {A} (f g : bytes -> option A) wt b : (forall x, f x = g x) -> on_bytes wt b f = on_bytes wt b g.
Proof. intros H. unfold on_bytes. destruct (wt =? wt_bytes); [|reflexivity]. destruct (get_bytes b) as [[v r]|]; [|reflexivity]. now rewrite H. Qed.
Lemma take_ext l1 l2 : (forall t, l1 t = l2 t) -> forall fuel t s b, take_struct l1 fuel t s b = take_struct l2 fuel t s b.
Proof.
  intros H. induction fuel as [|f IH]; intros t s b; [reflexivity|]. cbn [take_struct]. rewrite H. destruct (l2 t) as [l|]; [|reflexivity].
  apply decode_ext. intros n wt a b'. revert a. induction l as [|[m c] l IHl]; intros a; destruct a as [|v a]; try reflexivity.
  cbn [take_into]. rewrite IHl. f_equal. destruct (n =? m); [f_equal|reflexivity].
  destruct c, v; cbn [take_field]; try reflexivity; apply on_bytes_ext; intros y; rewrite IH; rewrite (zero_ext l1 l2) by assumption; reflexivity.
Qed.

(** ** Decoding on related values *)
Lemma decode_map {A B} (r : A -> B) (f : N -> N -> A -> bytes -> field_result A) (g : N -> N -> B -> bytes -> field_result B) :
  (forall n wt a b, g n wt (r a) b = on_result r (f n wt a b)) -> forall a b, decode g (r a) b = option_map r (decode f a b).
Proof.
  intros H a b. unfold decode. generalize (length b) as k. intros k. revert a b. induction k as [|k IH]; intros a b; destruct b as [|x b]; try reflexivity.
  cbn [decode_loop]. destruct (get_tag (x :: b)) as [[[num wt] rest]|]; [|reflexivity]. destruct (wt =? wt_end_group); [reflexivity|].
  rewrite H. destruct (f num wt a rest); cbn [on_result]; [apply IH|reflexivity|]. destruct (skip_value (S (length rest)) num wt rest); [apply IH|reflexivity].
Qed.
Lemma map_varint {A B} (r : A -> B) wt b f : on_result r (on_varint wt b f) = on_varint wt b (fun x => r (f x)).
Proof. unfold on_varint. destruct (wt =? wt_varint); [|reflexivity]. now destruct (get_varint 9 b) as [[v r']|]. Qed.
Lemma map_fixed {A B} (r : A -> B) wt b f : on_result r (on_fixed64 wt b f) = on_fixed64 wt b (fun x => r (f x)).
Proof. unfold on_fixed64. destruct (wt =? wt_fixed64); [|reflexivity]. now destruct (get_fixed64 b) as [[v r']|]. Qed.
Lemma map_bytes {A B} (r : A -> B) wt b f : on_result r (on_bytes wt b f) = on_bytes wt b (fun x => option_map r (f x)).
Proof. unfold on_bytes. destruct (wt =? wt_bytes); [|reflexivity]. destruct (get_bytes b) as [[v r']|]; [|reflexivity]. now destruct (f v). Qed.
Lemma map_string {A B} (r : A -> B) wt b f : on_result r (on_string wt b f) = on_string wt b (fun x => r (f x)).
Proof. unfold on_string. rewrite map_bytes. apply on_bytes_ext. intros x. now destruct (utf8_valid x). Qed.
Lemma map_doubles {A B} (r : A -> B) wt b f : on_result r (on_doubles wt b f) = on_doubles wt b (fun x => r (f x)).
Proof.
  unfold on_doubles. destruct (wt =? wt_bytes); [|apply map_fixed]. destruct (get_bytes b) as [[v r']|]; [|reflexivity].
  now destruct (get_doubles (length v) v).
Qed.
Lemma map_map_result {A B C} (f : B -> C) (g : A -> B) x : on_result f (on_result g x) = on_result (fun a => f (g a)) x.
Proof. now destruct x. Qed.
Lemma map_if {A B} (r : A -> B) (c : bool) x y : on_result r (if c then x else y) = if c then on_result r x else on_result r y.
Proof. now destruct c. Qed.
Lemma map_unknown {A B} (r : A -> B) : on_result r FieldUnknown = FieldUnknown. Proof. reflexivity. Qed.
Ltac push := rewrite ?map_if, ?map_map_result, ?map_varint, ?map_fixed, ?map_string, ?map_doubles, ?map_bytes, ?map_unknown.

(** a struct of type [t] with enough fuel *)
Lemma take_atom k b a : take_struct lay (S k) 9%nat (atom_struct a) b = option_map atom_struct (decode fld_atom a b).
Proof.
  cbn [take_struct]. change (lay 9%nat) with (Some [(1, CInt64); (2, CString)]). cbn iota. apply decode_map.
  intros n wt [z c] b'. unfold fld_atom, atom_struct. cbn [take_into take_field fst snd]. push. reflexivity.
Qed.
Lemma take_line k b l : take_struct lay (S (S k)) 10%nat (line_struct l) b = option_map line_struct (decode fld_line l b).
Proof.
  remember (S k) as k1 eqn:E. cbn [take_struct]. change (lay 10%nat) with (Some [(1, CMessages 9%nat)]). cbn iota. apply decode_map.
  intros n wt a b'. unfold fld_line, line_struct. cbn [take_into take_field]. push.
  destruct (n =? 1); [|reflexivity]. push. apply on_bytes_ext. intros x.
  change (zero_struct lay 9%nat) with (atom_struct (0%Z, [])). subst k1. rewrite take_atom.
  destruct (decode fld_atom (0%Z, []) x) as [y|]; cbn [option_map]; [|reflexivity]. now rewrite map_app.
Qed.
Lemma take_metadata k b m : take_struct lay (S k) 11%nat (metadata_struct m) b = option_map metadata_struct (decode fld_metadata m b).
Proof.
  cbn [take_struct]. change (lay 11%nat) with (Some [(1, CString); (2, CString); (3, CString)]). cbn iota. apply decode_map.
  intros n wt [[x y] z] b'. unfold fld_metadata, metadata_struct. cbn [take_into take_field]. push. reflexivity.
Qed.

Lemma decode_map_on {A B} (P : A -> Prop) (r : A -> B) (f : N -> N -> A -> bytes -> field_result A) (g : N -> N -> B -> bytes -> field_result B) :
  (forall n wt a b a' b', P a -> f n wt a b = FieldOk a' b' -> P a') ->
  (forall n wt a b, P a -> g n wt (r a) b = on_result r (f n wt a b)) -> forall a b, P a -> decode g (r a) b = option_map r (decode f a b).
Proof.
  intros HP H a b. unfold decode. generalize (length b) as k. intros k. revert a b. induction k as [|k IH]; intros a b Pa; destruct b as [|x b]; try reflexivity.
  cbn [decode_loop]. destruct (get_tag (x :: b)) as [[[num wt] rest]|]; [|reflexivity]. destruct (wt =? wt_end_group); [reflexivity|].
  rewrite H by exact Pa. destruct (f num wt a rest) eqn:E; cbn [on_result]; [apply IH; eapply HP; eauto|reflexivity|].
  destruct (skip_value (S (length rest)) num wt rest); [now apply IH|reflexivity].
Qed.

(** decoding keeps the type *)
Lemma varint_ok {A} wt b (f : N -> A) a' b' : on_varint wt b f = FieldOk a' b' -> exists x, a' = f x.
Proof. unfold on_varint. destruct (wt =? wt_varint); [|discriminate]. destruct (get_varint 9 b) as [[v r]|]; [|discriminate]. intros E. injection E as <- _. eauto. Qed.
Lemma fixed_ok {A} wt b (f : N -> A) a' b' : on_fixed64 wt b f = FieldOk a' b' -> exists x, a' = f x.
Proof. unfold on_fixed64. destruct (wt =? wt_fixed64); [|discriminate]. destruct (get_fixed64 b) as [[v r]|]; [|discriminate]. intros E. injection E as <- _. eauto. Qed.
Lemma bytes_ok {A} wt b (f : bytes -> option A) a' b' : on_bytes wt b f = FieldOk a' b' -> exists x, f x = Some a'.
Proof. unfold on_bytes. destruct (wt =? wt_bytes); [|discriminate]. destruct (get_bytes b) as [[v r]|]; [|discriminate]. destruct (f v) eqn:E; [|discriminate]. intros H. injection H as <- _. eauto. Qed.
Lemma string_ok {A} wt b (f : bytes -> A) a' b' : on_string wt b f = FieldOk a' b' -> exists x, a' = f x.
Proof. intros H. apply bytes_ok in H as (x & H). destruct (utf8_valid x); [|discriminate]. injection H as <-. eauto. Qed.
Lemma doubles_ok {A} wt b (f : list N -> A) a' b' : on_doubles wt b f = FieldOk a' b' -> exists x, a' = f x.
Proof.
  unfold on_doubles. destruct (wt =? wt_bytes); [|intros H; apply fixed_ok in H as (x & ->); eauto].
  destruct (get_bytes b) as [[v r]|]; [|discriminate]. destruct (get_doubles (length v) v); [|discriminate]. intros E. injection E as <- _. eauto.
Qed.
Lemma keeps_type n wt m b m' b' : fld_message n wt m b = FieldOk m' b' -> type_of m' = type_of m.
Proof.
  intros H. destruct m; cbn [fld_message] in H;
  repeat match type of H with (if ?c then _ else _) = _ => destruct c end; try discriminate H;
  first [apply varint_ok in H as (x & ->); reflexivity | apply fixed_ok in H as (x & ->); reflexivity | apply string_ok in H as (x & ->); reflexivity
       | apply doubles_ok in H as (x & ->); reflexivity
       | apply bytes_ok in H as (x & H); match type of H with match ?c with _ => _ end = _ => destruct c; [injection H as <-; reflexivity|discriminate H] end].
Qed.

Lemma take_message k b m : (forall n, m <> OtherMessage n) ->
  take_struct lay (S (S (S k))) (type_of m) (struct_of m) b = option_map struct_of (decode fld_message m b).
Proof.
  intros Ho. remember (S (S k)) as k2 eqn:E. cbn [take_struct].
  assert (L : exists l, lay (type_of m) = Some l) by (destruct m; try (eexists; reflexivity); elim (Ho name eq_refl)).
  destruct L as (l & L). rewrite L.
  apply (decode_map_on (fun m' => type_of m' = type_of m)); [|clear b|reflexivity].
  { intros n wt a b1 a' b2 Ha H. apply keeps_type in H. congruence. }
  intros n wt m' b Ty. rewrite <- Ty in L. clear Ty m Ho. subst k2.
  destruct m'; cbn [type_of] in L; try (vm_compute in L; discriminate L); injection L as <-; cbn [struct_of fld_message take_into take_field]; push; try reflexivity.
  destruct (n =? 1); [reflexivity|]. destruct (n =? 2); [reflexivity|]. destruct (n =? 3); [reflexivity|]. destruct (n =? 4).
  - push. apply on_bytes_ext. intros x. change (zero_struct lay 10%nat) with (line_struct []). rewrite take_line.
    destruct (decode fld_line [] x) as [y|]; cbn [option_map]; [|reflexivity]. cbn [struct_of]. now rewrite map_app.
  - destruct (n =? 5); [|reflexivity]. push. apply on_bytes_ext. intros x.
    assert (Z : match option_map metadata_struct metadata with Some s => s | None => zero_struct lay 11%nat end =
                metadata_struct (match metadata with Some x => x | None => ([], [], []) end)) by now destruct metadata.
    rewrite Z, take_metadata. now destruct (decode fld_metadata _ x).
Qed.

(** ** Encoding *)
Lemma sorted_from l s : forall k, (forall i c, nth_error l i = Some c -> fst c = k + N.of_nat i) -> sorted_fields (combine l s) = combine l s.
Proof.
  revert s. induction l as [|[n c] l IH]; intros s k H; [reflexivity|]. destruct s as [|v s]; [reflexivity|].
  cbn [combine]. unfold sorted_fields. cbn [fold_right]. fold (sorted_fields (combine l s)). rewrite (IH s (k + 1)).
  2:{ intros i x Hx. specialize (H (S i) x Hx). lia. }
  destruct l as [|[n' c'] l]; [reflexivity|]. destruct s as [|v' s]; [reflexivity|]. cbn [combine insert_field fst].
  pose proof (H O _ eq_refl) as H0. pose proof (H 1%nat _ eq_refl) as H1. cbn [fst] in *.
  destruct (N.leb_spec n n'); [reflexivity|lia].
Qed.
Lemma sorted_table l s : In l table -> sorted_fields (combine l s) = combine l s.
Proof.
  intros I. apply (sorted_from l s 1). unfold table in I. cbn [In] in I.
  repeat (destruct I as [<-|I]; [intros i c Hc; do 6 (destruct i as [|i]; [cbn in Hc; first [discriminate Hc|injection Hc as <-; reflexivity]|]); destruct i; discriminate Hc|]).
  destruct I.
Qed.
Lemma put_atom k a : put_struct lay (S k) 9%nat (atom_struct a) = if utf8_valid (snd a) then Some (enc_atom a) else None.
Proof.
  destruct a as [z c]. unfold atom_struct, enc_atom. cbn [put_struct fst snd]. change (lay 9%nat) with (Some [(1, CInt64); (2, CString)]).
  cbn [combine sorted_fields fold_right insert_field fst snd]. change (1 <=? 2) with true. cbn [map fst snd put_field all_some].
  destruct (utf8_valid c); [|reflexivity]. cbn [concat]. now rewrite app_nil_r.
Qed.
Lemma all_some_if {A B} (P : A -> bool) (f : A -> B) l :
  all_some (map (fun x => if P x then Some (f x) else None) l) = if forallb P l then Some (map f l) else None.
Proof. induction l as [|x l IH]; [reflexivity|]. cbn [map all_some forallb]. destruct (P x); [|reflexivity]. rewrite IH. cbn [andb]. now destruct (forallb P l). Qed.
Lemma put_line k l : put_struct lay (S (S k)) 10%nat (line_struct l) = if forallb utf8_valid (map snd l) then Some (enc_line l) else None.
Proof.
  remember (S k) as k1 eqn:E. unfold line_struct, enc_line. cbn [put_struct]. change (lay 10%nat) with (Some [(1, CMessages 9%nat)]).
  cbn [combine sorted_fields fold_right insert_field fst snd map put_field]. subst k1. rewrite map_map, (map_ext _ _ (put_atom k)), all_some_if.
  replace (forallb utf8_valid (map snd l)) with (forallb (fun x => utf8_valid (snd x)) l) by (induction l as [|x l IH]; cbn; [reflexivity|now rewrite IH]).
  destruct (forallb _ l); [|reflexivity]. cbn [all_some concat]. rewrite app_nil_r. f_equal. now rewrite flat_map_concat_map, map_map, <- flat_map_concat_map.
Qed.
Lemma put_metadata k m : put_struct lay (S k) 11%nat (metadata_struct m) =
  if forallb utf8_valid [fst (fst m); snd (fst m); snd m] then Some (enc_metadata m) else None.
Proof.
  destruct m as [[a b] c]. unfold metadata_struct, enc_metadata. cbn [put_struct fst snd]. change (lay 11%nat) with (Some [(1, CString); (2, CString); (3, CString)]).
  cbn iota. rewrite sorted_table by (unfold table; cbn [In]; auto 20). cbn [combine map fst snd put_field all_some forallb].
  destruct (utf8_valid a); [|reflexivity]. destruct (utf8_valid b); [|reflexivity]. destruct (utf8_valid c); [|reflexivity].
  cbn [concat andb]. now rewrite app_nil_r.
Qed.
Lemma put_message k m : (forall n, m <> OtherMessage n) -> put_struct lay (S (S (S k))) (type_of m) (struct_of m) = marshal m.
Proof.
  intros Ho. remember (S (S k)) as k2 eqn:E. cbn [put_struct].
  assert (L : exists l, lay (type_of m) = Some l) by (destruct m; try (eexists; reflexivity); elim (Ho name eq_refl)).
  destruct L as (l & L). rewrite L. rewrite sorted_table by (apply nth_error_In with (n := type_of m); exact L). subst k2. unfold marshal.
  destruct m; cbn [type_of] in L; try (vm_compute in L; discriminate L); injection L as <-;
  cbn [struct_of combine map fst snd put_field all_some concat strings_of forallb enc_message andb]; rewrite ?app_nil_r; try reflexivity.
  destruct (utf8_valid songFileName); cbn [andb]; [|reflexivity].
  rewrite map_map, (map_ext _ _ (put_line k)), all_some_if, forallb_app.
  replace (forallb utf8_valid (flat_map (map snd) lyrics)) with (forallb (fun x : list (Z * bytes) => forallb utf8_valid (map snd x)) lyrics)
    by (induction lyrics as [|x ly IH]; cbn; [reflexivity|now rewrite forallb_app, IH]).
  destruct (forallb _ lyrics); cbn [andb]; [|reflexivity].
  assert (Fm : flat_map (f_block 4) (map enc_line lyrics) = flat_map (fun l => f_block 4 (enc_line l)) lyrics) by now rewrite flat_map_concat_map, map_map, <- flat_map_concat_map.
  rewrite Fm. destruct metadata as [md|]; cbn [option_map].
  - rewrite put_metadata. destruct md as [[a b] c]. cbn [fst snd].
    destruct (forallb utf8_valid [a; b; c]); [|reflexivity]. cbn [concat]. now rewrite app_nil_r.
  - cbn [concat]. now rewrite ?app_nil_r.
Qed.

(** ** From the compiled layouts to these *)
Lemma unm_ext l1 l2 k t b : (forall t, l1 t = l2 t) -> take_struct l1 k t (zero_struct l1 t) b = take_struct l2 k t (zero_struct l2 t) b.
Proof. intros H. rewrite (zero_ext l1 l2 t H). now apply take_ext. Qed.
Lemma marshal_lay t s : proto_marshal t s = put_struct lay depth t s.
Proof. exact (put_ext layout lay layout_lay depth t s). Qed.
Lemma unmarshal_lay t b : proto_unmarshal t b = take_struct lay depth t (zero_struct lay t) b.
Proof. exact (unm_ext layout lay depth t b layout_lay). Qed.
