(** Lemmas about the logging model. *)
From Verif Require Import GoBase GoBaseFacts LoggingModel LoggingSpec.
From Coq Require Import Sorting.Permutation.
Local Open Scope Z_scope.

Lemma find_cutoff levels default name c : has_cutoff levels default name c ->
  cutoff_level {| k_levels := levels; k_default := default |} name = c.
Proof.
  unfold cutoff_level. cbn [k_levels k_default]. intros [(newer & older & -> & N)|[N ->]].
  - induction newer as [|[n v] r IH]; cbn [app find fst snd].
    + rewrite text_eqb_refl. reflexivity.
    + cbn in N. destruct (text_eqb n name) eqn:E.
      * apply text_eqb_eq in E. exfalso. auto.
      * apply IH. auto.
  - induction levels as [|[n v] r IH]; cbn [find fst snd]; [reflexivity|].
    cbn in N. destruct (text_eqb n name) eqn:E.
    + apply text_eqb_eq in E. exfalso. auto.
    + apply IH. auto.
Qed.

Lemma cutoff_exists levels default name : exists c, has_cutoff levels default name c.
Proof.
  induction levels as [|[n v] r (c & IH)].
  - exists default. right. split; [intros []|reflexivity].
  - destruct (text_eqb n name) eqn:E.
    + apply text_eqb_eq in E as ->. exists v. left. exists [], r. split; [reflexivity|intros []].
    + exists c. assert (N : n <> name) by (intros ->; rewrite text_eqb_refl in E; discriminate).
      destruct IH as [(newer & older & -> & H)|[H ->]].
      * left. exists ((n, v) :: newer), older. split; [reflexivity|]. cbn. intros [A|A]; auto.
      * right. split; [|reflexivity]. cbn. intros [A|A]; auto.
Qed.

Lemma replace_format short full name date msg :
  replace (length format)
    [ (T "{lvl}", short); (T "{level}", full); (T "{name}", name); (T "{date}", date);
      (T "{message}", msg); (T "{msg}", msg) ] format
  = T "[" ++ short ++ T "] [" ++ name ++ T "] " ++ date ++ T ": " ++ msg.
Proof.
  cbn -[app]. repeat (first [rewrite <- app_comm_cons | rewrite app_nil_r]); cbn [app]; reflexivity.
Qed.

Lemma four_ok name : slice_to (name ++ T "    ") 4 = Ok (four name).
Proof.
  unfold slice_to, four, zlen. rewrite app_length. change (length (T "    ")) with 4%nat.
  replace ((4 <? 0) || (Z.of_nat (length name + 4) <? 4))%bool with false; [reflexivity|].
  symmetry. apply Bool.orb_false_iff. split; [reflexivity|]. apply Z.ltb_ge. lia.
Qed.

Lemma find_some_ex {A} (f : A -> bool) l x : In x l -> f x = true -> exists y, find f l = Some y.
Proof.
  intros I H. destruct (find f l) as [y|] eqn:E; [eauto|].
  pose proof (find_none _ _ E _ I). congruence.
Qed.

Lemma entry_spelled other e : In e level_names ->
  exists s, fst e = rank s /\ [to_lower other (n_full (snd e)); to_lower other (n_short (snd e))] = spelled s.
Proof.
  intro I. cbn in I. repeat destruct I as [<-|I]; [..|contradiction].
  - exists Trace; split; reflexivity.
  - exists Debug; split; reflexivity.
  - exists Info; split; reflexivity.
  - exists Warn; split; reflexivity.
  - exists Error; split; reflexivity.
  - exists Fatal; split; reflexivity.
Qed.

Lemma spelled_entry other s : exists e, In e level_names /\ fst e = rank s /\
  [to_lower other (n_full (snd e)); to_lower other (n_short (snd e))] = spelled s.
Proof.
  destruct s.
  - eexists; split; [do 0 right; left; reflexivity|]. split; reflexivity.
  - eexists; split; [do 1 right; left; reflexivity|]. split; reflexivity.
  - eexists; split; [do 2 right; left; reflexivity|]. split; reflexivity.
  - eexists; split; [do 3 right; left; reflexivity|]. split; reflexivity.
  - eexists; split; [do 4 right; left; reflexivity|]. split; reflexivity.
  - eexists; split; [do 5 right; left; reflexivity|]. split; reflexivity.
Qed.

Lemma spelled_inj s s' n : In n (spelled s) -> In n (spelled s') -> s = s'.
Proof.
  intros H H'. destruct s, s'; try reflexivity; exfalso; cbn in H, H';
    destruct H as [<-|[<-|[]]]; destruct H' as [H'|[H'|[]]]; discriminate.
Qed.

Lemma level_by_name_spec other order name : Permutation level_names order ->
  (forall s, In (to_lower other name) (spelled s) -> level_by_name other order name = rank s) /\
  ((forall s, ~ In (to_lower other name) (spelled s)) -> level_by_name other order name = LevelOff).
Proof.
  intro P. unfold level_by_name.
  set (f := fun e : Z * level_name => _).
  assert (F : forall e s, [to_lower other (n_full (snd e)); to_lower other (n_short (snd e))] = spelled s ->
              f e = true <-> In (to_lower other name) (spelled s)).
  { intros e s <-. unfold f. rewrite Bool.orb_true_iff, !text_eqb_eq. cbn. tauto. }
  split.
  - intros s H. destruct (spelled_entry other s) as (e & Ie & Re & Se).
    destruct (find_some_ex f order e) as (y & Y).
    + now apply (Permutation_in _ P).
    + now apply (F e s Se).
    + rewrite Y. apply find_some in Y as [Iy Fy].
      apply (Permutation_in _ (Permutation_sym P)) in Iy.
      destruct (entry_spelled other y Iy) as (s' & Ry & Sy).
      apply (F y s' Sy) in Fy. now rewrite Ry, (spelled_inj _ _ _ H Fy).
  - intros H. destruct (find f order) as [y|] eqn:Y; [|reflexivity]. exfalso.
    apply find_some in Y as [Iy Fy].
    apply (Permutation_in _ (Permutation_sym P)) in Iy.
    destruct (entry_spelled other y Iy) as (s' & Ry & Sy).
    apply (F y s' Sy) in Fy. now apply (H s').
Qed.

Lemma flags_unused by_name given k name : In name logger_names ->
  cutoff_level (handle_logging_flags by_name given k) name =
  cutoff_level {| k_levels := k_levels k; k_default := k_default (handle_logging_flags by_name given k) |} name.
Proof.
  intro I. unfold handle_logging_flags. cbn [k_default].
  set (d := match given (T "logging") with [] => _ | _ => _ end).
  assert (G : forall fs l, (forall f, In f fs -> text_eqb f name = false) ->
    cutoff_level {| k_levels := fold_left (fun l f => match given (flag_key f) with [] => l | v => (f, by_name v) :: l end) fs l;
                    k_default := d |} name = cutoff_level {| k_levels := l; k_default := d |} name).
  { induction fs as [|f fs IH]; intros l H; cbn [fold_left]; [reflexivity|].
    rewrite IH by (intros; apply H; now right).
    destruct (given (flag_key f)) as [|c r]; [reflexivity|].
    unfold cutoff_level. cbn [k_levels k_default find fst]. now rewrite (H f) by now left. }
  apply G. intros f Hf. cbn in I, Hf.
  repeat (destruct I as [<-|I]; [repeat (destruct Hf as [<-|Hf]; [reflexivity|]); contradiction|]). contradiction.
Qed.
