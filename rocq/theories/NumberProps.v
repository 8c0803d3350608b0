(** C101: number arguments of the shell's commands. *)
From Verif Require Import GoBase GoBaseFacts GoFmt PlaylistModel PlaylistSpec CommandsModel CommandsSpec CommandsProps NumberSpec NumberProofs.
Local Open Scope Z_scope.

(** A text denotes at most one number, and the numbers in the replies denote themselves. *)
Theorem C101_unambiguous : forall t z z', reads t z -> reads t z' -> z = z'.
Proof. intros t z z' H H'. apply atoi_reads in H, H'. congruence. Qed.
Print Assumptions C101_unambiguous.

Theorem C101_written : forall z, - 2 ^ 63 <= z < 2 ^ 63 -> reads (itoa z) z.
Proof. intros z H. apply atoi_reads. apply atoi_itoa. exact H. Qed.
Print Assumptions C101_written.

(** jump and remove: refused (the usage is shown) without effect exactly when there is no
    first argument or it is not a number; extra arguments are ignored. *)
Theorem C101_refused : forall glob pf ff sv af docs c args st,
  In c (server_commands glob pf ff sv af docs) -> cmd_name c = T "jump" \/ cmd_name c = T "remove" ->
  ((exists msg st', cmd_exec c args st = Ok (msg, false, st')) <-> ~ exists a r p, args = a :: r /\ reads a p) /\
  (forall msg st', cmd_exec c args st = Ok (msg, false, st') -> msg = [] /\ st' = st) /\
  (forall a r, args = a :: r -> cmd_exec c args st = cmd_exec c [a] st).
Proof.
  intros glob pf ff sv af docs c args st Hc Hn.
  assert (K : forall a r, args = a :: r -> (~ exists p, reads a p) <-> ~ exists a' r' p, args = a' :: r' /\ reads a' p).
  { intros a r ->. split.
    - intros H (a' & r' & p & [= <- <-] & Hp). eauto.
    - intros H [p Hp]. apply H. exists a, r, p. auto. }
  cbn in Hc. repeat destruct Hc as [<-|Hc]; [..|contradiction]; cbn [cmd_exec cmd_name cmd_doc_of d_name] in *;
    try (exfalso; destruct Hn; discriminate).
  - unfold remove_exec, parse_int_param. destruct args as [|a r]; cbn [nth_error].
    + split; [split; [intros _ (a & r & p & H & _); discriminate|eauto]|]. split; [intros ? ? [= <- <-]; auto|discriminate].
    + specialize (K a r eq_refl). destruct (atoi a) as [p|] eqn:E.
      * assert (R : reads a p) by (apply atoi_reads; exact E). split; [split|split].
        -- intros (msg & st' & H). destruct (remove_song (st_songs st) p) as [[l x]|]; discriminate.
        -- intros H. exfalso. apply H. eauto 10.
        -- intros msg st' H. destruct (remove_song (st_songs st) p) as [[l x]|]; discriminate.
        -- intros a' r' [= <- <-]. rewrite E. reflexivity.
      * apply atoi_none in E as E'. split; [split|split].
        -- intros _. apply K. exact E'.
        -- intros _. eauto.
        -- intros msg st' [= <- <-]. auto.
        -- intros a' r' [= <- <-]. rewrite E. reflexivity.
  - unfold jump_exec, parse_int_param. destruct args as [|a r]; cbn [nth_error].
    + split; [split; [intros _ (a & r & p & H & _); discriminate|eauto]|]. split; [intros ? ? [= <- <-]; auto|discriminate].
    + specialize (K a r eq_refl). destruct (atoi a) as [p|] eqn:E.
      * assert (R : reads a p) by (apply atoi_reads; exact E). split; [split|split].
        -- intros (msg & st' & H). discriminate.
        -- intros H. exfalso. apply H. eauto 10.
        -- discriminate.
        -- intros a' r' [= <- <-]. rewrite E. reflexivity.
      * apply atoi_none in E as E'. split; [split|split].
        -- intros _. apply K. exact E'.
        -- intros _. eauto.
        -- intros msg st' [= <- <-]. auto.
        -- intros a' r' [= <- <-]. rewrite E. reflexivity.
Qed.
Print Assumptions C101_refused.

Example C101_nonvacuous :
  reads (T "-12") (-12) /\ reads (T "+007") 7 /\ (~ exists p, reads (T "1/2") p) /\ (~ exists p, reads (T "") p)
  /\ (~ exists p, reads (T "9223372036854775808") p)
  /\ jump_exec [T "-12"] ex_state = Ok (T "jumped to -12", true, with_pos ex_state (-12)).
Proof.
  split; [apply atoi_reads; reflexivity|]. split; [apply atoi_reads; reflexivity|].
  split; [apply atoi_none; reflexivity|]. split; [apply atoi_none; reflexivity|]. split; [apply atoi_none; reflexivity|reflexivity].
Qed.
