(** Properties C58, C59 and C74: logging. *)
From Verif Require Import GoBase GoBaseFacts LoggingModel LoggingSpec LoggingProofs.
From Coq Require Import Sorting.Permutation.
Local Open Scope Z_scope.

(* ================= C58 ================= *)
(** A message at or above its logger's cutoff is written once, as one line with the text
    verbatim, to stderr from WARN on; one below it is not written. *)
Theorem C58_filter : forall levels default name date msg s c,
  has_cutoff levels default name c ->
  log_call {| k_levels := levels; k_default := default |} name date msg (rank s) =
    Ok (if c <=? rank s
        then [(match s with Trace | Debug | Info => Stdout | Warn | Error | Fatal => Stderr end,
               log_line s name date msg)]
        else []).
Proof.
  intros levels default name date msg s c H. apply find_cutoff in H.
  unfold log_call. rewrite four_ok. cbn [obind]. rewrite H. unfold should_log.
  destruct (c <=? rank s); cbn [negb]; [|reflexivity].
  rewrite replace_format. f_equal. f_equal. unfold log_line. f_equal.
  - destruct s; reflexivity.
  - rewrite <- !app_assoc. replace (short_name (rank s)) with (short s) by (destruct s; reflexivity). reflexivity.
Qed.

(** Every table gives every logger exactly one cutoff. *)
Theorem C58_cutoff_total : forall levels default name,
  exists c, has_cutoff levels default name c /\ forall c', has_cutoff levels default name c' -> c' = c.
Proof.
  intros levels default name. destruct (cutoff_exists levels default name) as (c & H).
  exists c. split; [exact H|]. intros c' H'. apply find_cutoff in H, H'. congruence.
Qed.

Example C58_nonvacuous :
  has_cutoff [(T "play", 5); (T "comm", 3)] 2 (T "comm") 3 /\
  log_call {| k_levels := [(T "play", 5); (T "comm", 3)]; k_default := 2 |} (T "comm") (T "now") (T "got {date} {lvl}") 3
  = Ok [(Stderr, T "[WRN] [comm] now: got {date} {lvl}" ++ [10%N])] /\
  log_call {| k_levels := [(T "play", 5); (T "comm", 3)]; k_default := 2 |} (T "comm") (T "now") (T "x") 2 = Ok [].
Proof.
  split; [left; exists [(T "play", 5)], []; split; [reflexivity|cbn; intros [H|[]]; discriminate]|].
  split; vm_compute; reflexivity.
Qed.

(* ================= C59 ================= *)
(** Every program start: whatever the per-package flags are given, the cutoff of every
    package's logger is the one set with --logging, or INFO without it. *)
Theorem C59_package_flags_ignored_refuted : forall by_name given name,
  In name [T "comm"; T "play"; T "shed"; T "ssh"; T "time"] ->
  has_cutoff (k_levels (handle_logging_flags by_name given initial_cutoffs))
             (k_default (handle_logging_flags by_name given initial_cutoffs)) name
             (match given (T "logging") with [] => rank Info | v => by_name v end).
Proof.
  intros by_name given name I.
  destruct (cutoff_exists (k_levels (handle_logging_flags by_name given initial_cutoffs))
             (k_default (handle_logging_flags by_name given initial_cutoffs)) name) as (c & H).
  replace (match given (T "logging") with [] => rank Info | v => by_name v end) with c; [exact H|].
  apply find_cutoff in H. rewrite <- H.
  change (cutoff_level {| k_levels := ?a; k_default := ?b |} name) with (cutoff_level (handle_logging_flags by_name given initial_cutoffs) name).
  rewrite flags_unused by exact I. reflexivity.
Qed.

(** --comm-logging=trace does not make a trace message of the comm logger appear. *)
Theorem C59_trace_not_shown_refuted : forall by_name given date msg,
  given (T "comm-logging") = T "trace" -> by_name (T "trace") = rank Trace -> given (T "logging") = [] ->
  log_call (handle_logging_flags by_name given initial_cutoffs) (T "comm") date msg (rank Trace) = Ok [].
Proof.
  intros by_name given date msg H1 H2 H3.
  pose proof (C59_package_flags_ignored_refuted by_name given (T "comm") (or_introl eq_refl)) as C.
  rewrite H3 in C.
  pose proof (C58_filter _ _ _ date msg Trace _ C) as F. exact F.
Qed.

(** The general flag works: with --logging=X every logger uses level X. *)
Theorem C59_default_flag_partial : forall other order given name s,
  Permutation level_names order -> In name [T "comm"; T "play"; T "shed"; T "ssh"; T "time"] ->
  In (to_lower other (given (T "logging"))) (spelled s) ->
  let k := handle_logging_flags (level_by_name other order) given initial_cutoffs in
  has_cutoff (k_levels k) (k_default k) name (rank s).
Proof.
  intros other order given name s P I H.
  pose proof (C59_package_flags_ignored_refuted (level_by_name other order) given name I) as C.
  destruct (given (T "logging")) as [|c r].
  - exfalso. destruct s; cbn in H; destruct H as [H|[H|[]]]; discriminate.
  - rewrite (proj1 (level_by_name_spec other order (c :: r) P) s H) in C. exact C.
Qed.

Definition ex_given (f : text) : text := if text_eqb f (T "comm-logging") then T "trace" else [].
Example C59_nonvacuous :
  ex_given (T "comm-logging") = T "trace" /\ ex_given (T "logging") = [] /\
  level_by_name (fun c => c) level_names (T "trace") = rank Trace /\
  In (to_lower (fun c => c) (T "WaRN")) (spelled Warn).
Proof. repeat split; try reflexivity. left; reflexivity. Qed.

(* ================= C74 ================= *)
(** A level is recognised by its full or short name in any case and in any map order;
    anything else means OFF, with which none of the six levels is written. *)
Theorem C74_level_names : forall other order name, Permutation level_names order ->
  (forall s, level_by_name other order name = rank s <-> In (to_lower other name) (spelled s)) /\
  ((forall s, ~ In (to_lower other name) (spelled s)) -> level_by_name other order name = LevelOff).
Proof.
  intros other order name P. destruct (level_by_name_spec other order name P) as [A B].
  split; [|exact B]. intro s. split; [|apply A]. intro E.
  assert (D : (exists s', In (to_lower other name) (spelled s')) \/ forall s', ~ In (to_lower other name) (spelled s')).
  { assert (Hdec : forall s', {In (to_lower other name) (spelled s')} + {~ In (to_lower other name) (spelled s')})
      by (intro; apply in_dec; apply list_eq_dec; apply N.eq_dec).
    destruct (Hdec Trace); [left; eauto|]. destruct (Hdec Debug); [left; eauto|]. destruct (Hdec Info); [left; eauto|].
    destruct (Hdec Warn); [left; eauto|]. destruct (Hdec Error); [left; eauto|]. destruct (Hdec Fatal); [left; eauto|].
    right. intros []; assumption. }
  destruct D as [(s' & H)|H].
  - replace s with s'; [exact H|]. rewrite (A s' H) in E. destruct s, s'; try reflexivity; discriminate.
  - rewrite (B H) in E. destruct s; discriminate.
Qed.

Theorem C74_off_is_silent : forall levels default name date msg s,
  has_cutoff levels default name LevelOff ->
  log_call {| k_levels := levels; k_default := default |} name date msg (rank s) = Ok [].
Proof.
  intros levels default name date msg s H. rewrite (C58_filter _ _ _ date msg s _ H).
  destruct s; reflexivity.
Qed.

(** What is accepted for ASCII input: the name with its letters in either case. *)
Theorem C74_ascii : forall other n s, Forall (fun c => (c < 128)%N) n ->
  (In (to_lower other n) (spelled s) <->
   exists w, In w (spelled s) /\ Forall2 (fun c d => c = d \/ (c + 32 = d /\ 65 <= c <= 90)%N) n w).
Proof.
  intros other n s Hn. split.
  - intro H. exists (to_lower other n). split; [exact H|]. clear H.
    induction Hn as [|c r Hc Hr IH]; cbn; constructor; [|exact IH].
    unfold lower_rune. apply N.ltb_lt in Hc. rewrite Hc.
    destruct ((65 <=? c) && (c <=? 90))%N%bool eqn:E; [|now left].
    apply andb_prop in E as [E1 E2]. apply N.leb_le in E1, E2. right. lia.
  - intros (w & Hw & F). replace (to_lower other n) with w; [exact Hw|].
    assert (L : Forall (fun d => 97 <= d <= 122)%N w).
    { destruct s; cbn in Hw; destruct Hw as [<-|[<-|[]]]; cbn; repeat constructor; try (intro; discriminate). }
    clear Hw. induction F as [|c d r w' Hcd F IH]; [reflexivity|].
    inversion Hn as [|? ? Hc Hr]; subst. inversion L as [|? ? Hd Lr]; subst.
    cbn. f_equal; [|now apply IH]. unfold lower_rune. pose proof Hc as Hc'. apply N.ltb_lt in Hc'. rewrite Hc'.
    destruct ((65 <=? c) && (c <=? 90))%N%bool eqn:E.
    + apply andb_prop in E as [E1 E2]. apply N.leb_le in E1, E2. destruct Hcd as [->|[? ?]]; lia.
    + destruct Hcd as [->|[? [H1 H2]]]; [reflexivity|].
      apply N.leb_le in H1, H2. rewrite H1, H2 in E. discriminate.
Qed.

Example C74_nonvacuous :
  level_by_name (fun c => c) (rev level_names) (T "eRr") = 4 /\ level_by_name (fun c => c) level_names (T "verbose") = 6.
Proof. split; vm_compute; reflexivity. Qed.

Print Assumptions C58_filter.
Print Assumptions C58_cutoff_total.
Print Assumptions C59_package_flags_ignored_refuted.
Print Assumptions C59_trace_not_shown_refuted.
Print Assumptions C59_default_flag_partial.
Print Assumptions C74_level_names.
Print Assumptions C74_off_is_silent.
Print Assumptions C74_ascii.
