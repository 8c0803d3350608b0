(** Specification of what the log of the control shell tells (C111). *)
From Verif Require Import GoBase LoggingSpec AuthModel AuthSpec AuditModel.

(** how often a message was logged; how many passwords were tried *)
Fixpoint times (m : text) (msgs : list text) : nat :=
  match msgs with [] => 0 | x :: r => (if text_eqb x m then 1 else 0) + times m r end.
Fixpoint passwords (rs : list (text * request)) : nat :=
  match rs with [] => 0 | (_, RPassword _) :: r => S (passwords r) | _ :: r => passwords r end.

(** one entry of a log, and the text of a log *)
Record entry := { e_sev : severity; e_name : text; e_date : text; e_msg : text }.
Definition log_text (es : list entry) : text := concat (map (fun e => log_line (e_sev e) (e_name e) (e_date e) (e_msg e)) es).
(** what can be read off an entry: names are cut or padded to four bytes *)
Definition readable (e : entry) : severity * text * text * text := (e_sev e, four (e_name e), e_date e, e_msg e).
(** the date has a fixed length (2006-01-02 15:04:05.000); the message is a single line *)
Definition one_line (e : entry) : Prop := length (e_date e) = 23%nat /\ ~ In 10%N (e_msg e).

(** the messages, as they are to be read *)
Definition says_failed (addr user how : text) : text := T "failed ssh login attempt from " ++ addr ++ T " as " ++ user ++ T " using a " ++ how.
Definition says_new (addr user : text) : text := T "new ssh connection from " ++ addr ++ T " as " ++ user.
Definition says_closed (addr user : text) : text := T "connection " ++ addr ++ T " as " ++ user ++ T " closed".
Definition says_error (addr user err : text) : text := T "connection error from " ++ addr ++ T " as " ++ user ++ T ": " ++ err.
Definition says_no_pty (addr user : text) : text := T "no pty req from " ++ addr ++ T " as " ++ user.
Definition says_unreadable (user err : text) : text := T "failed to parse ssh key for " ++ user ++ T ": " ++ err.
