(** Properties C60 and C75: authentication. *)
From Verif Require Import GoBase GoBaseFacts AuthModel AuthSpec.

Section AuthProps.
Variable key : Type.
Variable parse_public_key : text -> option key.
Variable marshal_key : key -> text.
Notation serv users check path :=
  (new_server key (ssh_options key parse_public_key marshal_key users check path)).

Lemma find_app_rev {A} (f : A -> bool) a x b : f x = true -> (forall y, In y b -> f y = false) ->
  find f (rev (a ++ x :: b)) = Some x.
Proof.
  intros Hx Hb. rewrite rev_app_distr. cbn [rev]. rewrite <- app_assoc.
  assert (G : forall l t, (forall y, In y l -> f y = false) -> find f (l ++ t) = find f t).
  { induction l as [|y l IH]; intros t H; cbn; [reflexivity|]. rewrite (H y) by now left.
    apply IH. intros; apply H; now right. }
  rewrite G; [cbn; now rewrite Hx|]. intros y Hy. apply Hb. now apply in_rev.
Qed.

Lemma lookup_entry users user auth : lookup users user = Some auth <-> entry_of users user auth.
Proof.
  unfold lookup, entry_of. split.
  - induction users as [|[n v] r IH] using rev_ind; cbn; [discriminate|].
    rewrite rev_app_distr. cbn. destruct (text_eqb n user) eqn:E.
    + intros [= <-]. apply text_eqb_eq in E as ->. exists r, []. split; [reflexivity|intros []].
    + intro H. destruct (IH H) as (b & a & -> & N).
      exists b, (a ++ [(n, v)]). split; [now rewrite <- app_assoc|].
      rewrite map_app, in_app_iff. cbn. apply text_eqb_neq in E. intuition.
  - intros (b & a & -> & N).
    rewrite (find_app_rev (fun e => text_eqb (fst e) user) b (user, auth) a); [reflexivity|apply text_eqb_refl|].
    intros [n v] I. cbn. apply text_eqb_neq. intros ->. apply N. apply in_map_iff. exists (user, v). auto.
Qed.

Lemma serv_handlers users check path :
  sv_password key (serv users check path) = Some (password_handler users) /\
  sv_key key (serv users check path) = Some (public_key_handler key parse_public_key marshal_key users).
Proof. unfold new_server, ssh_options. destruct (host_key_option key check path) as [[| |]|] eqn:E; cbn; auto;
  unfold host_key_option in E; destruct (text_eqb path []); try discriminate; destruct (check path); discriminate.
Qed.

Lemma accepts_iff users check path user a :
  accepts key (serv users check path) user a = true <-> authorised key parse_public_key marshal_key users user a.
Proof.
  destruct (serv_handlers users check path) as [Hp Hk].
  unfold accepts, authorised. destruct a as [|p|k]; rewrite ?Hp, ?Hk.
  - split; [discriminate|]. intros (auth & _ & []).
  - unfold password_handler. split.
    + destruct (lookup users user) as [auth|] eqn:E; [|discriminate]. intro H.
      apply andb_prop in H as [H1 H2]. apply text_eqb_eq in H2. exists auth.
      split; [now apply lookup_entry|]. split; [exact H2|]. intros ->. rewrite H2 in H1. discriminate.
    + intros (auth & He & <- & N). apply lookup_entry in He. rewrite He, text_eqb_refl.
      destruct (text_eqb (u_password auth) []) eqn:E; [|reflexivity]. apply text_eqb_eq in E. contradiction.
  - unfold public_key_handler, keys_equal. split.
    + destruct (lookup users user) as [auth|] eqn:E; [|discriminate].
      destruct (Nat.eqb (length (u_pubkey auth)) 0) eqn:L; [discriminate|].
      destruct (parse_public_key (u_pubkey auth)) as [k'|] eqn:P; [|discriminate]. intro H.
      apply text_eqb_eq in H. exists auth. split; [now apply lookup_entry|]. split; [|eauto].
      intro Z. rewrite Z in L. discriminate.
    + intros (auth & He & N & k' & P & M). apply lookup_entry in He. rewrite He, P.
      destruct (u_pubkey auth); [contradiction|]. cbn. apply text_eqb_eq. auto.
Qed.

(* ================= C60 ================= *)
(** A login attempt succeeds iff it is authorised; there is no way in without one. *)
Theorem C60_login : forall users check path user a,
  accepts key (serv users check path) user a = true <-> authorised key parse_public_key marshal_key users user a.
Proof. exact accepts_iff. Qed.

(** A connection gets a session, as a certain user, only if it named that user and made an
    attempt authorised for it; one that names one user only gets in iff such an attempt is made. *)
Theorem C60_sessions : forall users check path tries user,
  (authenticate key (serv users check path) tries = Some user ->
     In user (map fst tries) /\ exists name a, In (name, a) tries /\ authorised key parse_public_key marshal_key users user a) /\
  (Forall (fun t => fst t = user) tries ->
     (authenticate key (serv users check path) tries = Some user <->
      exists a, In (user, a) tries /\ authorised key parse_public_key marshal_key users user a)).
Proof.
  intros users check path tries user.
  assert (G : forall l c, authenticate_from key (serv users check path) c l = Some user ->
    (c = Some user \/ In user (map fst l)) /\
    exists name a, In (name, a) l /\ authorised key parse_public_key marshal_key users user a).
  { induction l as [|[u a] r IH]; intros c H; cbn [authenticate_from] in H; [discriminate|].
    destruct (accepts key (serv users check path) (match c with Some x => x | None => u end) a) eqn:E.
    - injection H as H. rewrite H in E. apply accepts_iff in E. split.
      + destruct c; [left; now f_equal|right; left; exact H].
      + exists u, a. split; [now left|exact E].
    - destruct (IH _ H) as [A (n & b & I & B)]. split; [|exists n, b; split; [now right|exact B]].
      destruct A as [A|A]; [|right; now right].
      destruct a, c; try (left; exact A); try discriminate; right; left; cbn; congruence. }
  split; [intro H; destruct (G tries None H) as [[A|A] B]; [discriminate|auto]|].
  intro Hf. split.
  - intro H. destruct (G tries None H) as (_ & n & a & I & B). exists a. split; [|exact B].
    rewrite Forall_forall in Hf. specialize (Hf _ I). cbn in Hf. now subst n.
  - intros (a & I & B). unfold authenticate.
    assert (K : forall l c, (c = None \/ c = Some user) -> Forall (fun t => fst t = user) l -> In (user, a) l ->
                authenticate_from key (serv users check path) c l = Some user).
    { induction l as [|[u b] r IH]; intros c Hc Hl Hi; [destruct Hi|].
      inversion Hl as [|? ? Hu Hr]; subst. cbn in Hc. cbn [authenticate_from fst].
      replace (match c with Some x => x | None => u end) with u by (destruct Hc as [->| ->]; reflexivity).
      destruct (accepts key (serv users check path) u b) eqn:E; [reflexivity|].
      apply IH; [destruct b; auto|exact Hr|].
      destruct Hi as [[= <-]|Hi]; [|exact Hi]. apply (accepts_iff users check path) in B. cbn in *. congruence. }
    apply K; auto.
Qed.

(** An account with neither password nor key, or an unknown name, is closed to everybody. *)
Theorem C60_closed_accounts : forall users check path user a,
  (forall auth, entry_of users user auth -> u_password auth = [] /\ u_pubkey auth = []) ->
  accepts key (serv users check path) user a = false.
Proof.
  intros users check path user a H.
  destruct (accepts key (serv users check path) user a) eqn:E; [|reflexivity]. exfalso.
  apply accepts_iff in E as (auth & He & Ha). destruct (H auth He) as [Hp Hk].
  destruct a as [|p|k]; [exact Ha| |].
  - destruct Ha as [<- N]. contradiction.
  - destruct Ha as [N _]. contradiction.
Qed.

(* ================= C75 ================= *)
(** The configured host key is used iff its file can be read; the server asks for
    authentication either way. *)
Theorem C75_host_key : forall users check path,
  sv_host_key key (serv users check path) = (if negb (text_eqb path []) && check path then Some path else None) /\
  forall user, accepts key (serv users check path) user (NoAuth key) = false.
Proof.
  intros users check path. split.
  - unfold new_server, ssh_options, host_key_option. destruct (text_eqb path []); cbn; [reflexivity|].
    destruct (check path); reflexivity.
  - intro user. destruct (accepts key (serv users check path) user (NoAuth key)) eqn:E; [|reflexivity].
    apply accepts_iff in E as (? & _ & []).
Qed.
End AuthProps.

(** Keys are their own wire form here; everything starting with 1 parses. *)
Definition ex_parse (b : text) : option text := match b with 1%N :: _ => Some b | _ => None end.
Definition ex_users : list (text * user_auth) :=
  [(T "anna", {| u_password := T "pw"; u_pubkey := [] |}); (T "ben", {| u_password := []; u_pubkey := [1; 2]%N |});
   (T "carl", {| u_password := []; u_pubkey := [] |})].
Definition ex_server := new_server text (ssh_options text ex_parse (fun b => b) ex_users (fun _ => true) (T "id_rsa")).
Example C60_nonvacuous :
  authorised text ex_parse (fun b => b) ex_users (T "anna") (Password text (T "pw")) /\
  authorised text ex_parse (fun b => b) ex_users (T "ben") (PublicKey text [1; 2]%N) /\
  accepts text ex_server (T "carl") (Password text []) = false /\
  authenticate text ex_server [(T "ben", NoAuth text); (T "ben", Password text []); (T "ben", PublicKey text [1; 2]%N)] = Some (T "ben") /\
  authenticate text ex_server [(T "anna", Password text []); (T "ben", PublicKey text [1; 2]%N)] = None.
Proof.
  split; [exists {| u_password := T "pw"; u_pubkey := [] |}; split;
    [eexists [], _; split; [reflexivity|cbn; intros [H|[H|[]]]; discriminate]|split; [reflexivity|discriminate]]|].
  split; [exists {| u_password := []; u_pubkey := [1; 2]%N |}; split;
    [eexists [_], _; split; [reflexivity|cbn; intros [H|[]]; discriminate]|split; [discriminate|exists [1; 2]%N; split; reflexivity]]|].
  repeat split; vm_compute; reflexivity.
Qed.

Print Assumptions C60_login.
Print Assumptions C60_sessions.
Print Assumptions C60_closed_accounts.
Print Assumptions C75_host_key.
