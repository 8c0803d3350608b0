(** Properties C105 and C106: the lyrics and users files. *)
From Verif Require Import GoBase GoBaseFacts GoFmt GoUtf8 NumberSpec NumberProofs WireModel WireSpec ServerModel ServerProps
  AuthModel AuthSpec AuthProps JsonSpec JsonModel JsonProofs JsonDecodeProofs.
Local Open Scope N_scope.

(* ================= C105 ================= *)
(** A lyrics file is read as what it denotes, down to the last letter. *)
Theorem C105_read : forall file v ly, file_value file v -> lyrics_denote v ly -> collect_lyrics (Some file) = ly.
Proof.
  intros file v ly F D. unfold collect_lyrics. apply decode_lyrics_spec in D.
  rewrite (parse_file_complete file v F); [now rewrite D|]. intro N. destruct v; try contradiction. discriminate D.
Qed.

(** All or nothing: no file, or one that is not a JSON array of lines in its entirety, means no lyrics. *)
Theorem C105_all_or_nothing : forall content,
  collect_lyrics content = [] \/
  exists file v, content = Some file /\ file_value file v /\ lyrics_denote v (collect_lyrics content).
Proof.
  intros [file|]; [|now left]. unfold collect_lyrics. destruct (parse_file file) as [v|] eqn:P; [|now left].
  destruct (decode_lyrics v) as [ly|] eqn:D; [|now left]. right. exists file, v. split; [reflexivity|].
  split; [now apply parse_file_sound|now apply decode_lyrics_spec].
Qed.

(** A file denotes one thing only. *)
Theorem C105_unambiguous : forall file v v' ly ly',
  file_value file v -> lyrics_denote v ly -> file_value file v' -> lyrics_denote v' ly' -> ly = ly'.
Proof. intros file v v' ly ly' F D F' D'. rewrite <- (C105_read file v ly F D). now apply C105_read with v'. Qed.

(** Whatever the file: captions are Unicode text, timestamps 64-bit numbers. *)
Lemma denoted_in v ly : lyrics_denote v ly -> forall line, In line ly -> forall a, In a line -> exists x, atom_denotes x (fst a) (snd a).
Proof.
  intros [[_ ->]|(l & _ & F)] line Hl a Ha; [destruct Hl|].
  induction F as [|x y l ly Hxy F IH]; [destruct Hl|]. destruct Hl as [->|Hl]; [|now apply IH].
  destruct Hxy as [[_ ->]|(l' & _ & F')]; [destruct Ha|]. clear - F' Ha.
  induction F' as [|x y l ly Hxy F IH]; [destruct Ha|]. destruct Ha as [->|Ha]; [eauto|now apply IH].
Qed.

Section Strings.
(** texts anywhere inside a value *)
Variable P : bytes -> Prop.
Fixpoint strings (v : jvalue) : Prop :=
  match v with
  | JString s => P s
  | JArray l => fold_right (fun x q => strings x /\ q) True l
  | JObject l => fold_right (fun m q => strings (snd m) /\ q) True l
  | _ => True
  end.
Lemma strings_array l v : strings (JArray l) -> In v l -> strings v.
Proof. cbn. induction l as [|x l IH]; intros H I; [destruct I|]. destruct H as [A B], I as [->|I]; auto. Qed.
Lemma strings_object l k v : strings (JObject l) -> In (k, v) l -> strings v.
Proof. cbn. induction l as [|x l IH]; intros H I; [destruct I|]. destruct H as [A B], I as [->|I]; auto. Qed.
Lemma json_strings : (forall raw s, chars raw s -> P s) ->
  (forall t v, json t v -> strings v) /\
  (forall t l, elements t l -> fold_right (fun x q => strings x /\ q) True l) /\
  (forall t l, members t l -> fold_right (fun m q => strings (snd m) /\ q) True l).
Proof. intro H. apply json_mutind; cbn; eauto. Qed.
End Strings.

Definition unicode (s : bytes) : Prop := exists t, Forall scalar t /\ s = utf8_encode t.
Lemma atom_text v a P : strings P v -> P [] -> atom_denotes v (fst a) (snd a) -> P (snd a).
Proof.
  intros S N [(_ & _ & ->)|(l & -> & _ & _ & _ & [D|[_ ->]])]; [exact N| |exact N].
  destruct D as (b & k & r & -> & _). apply (strings_object P _ k (JString (snd a)) S). apply in_or_app. right. now left.
Qed.
Theorem C105_captions : forall content line ts caption, In line (collect_lyrics content) -> In (ts, caption) line ->
  in_int64 ts /\ exists t, Forall scalar t /\ caption = utf8_encode t.
Proof.
  intros content line ts caption Hl Ha. destruct (C105_all_or_nothing content) as [E|(file & v & -> & F & D)]; [rewrite E in Hl; destruct Hl|].
  set (ly := collect_lyrics (Some file)) in *. clearbody ly.
  destruct F as (w & t & rest & _ & _ & J). assert (S : strings unicode v) by (apply (json_strings unicode chars_utf8) in J; exact J).
  assert (N : unicode []) by (exists []; split; [constructor|reflexivity]).
  destruct D as [[_ ->]|(l & -> & Fl)]; [destruct Hl|].
  assert (Q : exists x, strings unicode x /\ line_denotes x line).
  { clear - Fl Hl S. assert (G : forall x, In x l -> strings unicode x) by (intros; eapply strings_array; eauto). clear S.
    induction Fl as [|x y l ly Hxy F IH]; [destruct Hl|]. destruct Hl as [->|Hl]; [exists x; split; [apply G; now left|exact Hxy]|].
    apply IH; [exact Hl|]. intros; apply G; now right. }
  destruct Q as (x & Sx & [[_ ->]|(l' & -> & Fl')]); [destruct Ha|].
  assert (Q : exists x, strings unicode x /\ atom_denotes x ts caption).
  { clear - Fl' Ha Sx. assert (G : forall x, In x l' -> strings unicode x) by (intros; eapply strings_array; eauto). clear Sx.
    induction Fl' as [|x y l ly Hxy F IH]; [destruct Ha|]. destruct Ha as [->|Ha]; [exists x; split; [apply G; now left|exact Hxy]|].
    apply IH; [exact Ha|]. intros; apply G; now right. }
  destruct Q as (y & Sy & A). split; [|exact (atom_text y (ts, caption) unicode Sy N A)].
  destruct A as [(_ & -> & _)|(o & _ & _ & _ & [(z & _ & t' & _ & R)|[_ ->]] & _)]; try (unfold in_int64; lia).
  destruct R as (ds & _ & _ & R & _). unfold in_int64. lia.
Qed.

(** So no lyrics file keeps its song from being announced: with a file name and tags that are
    UTF-8 the announcement arrives, with the lyrics as read. *)
Theorem C105_announced : forall (w : wire_env) start file len content md,
  zlib_inverse w -> in_uint64 start -> in_int64 len ->
  Forall (fun b => exists t, Forall scalar t /\ b = utf8_encode t) [file; m_title md; m_artist md; m_album md] ->
  let ly := map (map (fun a => {| a_timestamp := fst a; a_caption := snd a |})) (collect_lyrics content) in
  fits w (new_song_message start file len ly md) ->
  exists f, frame_of w (new_song_message start file len ly md) f
    /\ forall pieces rest, concat pieces = f ++ rest ->
       exists pieces' ly' md', read_wire w pieces = Ok (Some (NewSongInfo start file len ly' md'), pieces')
         /\ concat pieces' = rest /\ from_wire_lyrics ly' = ly /\ from_wire_metadata md' = md.
Proof.
  intros w start file len content md Hz Hs Hlen Ht ly Hf. apply C56_arrives_partial; [exact Hz|].
  split; [|split; [|exact Hf]].
  - cbn. split; [exact Hs|]. split; [exact Hlen|]. unfold to_wire_lyrics. rewrite Forall_map, Forall_forall. intros line Hl.
    unfold ly in Hl. apply in_map_iff in Hl as (line' & <- & Hl). rewrite map_map, Forall_map, Forall_forall. intros [ts cap] Ha. cbn.
    exact (proj1 (C105_captions content line' ts cap Hl Ha)).
  - inversion_clear Ht as [|? ? H1 Ht']. inversion_clear Ht' as [|? ? H2 Ht'']. inversion_clear Ht'' as [|? ? H3 Ht3].
    inversion_clear Ht3 as [|? ? H4 _]. cbn. split; [exact H1|]. split; [|auto].
    unfold to_wire_lyrics. rewrite Forall_map, Forall_forall. intros line Hl.
    unfold ly in Hl. apply in_map_iff in Hl as (line' & <- & Hl). rewrite map_map, Forall_map, Forall_forall. intros [ts cap] Ha. cbn.
    exact (proj2 (C105_captions content line' ts cap Hl Ha)).
Qed.
Print Assumptions C105_read.
Print Assumptions C105_all_or_nothing.
Print Assumptions C105_unambiguous.
Print Assumptions C105_captions.
Print Assumptions C105_announced.

(* ================= C106 ================= *)
(** The users file is read iff it is an object of users, and then as what it denotes. *)
Theorem C106_read : forall file users,
  read_users (Some file) = Some users <-> exists v, file_value file v /\ users_denote v users.
Proof.
  intros file users. unfold read_users. split.
  - destruct (parse_file file) as [v|] eqn:P; [|discriminate]. intro D. exists v.
    split; [now apply parse_file_sound|now apply decode_users_spec].
  - intros (v & F & D). apply decode_users_spec in D. rewrite (parse_file_complete file v F); [exact D|].
    intro N. destruct v; try contradiction. discriminate D.
Qed.
Theorem C106_unambiguous : forall file v v' users users',
  file_value file v -> users_denote v users -> file_value file v' -> users_denote v' users' -> users = users'.
Proof.
  intros file v v' us us' F D F' D'. assert (A : read_users (Some file) = Some us) by (apply C106_read; eauto).
  assert (B : read_users (Some file) = Some us') by (apply C106_read; eauto). congruence.
Qed.
(** Reading fails (and the server ends before anybody can log in) iff there is no file or it
    denotes no users. *)
Theorem C106_refused : forall content,
  read_users content = None <-> forall file v users, content = Some file -> file_value file v -> ~ users_denote v users.
Proof.
  intros content. split.
  - intros R file v us -> F D. assert (A : read_users (Some file) = Some us) by (apply C106_read; eauto). congruence.
  - intro H. destruct content as [file|]; [|reflexivity]. destruct (read_users (Some file)) as [us|] eqn:R; [|reflexivity].
    exfalso. apply C106_read in R as (v & F & D). exact (H file v us eq_refl F D).
Qed.

Section Logins.
Variable key : Type.
Variable parse_public_key : bytes -> option key.
Variable marshal_key : key -> bytes.

(** From the file to the login: a login attempt succeeds iff the last entry of that user in
    the file has the password, not empty, or the key. *)
Theorem C106_logins : forall file users check path user a,
  read_users (Some file) = Some users ->
  (accepts key (new_server key (ssh_options key parse_public_key marshal_key users check path)) user a = true <->
   exists l before x after auth, file_value file (JObject l) /\ l = before ++ (user, x) :: after /\ ~ In user (map fst after) /\
     user_denotes x auth /\
     match a with
     | NoAuth _ => False
     | Password _ p => u_password auth = p /\ p <> []
     | PublicKey _ k => u_pubkey auth <> [] /\ exists k', parse_public_key (u_pubkey auth) = Some k' /\ marshal_key k' = marshal_key k
     end).
Proof.
  intros file users check path user a R. rewrite C60_login. unfold authorised, entry_of.
  assert (G : forall (l : list (bytes * jvalue)) (us : list (bytes * user_auth)), Forall2 (fun m u => fst m = fst u /\ user_denotes (snd m) (snd u)) l us -> map fst l = map fst us).
  { clear. induction 1 as [|m u l us [E _] F IH]; cbn; congruence. }
  split.
  - intros (auth & (b & r & -> & N) & H). apply C106_read in R as (v & F & [[_ E]|(l & -> & D)]); [now destruct b|].
    apply Forall2_app_inv_r in D as (lb & lr & Db & Dr & ->). inversion Dr as [|[n x] ? lr' ? [E D] Dr']; subst. cbn in E, D. subst n.
    exists (lb ++ (user, x) :: lr'), lb, x, lr', auth. split; [exact F|]. split; [reflexivity|]. split; [|split; [exact D|exact H]].
    now rewrite (G _ _ Dr').
  - intros (l & b & x & r & auth & F & -> & N & D & H). exists auth. split; [|exact H].
    apply C106_read in R as (v & F' & U). assert (U' := U). destruct U as [[-> _]|(l' & -> & D')].
    + apply parse_file_complete in F; [|exact (fun x => x)]. apply parse_file_complete in F'; [|exact (fun x => x)]. congruence.
    + apply parse_file_complete in F; [|exact (fun x => x)]. apply parse_file_complete in F'; [|exact (fun x => x)].
      assert (E : l' = b ++ (user, x) :: r) by congruence. subst l'.
      apply Forall2_app_inv_l in D' as (ub & ur & Db & Dr & ->). inversion Dr as [|? [n y] ? ur' [E Dy] Dr']; subst. cbn in E, Dy. subst n.
      apply decode_user_spec in D, Dy. assert (y = auth) by congruence. subst y.
      exists ub, ur'. split; [reflexivity|]. now rewrite <- (G _ _ Dr').
Qed.
End Logins.
Print Assumptions C106_read.
Print Assumptions C106_unambiguous.
Print Assumptions C106_refused.
Print Assumptions C106_logins.

(** Quotes, in string literals: *)
Definition Q (s : String.string) : bytes := map (fun c => if c =? 39 then 34 else c) (T s).
Arguments Q s%string_scope.
Example C105_nonvacuous :
  (* the shape of README.md *)
  collect_lyrics (Some (Q " [ [{'timestamp': 1234, 'caption': 'The first '}, {'caption':'line','timestamp':-5678}], [] ] rest"))
    = [[(1234%Z, T "The first "); ((-5678)%Z, T "line")]; []] /\
  (* escapes, surrogate pairs, single surrogates, bytes that are not UTF-8 *)
  collect_lyrics (Some (Q "[[{'caption':'a\n\u00e9\ud83d\ude00\ud83dx" ++ [255; 195; 169] ++ Q "'}]]"))
    = [[(0%Z, [97; 10; 195; 169; 240; 159; 152; 128; 239; 191; 189; 120; 239; 191; 189; 195; 169])]] /\
  (* the last one counts, null does not, case does not matter, others are ignored *)
  collect_lyrics (Some (Q "[[{'TimeStamp':1,'timestamp':2,'timestamp':null,'x':{'y':[1.5e-3,true]},'caption':'c'}], null]"))
    = [[(2%Z, T "c")]; []] /\
  (* one timestamp that is no integer, one text left open: no lyrics at all *)
  collect_lyrics (Some (Q "[[{'timestamp':1.0}]]")) = [] /\ collect_lyrics (Some (Q "[[{'timestamp':1,'caption':'c}]]")) = [].
Proof. repeat split; vm_compute; reflexivity. Qed.
(** what the first file denotes, by the specification *)
Example C105_denotes : exists v, file_value (Q " [ [] ]") v /\ lyrics_denote v [[]].
Proof.
  exists (JArray [JArray []]). split.
  - exists [32], (Q "[ [] ]"), []. split; [reflexivity|]. split; [repeat constructor; auto|].
    apply (json_array (Q " [] ")). apply (elements_one [32] (Q "[]") (JArray []) [32]); [repeat constructor; auto| |repeat constructor; auto].
    apply (json_empty_array []). constructor.
  - right. eexists. split; [reflexivity|]. constructor; [|constructor]. right. eexists. split; [reflexivity|constructor].
Qed.
Example C106_nonvacuous :
  read_users (Some (Q "{'test-user': {'password': 'test-password'}, 'b': {'pubKey': 'AQID' }, 'c': {'PUBKEY': [1, 255]}, 'd': null}"))
    = Some [(T "test-user", {| u_password := T "test-password"; u_pubkey := [] |}); (T "b", {| u_password := []; u_pubkey := [1; 2; 3] |});
            (T "c", {| u_password := []; u_pubkey := [1; 255] |}); (T "d", {| u_password := []; u_pubkey := [] |})] /\
  read_users (Some (Q "{'a': {'pubKey': 'not base 64'}}")) = None /\ read_users (Some (Q "{'a': {'password': 12}}")) = None /\
  read_users (Some (Q "{'a': {'password': 'x'}")) = None /\ read_users (Some []) = None /\
  base64 (Q "AQ==") = Some [1] /\ base64 (Q "A" ++ [10] ++ Q "QI=") = Some [1; 2] /\ base64 (Q "AQI=AQ==") = None.
Proof. repeat split; vm_compute; reflexivity. Qed.
