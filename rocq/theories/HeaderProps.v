(** C127: what is shown as the current song is a song. *)
From Coq Require Import String.
From Verif Require Import GoBase GoBaseFacts PlaylistModel PlaylistSpec PlaylistProofs HeaderModel HeaderSpec HeaderProofs.
Local Open Scope nat_scope.

(** Partial: the bytes given to a reader are those of a song that was the current one, and their number
    is that of a song that was the current one - not always of the same. *)
Theorem C127_reads_partial : forall decode nan_break l acts s es b n,
  hrun decode nan_break (unread l) acts = Some (s, es) -> has_read s b n ->
  (b = None \/ exists f, b = Some f /\ f <> [] /\ was_current decode nan_break l acts f)
  /\ (n = 0 \/ exists g, n = length g /\ was_current decode nan_break l acts g).
Proof.
  intros decode nan_break l acts s es b n R [Hb Hn]. destruct (run_inv _ _ _ _ _ _ R) as [_ _ _ _ _ _ _ G I].
  rewrite Hb in G. rewrite Hn in I. split.
  - destruct b as [f|]; [right|now left]. exists f. destruct G as [G1 G2]. now repeat split.
  - destruct I as [I|(g & I1 & I2)]; [now left|right; exists g; now split].
Qed.

(** Partial: a reader that begins when no store is to be made and reads while none is made is given
    the song that was current when it began, whatever else happens. *)
Theorem C127_whole_partial : forall decode nan_break l acts0 s0 es0 acts s es b n beyond,
  hrun decode nan_break (unread l) acts0 = Some (s0, es0) -> to_store s0 = [] -> reader_idle s0 ->
  hrun decode nan_break s0 acts = Some (s, es) -> no_store acts -> has_read s b n -> memory beyond ->
  string_of beyond b n = Ok (current_song (inner s0)).
Proof.
  intros decode nan_break l acts0 s0 es0 acts s es b n beyond R0 T [I1 I2] R Ns [Hb Hn] M.
  destruct (hrun_words _ _ _ _ _ _ R Ns) as (_ & Gb & Gn).
  rewrite Hb, I1 in Gb. rewrite Hn, I2 in Gn.
  destruct Gb as [Gb|Gb]; [discriminate|]. destruct Gn as [Gn|Gn]; [discriminate|]. injection Gb as ->. injection Gn as ->.
  apply string_whole; [exact M|]. exact (i_settled _ _ (run_inv _ _ _ _ _ _ R0) T).
Qed.

(** Refuted: each time a song begins, a reader can be given the bytes of the song before with the
    length of the new one - the old name cut off, or followed by whatever lies behind it in memory;
    before the first song that is a nil dereference, and the server ends - and the bytes of the new
    with the length of the old. *)
Theorem C127_mixture_refuted : forall decode nan_break l acts0 s es0 q g,
  hrun decode nan_break (unread l) acts0 = Some (s, es0) -> to_store s = [] -> reader_idle s ->
  at_pc (inner s) = AtTop -> next_song (songs (inner s)) (position (inner s)) = Ok (q, g) -> g <> [] ->
  (exists acts s' b n, hrun decode nan_break s acts = Some (s', []) /\ has_read s' b n /\
     forall beyond, string_of beyond b n =
       match current_song (inner s) with
       | [] => Panic
       | f => Ok (firstn (length g) f ++ beyond f (length g - length f))
       end)
  /\ (exists acts s' b n, hrun decode nan_break s acts = Some (s', []) /\ has_read s' b n /\
     forall beyond, string_of beyond b n =
       Ok (firstn (length (current_song (inner s))) g ++ beyond g (length (current_song (inner s)) - length g))).
Proof.
  intros decode nan_break l acts0 s es0 q g R T [I1 I2] P Nx Ng.
  destruct (run_inv _ _ _ _ _ _ R) as [_ W _ _ _ _ [K _] _ _]. specialize (W T).
  assert (S1 : forall gb gc, hrun decode nan_break {| inner := inner s; cur := cur s; to_store := []; got_bytes := gb; got_count := gc |}
      [HAct PNext; HStore HalfBytes; HStore HalfCount] =
    Some ({| inner := set_pc (set_current (set_position (inner s) q) g) (Opening g); cur := {| bytes_at := Some g; count := length g |};
             to_store := []; got_bytes := gb; got_count := gc |}, [])).
  { intros gb gc.
    assert (E : pstep decode nan_break (inner s) PNext = Some (set_pc (set_current (set_position (inner s) q) g) (Opening g), [])).
    { cbn [PlaylistModel.pstep]. rewrite P, Nx. destruct g; [congruence|reflexivity]. }
    eapply (hrun_trans _ _ _ [HAct PNext] {| inner := set_pc (set_current (set_position (inner s) q) g) (Opening g); cur := cur s;
             to_store := [HalfBytes; HalfCount]; got_bytes := gb; got_count := gc |} [HStore HalfBytes; HStore HalfCount]).
    - cbn [hrun hstep inner to_store]. rewrite E. reflexivity.
    - reflexivity. }
  destruct s as [p c ts gb gc]; cbn [inner cur to_store got_bytes got_count] in *; subst ts gb gc. split.
  - exists [HLoad HalfBytes; HAct PNext; HStore HalfBytes; HStore HalfCount; HLoad HalfCount].
    eexists _, (bytes_at c), (length g). split; [|split].
    + eapply (hrun_trans _ _ _ [HLoad HalfBytes] _ [HAct PNext; HStore HalfBytes; HStore HalfCount; HLoad HalfCount]);
        [cbn [hrun hstep inner got_bytes got_count]; rewrite P; reflexivity|].
      eapply (hrun_trans _ _ _ [HAct PNext; HStore HalfBytes; HStore HalfCount] _ [HLoad HalfCount]); [apply S1|reflexivity].
    + split; reflexivity.
    + intro beyond. destruct W as [[B C]|(B & C & F)]; rewrite B; cbn.
      * destruct (current_song p) eqn:E; [congruence|reflexivity].
      * rewrite F. destruct g; [congruence|reflexivity].
  - exists [HLoad HalfCount; HAct PNext; HStore HalfBytes; HStore HalfCount; HLoad HalfBytes].
    eexists _, (Some g), (length (current_song p)). split; [|split].
    + eapply (hrun_trans _ _ _ [HLoad HalfCount] _ [HAct PNext; HStore HalfBytes; HStore HalfCount; HLoad HalfBytes]);
        [cbn [hrun hstep inner got_bytes got_count]; rewrite P; reflexivity|].
      eapply (hrun_trans _ _ _ [HAct PNext; HStore HalfBytes; HStore HalfCount] _ [HLoad HalfBytes]); [apply S1|reflexivity].
    + split; [reflexivity|]. cbn. f_equal. destruct W as [[B C]|(B & C & F)]; [exact C|now rewrite C, F].
    + reflexivity.
Qed.

(** A list of two songs, of which the second can be decoded and the first cannot. *)
Definition two : list song := [T "a"%string; T "longer"%string].
Definition dec (f : song) : option (list sample) := if (length f =? 6) then Some [] else None.

(** A reader while the second song is taken: the first is shown cut off or with rubbish behind it. *)
Example C127_nonvacuous : exists s1 s2 s3,
  hrun dec 0 (unread two) [HLoad HalfBytes] = Some (s1, [])
  /\ hrun dec 0 (unread two) [HAct PNext; HStore HalfBytes; HStore HalfCount; HAct POpen; HLoad HalfBytes; HAct PNext; HLoad HalfCount] = Some (s2, [])
  /\ has_read s2 (Some (T "a"%string)) 1 /\ current_song (inner s2) = T "longer"%string
  /\ hrun dec 0 (unread two) [HAct PNext; HStore HalfBytes; HStore HalfCount; HAct POpen; HLoad HalfBytes; HAct PNext; HStore HalfCount; HLoad HalfCount] = Some (s3, [])
  /\ has_read s3 (Some (T "a"%string)) 6 /\ to_store s3 = [HalfBytes].
Proof. do 3 eexists. repeat (match goal with |- _ /\ _ => split | |- has_read _ _ _ => split end; try (vm_compute; reflexivity)). Qed.

(** The server that has just started: the reader crashes it. *)
Example C127_crash : exists s, hrun dec 0 (unread two) [HLoad HalfBytes; HAct PNext; HStore HalfCount; HLoad HalfCount] = Some (s, [])
  /\ has_read s None 1 /\ forall beyond, string_of beyond None 1 = Panic.
Proof. eexists. split; [vm_compute; reflexivity|]. split; [split; reflexivity|reflexivity]. Qed.

(** The hypotheses of the refutation at the start. *)
Example C127_start : to_store (unread two) = [] /\ reader_idle (unread two) /\ at_pc (inner (unread two)) = AtTop
  /\ next_song (songs (inner (unread two))) (position (inner (unread two))) = Ok (0%Z, T "a"%string).
Proof. repeat split. Qed.

Print Assumptions C127_reads_partial.
Print Assumptions C127_whole_partial.
Print Assumptions C127_mixture_refuted.
