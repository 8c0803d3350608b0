(** Proofs for C100. *)
From Verif Require Import GoBase GoBaseFacts PlaylistModel PlaylistSpec PlaylistProofs PlaylistLoopProofs ViewTold.
From Verif Require Import GoUtf8 ScheduleModel WireModel InfoerModel InfoerSpec InfoerProofs ServerModel ViewSpec.
From Coq Require Import ZifyBool ZifyNat Permutation Sorted.
Local Open Scope Z_scope.
Notation pevent := PlaylistModel.event (only parsing).

(** * Silence *)
Lemma ws_app a b x y : with_silence a x -> with_silence b y -> with_silence (a ++ b) (x ++ y).
Proof. induction 1; intros H'; cbn [app]; [exact H'|constructor; auto|constructor; auto]. Qed.
Lemma ws_refl l : with_silence l l.
Proof. induction l; constructor; assumption. Qed.
Lemma ws_nans n : with_silence [] (repeat nan_sample n).
Proof. induction n; cbn [repeat]; constructor; assumption. Qed.

Lemma nth_error_firstn_lt {A} (l : list A) : forall n i, (i < n)%nat -> nth_error (firstn n l) i = nth_error l i.
Proof. induction l as [|x l IH]; intros [|n] [|i] H; cbn; try lia; try reflexivity. apply IH. lia. Qed.
Lemma firstn_repeat {A} (x : A) : forall n m, firstn m (repeat x n) = repeat x (Nat.min m n).
Proof. induction n as [|n IH]; intros [|m]; cbn; try reflexivity. f_equal. apply IH. Qed.

(** * The announcements are in place *)
Section V.
Variable decode : PlaylistModel.song -> option (list sample).
Notation told := (told decode).

Lemma told_prefix es r : told es r -> forall a b, es = a ++ b -> exists r', told a r'.
Proof.
  assert (Sn : forall (es : list pevent) x a b, es ++ [x] = a ++ b -> (exists b', es = a ++ b') \/ a = es ++ [x]).
  { intros es0 x a b E. destruct b as [|y b _] using rev_ind; [right; rewrite app_nil_r in E; auto|].
    rewrite app_assoc in E. apply app_inj_tail in E as [-> _]. left. eauto. }
  induction 1 as [|es f l H IH Hd|es r b H IH Hb|es r H IH Hp|es r H IH Hp|es r g H IH Hg]; intros a b0 E.
  - symmetry in E. apply app_eq_nil in E as [-> _]. exists None. constructor.
  - apply Sn in E as [[b' E]| ->]; [eauto|eexists; apply t_song; eassumption].
  - apply Sn in E as [[b' E]| ->]; [eauto|eexists; apply t_toggle; eassumption].
  - apply Sn in E as [[b' E]| ->]; [eauto|eexists; apply t_filler; eassumption].
  - apply Sn in E as [[b' E]| ->]; [eauto|eexists; apply t_block; eassumption].
  - apply Sn in E as [[b' E]| ->]; [eauto|eexists; eapply t_gap; eassumption].
Qed.

Lemma told_last es e r : told (es ++ [e]) r ->
  (exists f l, e = ENewSong (zlen (stream_of es)) f (zlen l) /\ r = Some l /\ told es None /\ decode f = Some l) \/
  (exists x b, e = EToggle b (zlen (stream_of es)) /\ r = Some x /\ told es (Some x)) \/
  (exists x, e = EBlock (repeat nan_sample 512) /\ r = Some x /\ told es (Some x) /\ announced_paused es = true) \/
  (exists x, e = EBlock (firstn 512 x) /\ r = Some (skipn 512 x) /\ told es (Some x) /\ announced_paused es = false) \/
  (exists g r', e = EGap g /\ r = None /\ told es r' /\ g <> []).
Proof.
  intros H. remember (es ++ [e]) as x eqn:E.
  destruct H as [|es' f l H Hd|es' r b H Hb|es' r H Hp|es' r H Hp|es' r g H Hg]; [destruct es; discriminate|..];
    apply app_inj_tail in E as [-> <-].
  - left. eauto 10.
  - right; left. eauto 10.
  - do 2 right; left. eauto 10.
  - do 3 right; left. eauto 10.
  - do 4 right. eauto 10.
Qed.

Lemma told_in_place es r : told es r -> announced_in_place decode 0 es.
Proof.
  induction 1 as [|es f l H IH Hd|es r b H IH Hb|es r H IH Hp|es r H IH Hp|es r g H IH Hg]; [exact I|..];
    (apply announced_app; [exact IH|]); cbn [announced_in_place]; rewrite ?Z.add_0_l; eauto.
Qed.

Lemma place_app i a b : announced_in_place decode i (a ++ b) -> announced_in_place decode (i + zlen (stream_of a)) b.
Proof.
  revert i. induction a as [|e a IH]; intros i H; cbn [app announced_in_place] in H.
  - replace (i + zlen (stream_of [])) with i by (unfold zlen; cbn; lia). exact H.
  - destruct H as [_ H]. apply IH in H. rewrite stream_of_cons, zlen_app, Z.add_assoc. exact H.
Qed.

Lemma last_state l z : Forall (fun t => snd t <= z) l ->
  plays_at (map toggle_of l) z = match rev l with [] => true | (b, _) :: _ => b end.
Proof.
  induction l as [|[b i] l IH] using rev_ind; [reflexivity|]. intros H. apply Forall_app in H as [_ H].
  apply Forall_cons_iff in H as [H _]. rewrite map_app, rev_app_distr. cbn [map rev app].
  rewrite plays_at_above by exact H. reflexivity.
Qed.

Lemma announced_lower_toggle i es t : announced_in_place decode i es -> In t (toggles_of es) -> i <= snd t.
Proof.
  revert i. induction es as [|e es IH]; intros i H Hi; [destruct Hi|].
  cbn [announced_in_place] in H. destruct H as [He H]. unfold toggles_of in Hi. cbn [flat_map] in Hi. apply in_app_or in Hi as [Hi|Hi].
  - destruct e; cbn in Hi; try contradiction. destruct Hi as [<-|[]]. cbn [snd]. lia.
  - specialize (IH _ H Hi). pose proof (zlen_nonneg (samples_of_event e)). lia.
Qed.

Lemma block_plays a b rest r z : told (a ++ EBlock b :: rest) r ->
  zlen (stream_of a) <= z < zlen (stream_of a) + zlen b ->
  plays_at (announced_toggles (a ++ EBlock b :: rest)) z = negb (announced_paused a).
Proof.
  intros H Hz. destruct (told_prefix _ _ H a _ eq_refl) as [ra Ha].
  pose proof (toggles_le _ _ _ Ha) as La. pose proof (told_in_place _ _ H) as P. apply place_app in P.
  cbn [announced_in_place samples_of_event] in P. destruct P as [_ P]. rewrite Z.add_0_l in P.
  unfold announced_toggles. rewrite toggles_of_app, map_app.
  rewrite plays_at_app_under.
  - rewrite last_state.
    + unfold announced_paused. destruct (rev (toggles_of a)) as [|[x j] l]; [reflexivity|destruct x; reflexivity].
    + eapply Forall_impl; [|exact La]. cbn beta. lia.
  - apply Forall_forall. intros t Ht. apply in_map_iff in Ht as (u & <- & Hu). cbn [toggle_of t_index].
    change (toggles_of (EBlock b :: rest)) with (toggles_of rest) in Hu.
    pose proof (announced_lower_toggle _ _ _ P Hu). lia.
Qed.

(** * Where in the song the stream is *)
Lemma position_in_song a i f n content : decode f = Some content -> forall mid rest r r0,
  told (a ++ ENewSong i f n :: mid ++ rest) r -> told (a ++ ENewSong i f n :: mid) r0 -> in_song mid ->
  let T := announced_toggles (a ++ ENewSong i f n :: mid ++ rest) in
  exists left, r0 = Some left /\
  (forall y, 0 <= y <= zlen (stream_of mid) ->
     let k := y - paused_samples T i (i + y) in
     0 <= k <= zlen content /\
     with_silence (firstn (Z.to_nat k) content) (firstn (Z.to_nat y) (stream_of mid)) /\
     (0 < y -> if plays_at T (i + y - 1)
               then nth_error (stream_of mid) (Z.to_nat (y - 1)) = nth_error content (Z.to_nat (k - 1)) /\ 1 <= k
               else nth_error (stream_of mid) (Z.to_nat (y - 1)) = Some nan_sample)) /\
  (let k := zlen (stream_of mid) - paused_samples T i (i + zlen (stream_of mid)) in
   content = firstn (Z.to_nat k) content ++ left).
Proof.
  intros Hd mid. induction mid as [|e mid IH] using rev_ind; intros rest r r0 Hall Hmid Hin; cbn zeta.
  - apply told_last in Hmid as [(f' & l & E1 & -> & H & Hd')|[(x & b & E1 & _)|[(x & E1 & _)|[(x & E1 & _)|(g & r' & E1 & _)]]]]; try discriminate E1.
    + injection E1 as _ <- _. rewrite Hd in Hd'. injection Hd' as ->.
      exists l. split; [reflexivity|]. split.
      * intros y Hy. change (zlen (stream_of [])) with 0 in Hy. replace y with 0 by lia. cbn zeta. rewrite paused_nil by lia.
        cbn [Z.sub Z.to_nat firstn]. split; [pose proof (zlen_nonneg l); lia|]. split; [constructor|lia].
      * change (zlen (stream_of [])) with 0. rewrite paused_nil by lia. reflexivity.
  - apply Forall_app in Hin as [Hin He]. apply Forall_cons_iff in He as [He _].
    rewrite <- app_assoc in Hall. rewrite <- app_assoc. cbn [app] in Hall |- *.
    set (T := announced_toggles (a ++ ENewSong i f n :: mid ++ e :: rest)) in *.
    assert (Ei : i = zlen (stream_of a)).
    { pose proof (told_in_place _ _ Hall) as P. apply place_app in P. cbn [announced_in_place] in P. destruct P as [[P _] _]. lia. }
    assert (EA : zlen (stream_of (a ++ ENewSong i f n :: mid)) = i + zlen (stream_of mid)).
    { rewrite stream_of_app, stream_of_cons, zlen_app. cbn [samples_of_event app]. lia. }
    assert (ET : T = announced_toggles ((a ++ ENewSong i f n :: mid) ++ e :: rest)) by (unfold T; rewrite <- app_assoc; reflexivity).
    assert (Hall' : told ((a ++ ENewSong i f n :: mid) ++ e :: rest) r) by (rewrite <- app_assoc; exact Hall).
    pose proof (zlen_nonneg (stream_of mid)) as Lm.
    rewrite stream_of_app, zlen_app.
    change (a ++ ENewSong i f n :: mid ++ [e]) with (a ++ (ENewSong i f n :: mid) ++ [e]) in Hmid. rewrite app_assoc in Hmid.
    apply told_last in Hmid as [(f' & l & E1 & -> & H & Hd')|[(r' & b & E1 & -> & H)|[(r' & E1 & -> & H & Hp)|[(r' & E1 & -> & H & Hp)|(g & r' & E1 & _)]]]]; subst e.
    + destruct He.
    + (* a pause announcement *)
      destruct (IH _ r (Some r') Hall H Hin) as (left & E & Hy & Hfull). injection E as <-. cbn zeta in Hy, Hfull. fold T in Hy, Hfull.
      exists r'. split; [reflexivity|]. cbn [stream_of flat_map samples_of_event app] in *. rewrite app_nil_r.
      change (zlen (@nil sample)) with 0. rewrite Z.add_0_r. split; [exact Hy|exact Hfull].
    + (* filler *)
      destruct (IH _ r (Some r') Hall H Hin) as (left & E & Hy & Hfull). injection E as <-. cbn zeta in Hy, Hfull. fold T in Hy, Hfull.
      set (b := repeat nan_sample 512) in *.
      assert (Lb : zlen b = 512) by reflexivity.
      assert (PL : forall z, i + zlen (stream_of mid) <= z < i + zlen (stream_of mid) + 512 -> plays_at T z = false).
      { intros z Hz. rewrite ET. rewrite (block_plays _ _ _ _ _ Hall') by (rewrite EA; exact Hz). rewrite Hp. reflexivity. }
      assert (ES : stream_of [EBlock b] = b) by (cbn [stream_of flat_map samples_of_event]; apply app_nil_r).
      rewrite ES, Lb.
      set (Y := zlen (stream_of mid)) in *.
      pose proof (Hy Y ltac:(lia)) as (KB & KW & _).
      assert (PK : forall y, Y <= y <= Y + 512 -> paused_samples T i (i + y) = paused_samples T i (i + Y) + (y - Y)).
      { intros y Hyy. rewrite (paused_const T i (i + Y) (i + y) false) by (try lia; intros; apply PL; lia). lia. }
      exists r'. split; [reflexivity|]. split.
      * intros y Hyy. destruct (Z.le_gt_cases y Y) as [Hle|Hgt].
        { destruct (Hy y ltac:(lia)) as (A1 & A2 & A3). split; [exact A1|].
          rewrite firstn_app. replace (Z.to_nat y - length (stream_of mid))%nat with 0%nat by (unfold Y, zlen in *; lia).
          rewrite firstn_O, app_nil_r. split; [exact A2|]. intros H0.
          rewrite nth_error_app1 by (unfold Y, zlen in *; lia). apply A3. exact H0. }
        rewrite PK by lia. replace (y - (paused_samples T i (i + Y) + (y - Y))) with (Y - paused_samples T i (i + Y)) by lia.
        split; [exact KB|]. split.
        { rewrite firstn_app. rewrite <- (app_nil_r (firstn (Z.to_nat (Y - _)) content)). apply ws_app.
          - rewrite (@firstn_all2 _ _ (stream_of mid)) by (unfold Y, zlen in *; lia). rewrite (@firstn_all2 _ _ (stream_of mid)) in KW by (unfold Y, zlen in *; lia). exact KW.
          - unfold b. rewrite firstn_repeat. apply ws_nans. }
        intros _. rewrite PL by lia. rewrite nth_error_app2 by (unfold Y, zlen in *; lia).
        unfold b. apply nth_error_repeat. unfold Y, zlen in *. lia.
      * rewrite PK by lia. replace (Y + 512 - (paused_samples T i (i + Y) + (Y + 512 - Y))) with (Y - paused_samples T i (i + Y)) by lia. exact Hfull.
    + (* a block of the song *)
      destruct (IH _ r (Some r') Hall H Hin) as (left & E & Hy & Hfull). injection E as <-. cbn zeta in Hy, Hfull. fold T in Hy, Hfull.
      set (b := firstn 512 r') in *.
      assert (PL : forall z, i + zlen (stream_of mid) <= z < i + zlen (stream_of mid) + zlen b -> plays_at T z = true).
      { intros z Hz. rewrite ET. rewrite (block_plays _ _ _ _ _ Hall') by (rewrite EA; exact Hz). rewrite Hp. reflexivity. }
      assert (ES : stream_of [EBlock b] = b) by (cbn [stream_of flat_map samples_of_event]; apply app_nil_r).
      rewrite ES. pose proof (zlen_nonneg b) as Lb.
      set (Y := zlen (stream_of mid)) in *.
      pose proof (Hy Y ltac:(lia)) as (KB & KW & _).
      assert (PK : forall y, Y <= y <= Y + zlen b -> paused_samples T i (i + y) = paused_samples T i (i + Y)).
      { intros y Hyy. rewrite (paused_const T i (i + Y) (i + y) true) by (try lia; intros; apply PL; lia). lia. }
      set (K := Y - paused_samples T i (i + Y)) in *.
      assert (LK : length (firstn (Z.to_nat K) content) = Z.to_nat K) by (rewrite firstn_length; unfold zlen in *; lia).
      assert (LC : (length content = Z.to_nat K + length r')%nat) by (rewrite Hfull at 1; rewrite app_length, LK; reflexivity).
      assert (Lbr : (length b <= length r')%nat) by (unfold b; rewrite firstn_length; lia).
      assert (FB : forall d, (d <= length b)%nat -> firstn (Z.to_nat K + d) content = firstn (Z.to_nat K) content ++ firstn d b).
      { intros d Hdd. rewrite Hfull at 1. rewrite <- LK at 1. rewrite firstn_app_2. f_equal. unfold b. rewrite firstn_firstn. f_equal.
        unfold b in Hdd. rewrite firstn_length in Hdd. lia. }
      exists (skipn 512 r'). split; [reflexivity|]. split.
      * intros y Hyy. destruct (Z.le_gt_cases y Y) as [Hle|Hgt].
        { destruct (Hy y ltac:(lia)) as (A1 & A2 & A3). split; [exact A1|].
          rewrite firstn_app. replace (Z.to_nat y - length (stream_of mid))%nat with 0%nat by (unfold Y, zlen in *; lia).
          rewrite firstn_O, app_nil_r. split; [exact A2|]. intros H0.
          rewrite nth_error_app1 by (unfold Y, zlen in *; lia). apply A3. exact H0. }
        rewrite PK by lia. replace (y - paused_samples T i (i + Y)) with (K + (y - Y)) by (unfold K; lia).
        split; [unfold zlen in *; lia|].
        replace (Z.to_nat (K + (y - Y))) with (Z.to_nat K + Z.to_nat (y - Y))%nat by lia.
        split.
        { rewrite FB by (unfold zlen in *; lia). rewrite firstn_app. apply ws_app.
          - rewrite (@firstn_all2 _ _ (stream_of mid)) by (unfold Y, zlen in *; lia). rewrite (@firstn_all2 _ _ (stream_of mid)) in KW by (unfold Y, zlen in *; lia). exact KW.
          - replace (Z.to_nat y - length (stream_of mid))%nat with (Z.to_nat (y - Y)) by (unfold Y, zlen in *; lia). apply ws_refl. }
        intros _. rewrite PL by lia. split; [|lia]. rewrite nth_error_app2 by (unfold Y, zlen in *; lia).
        rewrite Hfull. rewrite nth_error_app2 by lia. rewrite LK.
        replace (Z.to_nat (K + (y - Y) - 1) - Z.to_nat K)%nat with (Z.to_nat (y - 1) - length (stream_of mid))%nat by (unfold Y, zlen in *; lia).
        unfold b. rewrite nth_error_firstn_lt; [reflexivity|]. unfold b, Y, zlen in *. rewrite firstn_length in *. lia.
      * rewrite PK by lia. replace (Y + zlen b - paused_samples T i (i + Y)) with (K + zlen b) by (unfold K; lia).
        replace (Z.to_nat (K + zlen b)) with (Z.to_nat K + length b)%nat by (unfold zlen; lia). rewrite FB by lia.
        rewrite firstn_all, <- app_assoc. unfold b. rewrite firstn_skipn. exact Hfull.
    + destruct He.
Qed.
(** * Announcements are unique *)
Lemma songs_below es r : told es r ->
  (forall i f n, In (ENewSong i f n) es -> i <= zlen (stream_of es)) /\
  (r = None -> forall i f n, In (ENewSong i f n) es -> i < zlen (stream_of es)).
Proof.
  assert (G : forall (es : list pevent) x, zlen (stream_of (es ++ [x])) = zlen (stream_of es) + zlen (samples_of_event x)).
  { intros. rewrite stream_of_app, zlen_app. f_equal. cbn [stream_of flat_map]. rewrite app_nil_r. reflexivity. }
  induction 1 as [|es f l H [IH IH2] Hd|es r b H [IH IH2] Hb|es r H [IH IH2] Hp|es r H [IH IH2] Hp|es r g H [IH IH2] Hg];
    (split; [|try discriminate; intros _]); try (intros i f' n Hi; destruct Hi; fail); intros i f' n Hi;
    apply in_app_or in Hi as [Hi|[E|[]]]; try discriminate E; rewrite G; cbn [samples_of_event];
    try (specialize (IH _ _ _ Hi)); try (injection E as <- <- <-);
    try match goal with |- context [zlen ?q] => match q with stream_of _ => fail 1 | _ => pose proof (zlen_nonneg q) end end;
    try (pose proof (zlen_pos _ Hg)); try change (zlen (@nil sample)) with 0; try lia.
Qed.

Lemma announced_lower_song i es j f n : announced_in_place decode i es -> In (ENewSong j f n) es -> i <= j.
Proof.
  revert i. induction es as [|e es IH]; intros i H Hi; [destruct Hi|].
  cbn [announced_in_place] in H. destruct H as [He H]. destruct Hi as [->|Hi].
  - destruct He. lia.
  - specialize (IH _ H Hi). pose proof (zlen_nonneg (samples_of_event e)). lia.
Qed.

Lemma toggle_in es b i : In (EToggle b i) es <-> In {| t_playing := b; t_index := i |} (announced_toggles es).
Proof.
  unfold announced_toggles, toggles_of. split; intros H.
  - apply in_map_iff. exists (b, i). split; [reflexivity|]. apply in_flat_map. exists (EToggle b i). split; [exact H|left; reflexivity].
  - apply in_map_iff in H as ([b' i'] & E & H). cbn in E. injection E as -> ->. apply in_flat_map in H as (e & H & He).
    destruct e; cbn in He; try contradiction. destruct He as [E|[]]. injection E as -> ->. exact H.
Qed.

Lemma told_toggles es r : told es r -> StronglySorted (fun a b => t_index a < t_index b) (announced_toggles es).
Proof.
  assert (K : forall (es : list pevent) e, toggles_of [e] = [] -> announced_toggles (es ++ [e]) = announced_toggles es).
  { intros es0 e E. unfold announced_toggles. rewrite toggles_of_app, E, app_nil_r. reflexivity. }
  induction 1 as [|es f l H IH Hd|es r b H IH Hb|es r H IH Hp|es r H IH Hp|es r g H IH Hg]; [constructor|rewrite K by reflexivity; exact IH| |..];
    try (rewrite K by reflexivity; exact IH).
  unfold announced_toggles. rewrite toggles_of_app, map_app. fold (announced_toggles es). cbn [toggles_of flat_map map app toggle_of fst snd].
  unfold toggles_before in Hb.
  assert (B : Forall (fun t => t_index t < zlen (stream_of es)) (announced_toggles es)).
  { unfold announced_toggles. apply Forall_map. exact Hb. }
  clear Hb K H. induction IH as [|t l IHl Hs Ht]; cbn [app]; [repeat constructor|].
  inversion B; subst. constructor; [auto|]. apply Forall_app. split; [exact Ht|]. constructor; [cbn; assumption|constructor].
Qed.
End V.

(** * The same announcements, the same state *)
Lemma plays_at_char l z : sorted_toggles l ->
  plays_at l z = true /\ Forall (fun t => z < t_index t) l \/
  exists t, In t l /\ t_index t <= z /\ plays_at l z = t_playing t /\ forall t', In t' l -> t_index t' <= z -> t_index t' <= t_index t.
Proof.
  induction l as [|t l IH] using rev_ind; [left; split; [reflexivity|constructor]|]. intros H.
  assert (S : sorted_toggles l /\ forall t', In t' l -> t_index t' <= t_index t).
  { clear IH. induction l as [|u l IH]; cbn [app] in H; [split; [constructor|intros ? []]|]. inversion H as [|? ? H1 H2]; subst.
    destruct (IH H1) as [S1 S2]. apply Forall_app in H2 as [H2 H3]. inversion H3; subst. split; [constructor; assumption|].
    intros t' [<-|Ht]; auto. }
  destruct S as [S1 S2]. rewrite plays_at_app. destruct (Z.leb_spec (t_index t) z) as [Hz|Hz].
  - right. exists t. split; [apply in_or_app; right; left; reflexivity|]. split; [exact Hz|]. split; [reflexivity|].
    intros t' Ht' _. apply in_app_or in Ht' as [Ht'|[<-|[]]]; [auto|lia].
  - destruct (IH S1) as [[E F]|(u & U1 & U2 & U3 & U4)].
    + left. split; [exact E|]. apply Forall_app. split; [exact F|repeat constructor; exact Hz].
    + right. exists u. split; [apply in_or_app; left; exact U1|]. split; [exact U2|]. split; [exact U3|].
      intros t' Ht' L. apply in_app_or in Ht' as [Ht'|[<-|[]]]; [auto|lia].
Qed.

Lemma strict_sorted l : StronglySorted (fun a b => t_index a < t_index b) l -> sorted_toggles l.
Proof. induction 1 as [|t l H IH Ht]; constructor; auto. eapply Forall_impl; [|exact Ht]. cbn. lia. Qed.
Lemma strict_unique l a b : StronglySorted (fun a b => t_index a < t_index b) l -> In a l -> In b l -> t_index a = t_index b -> a = b.
Proof.
  induction 1 as [|t l H IH Ht]; [intros []|]. rewrite Forall_forall in Ht.
  intros [<-|Ha] [<-|Hb] E; auto; [specialize (Ht _ Hb)|specialize (Ht _ Ha)]; lia.
Qed.

Lemma same_state T order z : StronglySorted (fun a b => t_index a < t_index b) T -> sorted_toggles order ->
  (forall t, In t order -> In t T) -> (forall t, In t T -> t_index t <= z -> In t order) ->
  plays_at order z = plays_at T z.
Proof.
  intros ST SO S1 S2. destruct (plays_at_char order z SO) as [[E F]|(t & A1 & A2 & A3 & A4)];
    destruct (plays_at_char T z (strict_sorted _ ST)) as [[E' F']|(t' & B1 & B2 & B3 & B4)].
  - congruence.
  - rewrite Forall_forall in F. specialize (F _ (S2 _ B1 B2)). lia.
  - rewrite Forall_forall in F'. specialize (F' _ (S1 _ A1)). lia.
  - rewrite A3, B3. f_equal. apply (strict_unique T); auto.
    pose proof (A4 _ (S2 _ B1 B2) B2). pose proof (B4 _ (S1 _ A1) A2). lia.
Qed.

(** * The chunk shown is the one the players play *)
Lemma shown_sample start size sr ms now n x : 0 < sr <= 1000000000 -> 0 < size -> 0 <= n ->
  heard_chunks start size sr ms -> In (server_chunk start size sr (n / size)) (received_chunks ms) ->
  start + (n / size) * (size * 1000000000 / sr) + (n mod size) * 1000000000 / sr <= now ->
  now < start + (n / size) * (size * 1000000000 / sr) + (n mod size + 1) * 1000000000 / sr ->
  right_sample sr now (received_chunks ms) x -> Z.abs (x - n) <= 1.
Proof.
  intros Hsr Hsz Hn Hh Hin H1 H2 Hx.
  pose proof (Z.div_mod n size ltac:(lia)) as DM. pose proof (Z.mod_pos_bound n size Hsz) as MB.
  assert (HJ : 0 <= n / size) by (apply Z.div_pos; lia).
  set (J := n / size) in *. set (k := n mod size) in *. set (ct := size * 1000000000 / sr) in *.
  assert (CT : 0 < ct).
  { unfold ct. apply Z.div_str_pos. nia. }
  assert (Kend : (k + 1) * 1000000000 / sr <= ct) by (apply Z.div_le_mono; nia).
  assert (K0 : 0 <= k * 1000000000 / sr) by (apply Z.div_pos; lia).
  assert (EJ : now <= chunk_end sr (server_chunk start size sr J)).
  { unfold chunk_end, server_chunk. cbn [c_startTime c_size]. unfold second. fold ct. nia. }
  destruct Hx as [[-> Hall]|(c & Hc & He & -> & Hmin)]; [specialize (Hall _ Hin); lia|].
  destruct (Hh c Hc) as (j & Hj & ->). specialize (Hmin _ Hin EJ). cbn [server_chunk c_startIndex] in Hmin.
  assert (j <= J) by nia.
  unfold chunk_end, server_chunk in He. cbn [c_startTime c_size] in He. unfold second in He. fold ct in He.
  unfold position, server_chunk. cbn [c_startIndex c_startTime]. unfold second. fold ct.
  assert (C : j = J \/ j + 1 = J /\ now = start + J * ct) by nia.
  destruct C as [->|[EJ1 Enow]].
  - set (e := now - (start + J * ct)) in *.
    assert (E0 : 0 <= e) by (unfold e; lia). rewrite Z.quot_div_nonneg by nia.
    assert (D1 : k * 1000000000 / sr <= e < (k + 1) * 1000000000 / sr) by (unfold e; lia). clearbody e.
    assert (A : k * 1000000000 < (e + 1) * sr).
    { pose proof (Z.mul_succ_div_gt (k * 1000000000) sr ltac:(lia)). nia. }
    assert (B : (e + 1) * sr <= (k + 1) * 1000000000).
    { pose proof (Z.mul_div_le ((k + 1) * 1000000000) sr ltac:(lia)). nia. }
    pose proof (Z.mul_div_le (e * sr) 1000000000 ltac:(lia)) as F1.
    pose proof (Z.mul_succ_div_gt (e * sr) 1000000000 ltac:(lia)) as F2.
    set (q := e * sr / 1000000000) in *. clearbody J k ct q. nia.
  - assert (Ek : k = 0).
    { assert (k * 1000000000 / sr <= 0) by lia.
      destruct (Z.eq_dec k 0) as [|Hk]; [assumption|]. exfalso.
      assert (0 < k * 1000000000 / sr) by (apply Z.div_str_pos; lia). lia. }
    replace (now - (start + j * ct)) with ct by nia. rewrite Z.quot_div_nonneg by nia.
    pose proof (Z.mul_div_le (size * 1000000000) sr ltac:(lia)) as F1.
    pose proof (Z.mul_succ_div_gt (size * 1000000000) sr ltac:(lia)) as F2. fold ct in F1, F2.
    assert (G1 : ct * sr / 1000000000 <= size) by (apply Z.div_le_upper_bound; lia).
    assert (G2 : size - 1 <= ct * sr / 1000000000) by (apply Z.div_le_lower_bound; lia).
    rewrite DM, Ek, <- EJ1. set (q := ct * sr / 1000000000) in *. clearbody q. nia.
Qed.

(** * The display tells the truth *)
Lemma display_truth decode es r sr now mc ms mp d i f n content mid : 0 < sr ->
  told decode es r -> decode f = Some content -> zlen content * 1000000000 < 2 ^ 63 ->
  i_sample d < 2 ^ 63 -> while_playing es i f n mid (i_sample d) ->
  heard_songs es ms (i_sample d) -> heard_pauses es mp (i_sample d) ->
  right_display sr now mc ms mp d -> shows_the_truth sr d i f content mid.
Proof.
  intros Hsr Ht Hd Hlen Hx (a & rest & Ees & Hin & Hb) [Hs1 Hs2] [Hp1 Hp2] (order & Hperm & Hsort & _ & Hsong & Ed).
  set (x := i_sample d) in *.
  pose proof (told_in_place decode _ _ Ht) as P. rewrite Ees in P. apply place_app in P. rewrite Z.add_0_l in P.
  cbn [announced_in_place samples_of_event] in P. destruct P as [(Pi & c' & Pd & Pn) P].
  rewrite Hd in Pd. injection Pd as <-. change (zlen (@nil sample)) with 0 in P. rewrite Z.add_0_r in P.
  apply place_app in P. pose proof (zlen_nonneg (stream_of a)) as La.
  destruct (told_prefix decode _ _ Ht (a ++ ENewSong i f n :: mid) rest) as [r0 Hmid].
  { rewrite Ees, <- app_assoc. reflexivity. }
  (* the song *)
  assert (Sg : announces (ENewSong i f n) (i_song d)).
  { destruct (Hs2 i f n) as (s & Rs & As); [rewrite Ees; apply in_or_app; right; left; reflexivity|lia|].
    destruct Hsong as [(S1 & S2 & S3)|[_ S]].
    2:{ specialize (S _ Rs). destruct As as (As & _). lia. }
    specialize (S3 _ Rs). destruct As as (As & _). specialize (S3 ltac:(lia)).
    destruct (Hs1 _ S1) as (e & He & Ae). destruct e as [j g m| | |]; cbn [announces] in Ae; try contradiction. destruct Ae as [Ej Em].
    rewrite Ees in He. apply in_app_or in He as [He|[He|He]].
    - exfalso. destruct (told_prefix decode _ _ Ht (a ++ [ENewSong i f n]) (mid ++ rest)) as [r1 H1].
      { rewrite Ees, <- app_assoc. reflexivity. }
      apply told_last in H1 as [(f' & l & _ & _ & H1 & _)|[(? & ? & E & _)|[(? & E & _)|[(? & E & _)|(? & ? & E & _)]]]]; try discriminate E.
      pose proof (proj2 (songs_below decode _ _ H1) eq_refl _ _ _ He). lia.
    - injection He as <- <- <-. split; assumption.
    - exfalso. apply in_app_or in He as [He|He].
      + unfold in_song in Hin. rewrite Forall_forall in Hin. destruct (Hin _ He).
      + pose proof (announced_lower_song decode _ _ _ _ _ P He). lia. }
  destruct Sg as (G1 & G2 & G3).
  (* the pauses *)
  assert (SS : forall z, z < x -> plays_at order z = plays_at (announced_toggles es) z).
  { intros z Hz. apply same_state; [eapply told_toggles; exact Ht|exact Hsort| |].
    - intros t Hto. apply (Permutation_in _ (Permutation_sym Hperm)) in Hto. apply Hp1 in Hto. apply toggle_in in Hto.
      destruct t; exact Hto.
    - intros [b j] Hto Hj. cbn [t_index] in Hj. apply toggle_in in Hto. apply (Permutation_in _ Hperm). apply Hp2; [exact Hto|lia]. }
  destruct (position_in_song decode a i f n content Hd mid rest r r0) as (left & _ & Hy & _);
    [rewrite <- Ees; exact Ht|exact Hmid|exact Hin|]. rewrite <- Ees in Hy.
  specialize (Hy (x - i) ltac:(lia)). cbn zeta in Hy. replace (i + (x - i)) with x in Hy by lia.
  rewrite <- (paused_ext order (announced_toggles es) i x) in Hy by (intros; apply SS; lia).
  destruct Hy as (K1 & K2 & K3). specialize (K3 ltac:(lia)). rewrite <- SS in K3 by lia.
  split; [exact G2|]. split; [exact G1|]. split; [lia|]. cbn zeta. fold x.
  exists (x - i - paused_samples order i x). split; [exact K1|]. split; [exact K2|].
  rewrite Ed. cbn [make_info i_playing i_timeInSong i_songLength]. fold x. rewrite G1, G3.
  split; [destruct (plays_at order (x - 1)); [tauto|exact K3]|]. intros Hi.
  rewrite !(w64 i) by lia.
  assert (E : negb (i =? 0) && (i <? x) = true) by lia. rewrite E.
  pose proof (paused_range order i x ltac:(lia)).
  rewrite (w64 (x - i)) by lia. rewrite (w64 (_ - _)) by lia. unfold samples_to_ns, second, go_div.
  assert (EN : n = zlen content) by lia. rewrite EN.
  rewrite !w64 by (split; nia). split; apply Z.quot_div_nonneg; nia.
Qed.
