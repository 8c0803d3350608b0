(** Property C112: a volume typed into the control shell is the volume the players' sound cards
    get, from the text to the bytes. *)
From Verif Require Import GoBase GoBaseFacts PlaylistModel PcmModel PcmProofs PcmProps GoFloat GoFloatFacts PcmVolumeProps
  CommandsModel FloatTextSpec FloatTextModel FloatTextProofs FloatTextProps WireModel WireSpec WireProofs WireProps
  E2EModel LifeModel LifeSpec LifeProps HeardModel HeardSpec.
From Coq Require Import ZifyBool ZifyNat ZifyN.
Local Open Scope Z_scope.

(** the error of the stored volume *)
Lemma nearest_error f neg n d : 0 <= n -> 0 < d -> ~ too_large n d -> nearest f neg n d ->
  2 ^ 53 * Z.abs (f_mag f * d - n * f_one) <= n * f_one + 2 ^ 52 * d.
Proof.
  intros Hn Hd TL (N1 & I1 & S1 & B). pose proof f_one_pos as O.
  assert (Hno : 0 <= n * f_one) by nia.
  assert (Hr : rnd (n * f_one) d < f_max).
  { destruct (Z.ltb_spec (rnd (n * f_one) d) f_max) as [L|L]; [exact L|]. exfalso. apply TL. now apply (too_large_rnd n d Hd Hn). }
  destruct (parse_nearest neg n d Hn Hd Hr) as (N2 & I2 & S2 & _).
  destruct (B (f_pack neg (rnd (n * f_one) d)) N2 I2) as [B1 _]. unfold off in B1.
  destruct (f_pack_spec neg _ (rnd_representable _ d Hd Hno)) as (_ & _ & _ & M & _). rewrite M, Z.min_l in B1 by lia.
  pose proof (rnd_error_sum (n * f_one) d Hd Hno). lia.
Qed.

(** the arithmetic: [one] full scale, X the sample, F the stored volume, q the 16-bit value *)
Lemma heard_arith one X F n d : 2 ^ 56 <= one -> 0 <= X <= one -> 0 <= F -> 0 <= n -> 0 < d ->
  2 ^ 50 * (n * X) <= (2 ^ 50 - 1) * (d * one) ->
  2 ^ 53 * Z.abs (F * d - n * one) <= n * one + 2 ^ 52 * d ->
  2 ^ 53 * (X * F) <= (2 ^ 53 - 1) * (one * one) /\
  2 ^ 37 * (32768 * Z.abs (X * F * d - X * n * one)) <= one * one * d.
Proof.
  intros Ho [X0 X1] HF Hn Hd Hb He.
  assert (E1 : 2 ^ 53 * (X * Z.abs (F * d - n * one)) <= X * (n * one + 2 ^ 52 * d)) by nia.
  assert (E2 : X * Z.abs (F * d - n * one) = Z.abs (X * F * d - X * n * one)).
  { rewrite <- (Z.abs_eq X) at 1 by exact X0. rewrite <- Z.abs_mul. f_equal. ring. }
  rewrite E2 in E1. clear E2.
  set (a := X * n * one) in *. set (b := X * F * d) in *.
  assert (P : 0 < d * one) by nia.
  assert (A1 : 2 ^ 50 * a <= (2 ^ 50 - 1) * (d * one * one)) by (unfold a; nia).
  assert (A2 : X * d <= one * d) by nia.
  assert (A3 : 2 ^ 56 * (one * d) <= d * one * one) by nia.
  assert (E3 : 2 ^ 53 * Z.abs (b - a) <= a + 2 ^ 52 * (one * d)) by (replace (X * (n * one + 2 ^ 52 * d)) with (a + 2 ^ 52 * (X * d)) in E1 by (unfold a; ring); lia).
  set (u := one * d) in *. set (w := d * one * one) in *. clearbody a.
  assert (E4 : 2 ^ 53 * b <= (2 ^ 53 - 1) * w) by lia.
  split.
  - assert (2 ^ 53 * (X * F) * d <= (2 ^ 53 - 1) * (one * one) * d); [|nia].
    replace (2 ^ 53 * (X * F) * d) with (2 ^ 53 * b) by (unfold b; ring).
    replace ((2 ^ 53 - 1) * (one * one) * d) with ((2 ^ 53 - 1) * w) by (unfold w; ring). exact E4.
  - replace (one * one * d) with w by (unfold w; ring). lia.
Qed.
Lemma one_big56 : 2 ^ 56 <= f_one.
Proof. unfold f_one. apply Z.pow_le_mono_r; lia. Qed.

Lemma typed_sample f neg n d x : 0 <= n -> 0 < d -> ~ too_large n d -> nearest f neg n d ->
  unit_sample x -> below_full_scale n d x -> heard neg n d x (pcm16 (convert_sample (fmul x f))).
Proof.
  intros Hn Hd TL Hf (Nx & Ix & Ux) Hb. pose proof (nearest_error _ _ _ _ Hn Hd TL Hf) as He.
  destruct Hf as (Nf & If & Sf & _). unfold below_full_scale in Hb. rewrite abs_scaled in *.
  pose proof (f_mag_nonneg x) as X0. pose proof (f_mag_nonneg f) as F0.
  destruct (heard_arith f_one (f_mag x) (f_mag f) n d one_big56 (conj X0 Ux) F0 Hn Hd Hb He) as [A1 A2].
  assert (Hp : Z.abs (f_scaled x * f_scaled f) <= f_below_one * f_one).
  { rewrite Z.abs_mul, !abs_scaled. unfold f_below_one. rewrite half_ulp_below in *. pose proof step_pos.
    clear - A1 H. set (s := f_step) in *. clearbody s. nia. }
  destruct (C81_accuracy x f (conj Nx Ix) (conj Nf If) Hp) as [B1 B2].
  assert (Hz : f_mag f = 0 -> pcm16 (convert_sample (fmul x f)) = 0).
  { intros Z0. rewrite (C81_volume_zero x f (conj Nx Ix) (conj Nf If)); [reflexivity|]. unfold f_scaled. rewrite Z0. destruct (f_sign f); reflexivity. }
  set (v := pcm16 (convert_sample (fmul x f))) in *. rewrite sign_product in B1, B2.
  unfold heard, signed. assert (Sc : forall k, (if neg then - k else k) * f_scaled x = f_val (xorb (f_sign x) (f_sign f)) (f_mag x * k)).
  { intros k. unfold f_scaled, f_val. rewrite Sf. destruct neg, (f_sign x); cbn [xorb]; ring. }
  rewrite Sc. clear Sc. unfold full_scale in *. pose proof f_one_pos as O. set (one := f_one) in *. clearbody v one.
  set (X := f_mag x) in *. set (F := f_mag f) in *. clearbody X F. clear - A1 A2 B1 B2 X0 F0 Hn Hd O He Hb Hz.
  split.
  - set (s := xorb _ _) in *. clearbody s.
    assert (G : forall V, 2 ^ 37 * Z.abs (V * (one * one) - X * F * 32768) <= (2 ^ 37 + 1) * (one * one) ->
       2 ^ 36 * Z.abs (V * (one * d) - 32768 * (X * n)) <= (2 ^ 36 + 1) * (one * d)).
    { clear B1 B2 He Hb A1. intros V B.
      assert (B' : 2 ^ 37 * (Z.abs (V * (one * one) - X * F * 32768) * d) <= (2 ^ 37 + 1) * (one * one * d)) by nia.
      assert (T : one * Z.abs (V * (one * d) - 32768 * (X * n)) <= Z.abs (V * (one * one) - X * F * 32768) * d + 32768 * Z.abs (X * F * d - X * n * one)).
      { rewrite <- (Z.abs_eq one) at 1 by lia. rewrite <- Z.abs_mul. rewrite <- (Z.abs_eq d) at 2 by lia. rewrite <- Z.abs_mul.
        replace (one * (V * (one * d) - 32768 * (X * n))) with ((V * (one * one) - X * F * 32768) * d + 32768 * (X * F * d - X * n * one)) by ring.
        eapply Z.le_trans; [apply Z.abs_triangle|]. rewrite (Z.abs_mul 32768). lia. }
      assert (K : 2 ^ 37 * (one * Z.abs (V * (one * d) - 32768 * (X * n))) <= (2 ^ 37 + 2) * (one * one * d)) by lia.
      set (y := Z.abs _) in *. clearbody y. clear - K O. nia. }
    unfold f_val in *. destruct s.
    + specialize (G (- v)). replace (v * (one * d) - 32768 * - (X * n)) with (- (- v * (one * d) - 32768 * (X * n))) by ring.
      rewrite Z.abs_opp. apply G. replace (- v * (one * one) - X * F * 32768) with (- (v * (one * one) - - (X * F) * 32768)) by ring.
      rewrite Z.abs_opp. exact B1.
    + apply G. exact B1.
  - clear - B2 Hz X0 F0 Hn. destruct (Z.eq_dec F 0) as [Z0|Z0]; [rewrite (Hz Z0), Z.mul_0_l; lia|].
    destruct (Z.eq_dec X 0) as [->|X1]; [unfold f_val; destruct (xorb _ _); cbn; lia|].
    unfold f_val in *. assert (0 < X * F) by nia. assert (0 <= X * n) by nia. destruct (xorb _ _).
    + assert (v <= 0) by nia. nia.
    + assert (0 <= v) by nia. nia.
Qed.

Lemma received_volumes ms : volumes_got (events_of ms) = flat_map (fun m => match m with SetVolumeRequest v => [v] | _ => [] end) ms.
Proof.
  induction ms as [|m ms IH]; [reflexivity|]. unfold events_of, volumes_got in *. cbn [flat_map]. rewrite flat_map_app, IH.
  destruct m; reflexivity.
Qed.

(** Typing a number within the range of the samples: the command broadcasts one volume, and a
    player for which that was the last volume message it handled (in whatever pieces the
    messages arrived, the volume handlers running in the order of arrival and after the
    player's initialisation) writes for every sample the typed number times the sample to its
    sound card, as long as that is below full scale. *)
Theorem C112_typed_volume_is_heard : forall fmt send t neg m base x n d args st,
  zlen t <= 2000 -> numeral t neg m base x -> fraction m base x = (n, d) -> ~ too_large n d ->
  exists f msg st', volume_exec parse_float_full fmt send (t :: args) st = Ok (msg, true, st') /\
    st_sent st' = st_sent st ++ [f] /\
  forall w before later frames pieces start events,
    zlib_inverse w -> foreign w [] = None ->
    Forall (sendable w) (before ++ SetVolumeRequest f :: later) ->
    Forall2 (frame_of w) (before ++ SetVolumeRequest f :: later) frames -> concat pieces = concat frames ->
    (forall v, ~ In (SetVolumeRequest v) later) ->
    volumes_got start = [] -> Forall (fun e => e <> InitVolume) events ->
    volumes_got events = volumes_got (events_of (fst (handle_connection w pieces))) ->
  forall samples buf, zlen buf = 4 * zlen samples ->
    exists bytes,
      samples_to_buf fmul (pv_volume (run_player (start ++ InitVolume :: events))) 0 samples buf = Ok bytes /\
      zlen bytes = zlen buf /\
      forall i l r, nth_error samples i = Some (l, r) ->
        (unit_sample l -> below_full_scale n d l -> exists v, sound16 bytes (4 * i) = Some v /\ heard neg n d l v) /\
        (unit_sample r -> below_full_scale n d r -> exists v, sound16 bytes (4 * i + 2) = Some v /\ heard neg n d r v).
Proof.
  intros fmt send t neg m base x n d args st Lt Hnum Hfr TL.
  destruct (parse_numeral _ _ _ _ _ _ _ Lt Hnum Hfr) as (Hn & Hd & _).
  destruct (C104_number fmt send t neg m base x n d args st Lt Hnum Hfr) as [[TL' _]|(_ & f & msg & st' & E & Nr & _ & Es)]; [contradiction|].
  exists f, msg, st'. split; [exact E|]. split; [exact Es|].
  intros w before later frames pieces start events Hz Hfo Hs Hf Hc Hl Hst Hev Hvol samples buf Hb.
  assert (V : pv_volume (run_player (start ++ InitVolume :: events)) = f).
  { rewrite (C95_volume_partial start events Hst Hev), Hvol.
    assert (Hh : handle_connection w pieces = (before ++ SetVolumeRequest f :: later, Closed)).
    { apply (handle_frames w Hz _ frames Hs Hf pieces []); [rewrite app_nil_r; exact Hc|].
      intros c' Hc'. exists []. apply read_wire_eof; exact Hc'. }
    rewrite Hh. cbn [fst]. rewrite received_volumes, flat_map_app. cbn [flat_map].
    assert (L0 : flat_map (fun m => match m with SetVolumeRequest v => [v] | _ => [] end) later = []).
    { clear - Hl. induction later as [|y later IH]; [reflexivity|]. cbn [flat_map]. rewrite IH by (intros v Hv; apply (Hl v); now right).
      destruct y; try reflexivity. exfalso. apply (Hl volume). now left. }
    rewrite L0, app_nil_r, last_last. reflexivity. }
  rewrite V. destruct (C25_buffer fmul f samples buf Hb) as (bytes & B1 & B2 & B3). exists bytes. split; [exact B1|]. split; [exact B2|].
  intros i l r Hi. destruct (B3 i (l, r) Hi) as (N0 & N1 & N2 & N3). cbn [fst snd] in *. unfold sound16.
  replace (S (4 * i)) with (4 * i + 1)%nat by lia. replace (S (4 * i + 2)) with (4 * i + 3)%nat by lia. rewrite N0, N1, N2, N3.
  split; intros U Bf; (eexists; split; [reflexivity|]); apply typed_sample; assumption.
Qed.
Print Assumptions C112_typed_volume_is_heard.

(** A typed number equal to 1 leaves every sample as it is. *)
Theorem C112_one : forall fmt send t neg m base x n args st,
  zlen t <= 2000 -> numeral t neg m base x -> fraction m base x = (n, n) -> neg = false ->
  exists msg st', volume_exec parse_float_full fmt send (t :: args) st = Ok (msg, true, st') /\
    st_sent st' = st_sent st ++ [float_one] /\ forall s, is_nan s = false -> is_inf s = false ->
      convert_sample (fmul s float_one) = convert_sample s.
Proof.
  intros fmt send t neg m base x n args st Lt Hnum Hfr ->.
  destruct (parse_numeral _ _ _ _ _ _ _ Lt Hnum Hfr) as (Hn & Hd & P).
  rewrite (Z.mul_comm n f_one), rnd_exact in P; [|exact Hd|exists 1, 1074; unfold f_one; lia].
  destruct (Z.leb_spec f_max f_one) as [L|L]; [pose proof one_lt_max; lia|].
  assert (F1 : f_pack false f_one = float_one) by (vm_compute; reflexivity). rewrite F1 in P.
  unfold volume_exec, parse_float_param. cbn [nth_error]. rewrite P. cbn [negb].
  destruct (send float_one); (do 2 eexists; split; [reflexivity|]; split; [reflexivity|]; intros s N1 I1; apply C81_volume_one; split; assumption).
Qed.
Print Assumptions C112_one.

(** Non-vacuity: "-0.3" is typed; the messages are a ping, an old volume, the new volume and a
    ping, read byte by byte; the samples are 1 and -0.5.  The sound card gets -9830 and 4915
    (-0.3 * 32768 = -9830.4, 0.15 * 32768 = 4915.2). *)
Definition y_f : f64 := 0xBFD3333333333333%N.
Definition y_msgs : list message := [PingMessage; SetVolumeRequest 0x3FE0000000000000; SetVolumeRequest y_f; PingMessage].
Definition y_frames : list (list N) := Eval vm_compute in
  map (fun m => match to_wire toy_env m with Some f => f | None => [] end) y_msgs.
Definition y_pieces : list (list N) := map (fun b => [b]) (concat y_frames).
Ltac dig := cbn; first [apply digits_under|apply digits_one|apply digits_next]; [unfold hex_digit, dec_digit; cbn; lia|..].
Example C112_nonvacuous : forall send st,
  numeral (T "-0.3") true 3 10 (-1) /\ fraction 3 10 (-1) = (3, 10) /\ ~ too_large 3 10 /\
  (exists msg st', volume_exec parse_float_full (fun _ => []) send [T "-0.3"] st = Ok (msg, true, st') /\ st_sent st' = st_sent st ++ [y_f]) /\
  zlib_inverse toy_env /\ foreign toy_env [] = None /\ Forall (sendable toy_env) y_msgs /\
  Forall2 (frame_of toy_env) y_msgs y_frames /\ concat y_pieces = concat y_frames /\
  (let events := InitStreamer :: events_of (fst (handle_connection toy_env y_pieces)) in
   events = [InitStreamer; GotVolume 0x3FE0000000000000; GotVolume y_f] /\
   unit_sample float_one /\ below_full_scale 3 10 float_one /\ unit_sample 0xBFE0000000000000 /\ below_full_scale 3 10 0xBFE0000000000000 /\
   exists bytes, samples_to_buf fmul (pv_volume (run_player (InitVolume :: events))) 0 [(float_one, 0xBFE0000000000000%N)] [9; 9; 9; 9] = Ok bytes /\
   sound16 bytes 0 = Some (-9830) /\ sound16 bytes 2 = Some 4915).
Proof.
  intros send st. split.
  { apply (num_decimal (T "-") (T "0.3") [] true 3 1 0); [reflexivity| |left; split; reflexivity].
    exists (T "0"), (T "3"), [0], [3]. split; [right; dig|]. split; [right; dig|]. split; [discriminate|]. split; [now right|]. now split. }
  split; [reflexivity|]. split; [unfold too_large; apply Z.lt_nge, Z.ltb_lt; vm_compute; reflexivity|].
  split.
  { assert (P : parse_float_full (T "-0.3") = Some y_f) by (vm_compute; reflexivity).
    unfold volume_exec, parse_float_param. cbn [nth_error]. rewrite P. cbn [negb]. destruct (send y_f); (do 2 eexists; split; reflexivity). }
  split; [exact toy_inverse|]. split; [reflexivity|].
  split.
  { unfold y_msgs.
    repeat (apply Forall_cons; [split; [cbn; unfold in_int64, in_uint64, float_bits, y_f; repeat split; try lia; repeat constructor|split; [exact I|small_fits]]|]).
    constructor. }
  split; [unfold frame_of, y_msgs, y_frames; repeat (apply Forall2_cons; [vm_compute; reflexivity|]); constructor|].
  split; [vm_compute; reflexivity|]. cbv zeta. split; [vm_compute; reflexivity|].
  split; [repeat split; apply Z.leb_le; vm_compute; reflexivity|].
  split; [unfold below_full_scale; apply Z.leb_le; vm_compute; reflexivity|].
  split; [repeat split; apply Z.leb_le; vm_compute; reflexivity|].
  split; [unfold below_full_scale; apply Z.leb_le; vm_compute; reflexivity|].
  eexists. split; [vm_compute; reflexivity|]. split; vm_compute; reflexivity.
Qed.
