(** C99: the synchronised clock of a client is the server's clock. *)
From Verif Require Import GoBase GoBaseFacts PlaylistModel QueueModel PlayerModel PlayerSpec PlayerProofs PlayerProps WireModel TimingModel
  TimingSpec TimingProofs TimingProps LifeModel E2EModel SyncModel SyncSpec SyncProofs.
From Coq Require Import ZifyBool ZifyNat.
Local Open Scope Z_scope.

(** Whatever the schedule of rounds, late responses and concurrent handlers (short of the
    crash of C28): the offset is the initial 0 or the client's synchronised time is, at every
    moment, at most half the path asymmetry, twice the drift and half a nanosecond off the
    server's clock. *)
Theorem C99_never_wrong : forall grow clock theta rho A acts s,
  sane theta rho A -> apart clock theta rho -> measured_with clock A acts ->
  trun grow init_t acts = Some (Ok s) ->
  off s = 0 \/
  forall t, Z.abs t <= 2 ^ 61 -> 2 * Z.abs (get_synced_time s t - clock t) <= A + 4 * rho + 1.
Proof.
  intros grow clock theta rho A acts s Hs Hc Hm H.
  pose proof (measured_near _ _ _ _ _ Hs Hc Hm) as M.
  destruct (near_run grow theta rho A (fun o => o = 0 \/ near theta (A + 2 * rho + 1) o) acts Hs (fun o K => or_intror K) init_t s) as [_ [E|E]]; auto.
  - constructor.
  - right. intros t Ht. eapply near_clock; eassumption.
Qed.
Print Assumptions C99_never_wrong.

(** After a complete round of n requests, and whatever happens later, it is so. *)
Theorem C99_synchronised : forall grow clock theta rho A n before round later s0 s1 s,
  sane theta rho A -> apart clock theta rho -> (1 <= n)%nat ->
  measured_with clock A (before ++ round ++ later) ->
  trun grow init_t before = Some (Ok s0) -> nobody_running s0 ->
  no_reset round -> length (measured round) = n ->
  trun grow s0 (TReset (Z.of_nat n) :: round) = Some (Ok s1) -> nobody_running s1 ->
  trun grow s1 later = Some (Ok s) ->
  forall t, Z.abs t <= 2 ^ 61 -> 2 * Z.abs (get_synced_time s t - clock t) <= A + 4 * rho + 1.
Proof.
  intros grow clock theta rho A n before round later s0 s1 s Hs Hc Hn Hm H0 Hd0 Hnr Hlen H1 Hd1 H2 t Ht.
  pose proof (measured_near _ _ _ _ _ Hs Hc Hm) as M. rewrite !measured_app, !Forall_app in M. destruct M as (M0 & M1 & M2).
  destruct (C27_round grow s0 n round s1 Hn Hd0 Hnr H1) as [_ HR].
  specialize (HR Hlen ltac:(eapply Forall_impl; [|exact M1]; intros o; apply near_int64; exact Hs) Hd1).
  assert (N1 : near theta (A + 2 * rho + 1) (off s1)).
  { rewrite HR. rewrite <- Hlen. apply mean_near; [|exact M1]. intros E. rewrite E in Hlen. cbn in Hlen. lia. }
  assert (O1 : Forall (near theta (A + 2 * rho + 1)) (offs s1)).
  { apply (near_run grow theta rho A (fun _ => True) (TReset (Z.of_nat n) :: round) Hs (fun _ _ => I) s0 s1); auto.
    apply (near_run grow theta rho A (fun _ => True) before Hs (fun _ _ => I) init_t s0); auto. constructor. }
  destruct (near_run grow theta rho A (near theta (A + 2 * rho + 1)) later Hs (fun _ K => K) s1 s O1 N1 M2 H2) as [_ N].
  eapply near_clock; eassumption.
Qed.
Print Assumptions C99_synchronised.

(** The server, which never handles a response, uses its own clock. *)
Theorem C99_server_clock : forall t, in_int64 t -> get_synced_time init_t t = t.
Proof. intros t H. unfold get_synced_time. cbn [off init_t]. rewrite Z.add_0_r. apply wrap64_id. exact H. Qed.
Print Assumptions C99_server_clock.

(** Two players, each with its own clock, error eA and eB (twice the distance, as in
    C99_synchronised), synchronising their output at the readings tA and tB of their raw
    clocks.  Two slots that reach the loudspeakers at most [d] apart on the server's clock
    hold samples whose due times are at most d plus half of eA + eB plus a sample period plus
    2 ns plus 1 ns per chunk apart. *)
Theorem C99_heard_together : forall start size sr
    clockA sA tA eA cA qA kA callsA ysA qA' bA' mA yA
    clockB sB tB eB cB qB kB callsB ysB qB' bB' mB yB d,
  0 < sr -> 0 < size -> 0 <= cA -> 0 <= cB -> (0 < kA)%nat -> (0 < kB)%nat ->
  2 * Z.abs (get_synced_time sA tA - clockA tA) <= eA ->
  2 * Z.abs (get_synced_time sB tB - clockB tB) <= eB ->
  Forall (fun x => ts_nan x = false) qA -> Forall (fun x => ts_nan x = false) qB ->
  (forall i x, nth_error qA i = Some x -> snd x = scheduled start size sr (cA + Z.of_nat i)) ->
  (forall i x, nth_error qB i = Some x -> snd x = scheduled start size sr (cB + Z.of_nat i)) ->
  play sr true ((get_synced_time sA tA, kA) :: callsA) qA = Some (map Some ysA, qA', bA') ->
  play sr true ((get_synced_time sB tB, kB) :: callsB) qB = Some (map Some ysB, qB', bB') ->
  nth_error ysA mA = Some yA -> nth_error ysB mB = Some yB ->
  Z.abs ((clockA tA + Z.of_nat mA * 1000000000 / sr) - (clockB tB + Z.of_nat mB * 1000000000 / sr)) <= d ->
  Z.abs (snd yA - snd yB) <= d + (eA + eB) / 2 + 1000000000 / sr + 2 + Z.max (Z.of_nat mA) (Z.of_nat mB) / size.
Proof.
  intros start size sr clockA sA tA eA cA qA kA callsA ysA qA' bA' mA yA clockB sB tB eB cB qB kB callsB ysB qB' bB' mB yB d
    Hs Hz HcA HcB HkA HkB HeA HeB HnA HnB HTA HTB HA HB HyA HyB Hd.
  rewrite <- (Z.add_assoc d).
  pose proof (C23_players_agree start size sr cA qA (get_synced_time sA tA) kA callsA ysA qA' bA' cB qB (get_synced_time sB tB) kB callsB ysB qB' bB' mA mB yA yB
    (d + (eA + eB) / 2) Hs Hz HcA HcB HkA HkB HnA HnB HTA HTB HA HB HyA HyB) as P.
  assert (Hdd : Z.abs (get_synced_time sA tA + Z.of_nat mA * 1000000000 / sr - (get_synced_time sB tB + Z.of_nat mB * 1000000000 / sr))
    <= d + (eA + eB) / 2).
  { pose proof (Z.div_mod (eA + eB) 2 ltac:(lia)). pose proof (Z.mod_pos_bound (eA + eB) 2 ltac:(lia)).
    set (u := get_synced_time sA tA) in *. set (w := get_synced_time sB tB) in *.
    set (pa := Z.of_nat mA * 1000000000 / sr) in *. set (pb := Z.of_nat mB * 1000000000 / sr) in *. lia. }
  specialize (P Hdd). lia.
Qed.
Print Assumptions C99_heard_together.

(** The server's clock is 700 ns behind the client's, drifting by up to 1 ns; a round of
    three exchanges whose responses are handled concurrently, then the beginning of the next
    round.  The client's synchronised time is 5 ns off. *)
Definition x_clock (t : Z) : Z := t - 700 + t mod 2.
Definition x_ex (sent out back : Z) : exchange := {| x_sent := sent; x_out := out; x_work := 3; x_back := back |}.
Definition x_meas (x : exchange) : Z :=
  calc_offset (x_sent x) (x_clock (x_sent x + x_out x)) (x_clock (x_sent x + x_out x + x_work x))
    (x_sent x + x_out x + x_work x + x_back x).
Lemma x_measures (s : srv) x : measures x_clock x (x_meas x) .
Proof.
  exists s, (write_to s 1%nat [TimeSyncResponse (x_sent x) (x_clock (x_sent x + x_out x)) (x_clock (x_sent x + x_out x + x_work x))]), 1%nat.
  eexists. split; [reflexivity|]. split; [unfold write_to; cbn [sv_out]; rewrite Nat.eqb_refl; reflexivity|]. reflexivity.
Qed.
Definition x_es : list exchange := [x_ex 1000 50 75; x_ex 2000 60 70; x_ex 3000 81 80; x_ex 90001 50 75].
Definition x_round : list tact :=
  [TAppend (-712); TAppend (-704); TLen 1; TCap 1; TAppend (-699); TLen 2; TCap 2; TLen 0; TCap 0; TAvg 0; TAvg 2].
Example C99_nonvacuous : exists s1 s,
  sane (-700) 1 25 /\ apart x_clock (-700) 1 /\ map x_meas x_es = [-712; -704; -699; -712] /\
  measured x_round ++ measured [TReset 3; TAppend (-712); TLen 3; TCap 3] = map x_meas x_es /\
  trun (fun n => 2 * n)%nat init_t (TReset 3 :: x_round) = Some (Ok s1) /\ nobody_running s1 /\ no_reset x_round /\
  trun (fun n => 2 * n)%nat s1 [TReset 3; TAppend (-712); TLen 3; TCap 3] = Some (Ok s) /\
  get_synced_time s 100000 = 99295 /\ x_clock 100000 = 99300.
Proof.
  do 2 eexists. split; [unfold sane; lia|]. split.
  { intros t. unfold x_clock. pose proof (Z.mod_pos_bound t 2 ltac:(lia)). lia. }
  split; [vm_compute; reflexivity|]. split; [vm_compute; reflexivity|]. split; [vm_compute; reflexivity|].
  split; [repeat constructor|]. split; [repeat constructor|]. split; [vm_compute; reflexivity|]. split; vm_compute; reflexivity.
Qed.

(** Player A's raw clock is the server's clock and it knows that exactly; player B is the one
    above.  Slot 4 of A and slot 0 of B are 9312 ns apart; both hold the sample due at 204080. *)
Example C99_heard_nonvacuous : exists sB ysA ysB qA' qB',
  trun (fun n => 2 * n)%nat init_t (TReset 3 :: x_round) = Some (Ok sB) /\
  2 * Z.abs (get_synced_time init_t 100000 - 100000) <= 0 /\
  2 * Z.abs (get_synced_time sB 200713 - x_clock 200713) <= 25 + 4 * 1 + 1 /\
  play 44100 true [(get_synced_time init_t 100000, 2%nat); (145351, 3%nat)] (feed_part 0 5 44100 0 30) = Some (map Some ysA, qA', false) /\
  play 44100 true [(get_synced_time sB 200713, 3%nat)] (feed_part 0 5 44100 3 30) = Some (map Some ysB, qB', false) /\
  map snd ysA = [113378; 136053; 158729; 181405; 204080] /\ map snd ysB = [204080; 226756; 249431] /\
  Z.abs ((100000 + 4 * 1000000000 / 44100) - (x_clock 200713 + 0)) = 9312.
Proof.
  eexists.
  exists [(w 5, 113378); (w 6, 136053); (w 7, 158729); (w 8, 181405); (w 9, 204080)],
         [(w 9, 204080); (w 10, 226756); (w 11, 249431)].
  eexists. eexists. split; [vm_compute; reflexivity|].
  split; [vm_compute; congruence|]. split; [vm_compute; congruence|].
  split; [vm_compute; reflexivity|]. split; [vm_compute; reflexivity|]. repeat split.
Qed.
