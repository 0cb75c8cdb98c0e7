(** Theorems about the round trip time estimator and the acknowledgement rate asked of the peer. *)
From Verif Require Import Base Lib FrameModel RttModel RttSpec RttProofs RttProofs2.

(** A history the examples use: the peer's parameters, three samples and a request. *)
Definition rtt_example : list rop :=
  [RParams 25 (Some 1000) 40 12000 1200; RSample None 0 (40 * ms) (5 * ms); RSample None (50 * ms) (80 * ms) (10 * ms);
   RSample (Some (60 * ms)) (100 * ms) (160 * ms) (100 * ms); RUpdateDelay 48000 1200; RWrite 100].
Lemma rtt_example_allowed : rallowed false Guesstimate rtt_example.
Proof. vm_compute. repeat split; try discriminate. Qed.
Example rtt_example_run : match rruns (rtt_new (100 * ms)) rtt_example with
  | Some (t, h) => raws h = [40 * ms; 30 * ms; 60 * ms] /\ useds h = [40 * ms; 30 * ms; 35 * ms] /\ t_min t = 30 * ms /\
      t_smoothed t = 38281250 /\ length (frames h) = 1%nat
  | None => False end.
Proof. vm_compute. repeat split; reflexivity. Qed.

(** ** C26 *)
(** The minimum is the least of the first sample used and all later measurements; so no
    measurement is below it. *)
Theorem min_rtt_is_least : forall initial ops t h, rreached initial ops t h -> forall r0 rs u0 us,
  raws h = r0 :: rs -> useds h = u0 :: us ->
  In (t_min t) (u0 :: rs) /\ u0 <= r0 /\ (forall x, In x (u0 :: rs) -> t_min t <= x) /\ (forall x, In x (raws h) -> t_min t <= x) /\ (forall x, In x (useds h) -> t_min t <= x).
Proof.
  intros i ops t h R r0 rs u0 us ER EU. apply J_reached in R. destruct R as [_ R]. destruct (t_first t); [|congruence].
  destruct R as (_ & _ & _ & M & F). rewrite ER, EU in M. cbn [hd tl] in M. destruct (least_le u0 rs) as [L1 L2].
  assert (U0 : u0 <= r0).
  { clear -F ER EU. induction h as [|e h IH]; [discriminate|]. inv F. destruct e; cbn in *; auto. inv ER. inv EU. lia. }
  splits; auto.
  - rewrite M. apply least_in.
  - rewrite M. intros x [<-|X]; auto.
  - rewrite M, ER. intros x [<-|X]; [lia|auto].
  - intros x X. apply in_flat_map in X. destruct X as (e & He & X). rewrite Forall_forall in F. specialize (F e He). destruct e; cbn in X; destruct X; subst; tauto.
Qed.
Print Assumptions min_rtt_is_least.

(** Mean, deviation and latest value are those of RFC 9002 over the samples used. *)
Theorem averages_follow_rfc : forall initial ops t h, rreached initial ops t h -> useds h <> [] ->
  (t_smoothed t, t_var t) = averages (useds h) /\ t_latest t = last (useds h) 0.
Proof.
  intros i ops t h R NE. apply J_reached in R. destruct R as [A R]. destruct (t_first t).
  - tauto.
  - destruct (useds h); [congruence|]. rewrite R in A. discriminate.
Qed.
Print Assumptions averages_follow_rfc.

(** The mean lies between the least and the greatest sample used, and the deviation does not exceed
    the greatest. *)
Theorem smoothed_rtt_between_samples : forall initial ops t h, rreached initial ops t h -> useds h <> [] ->
  exists lo hi, In lo (useds h) /\ In hi (useds h) /\ lo <= t_smoothed t <= hi /\ t_var t <= hi /\ t_min t <= t_smoothed t.
Proof.
  intros i ops t h R NE. destruct (averages_follow_rfc _ _ _ _ R NE) as [E _]. destruct (extremes (useds h) NE) as (lo & hi & A & B & C).
  destruct (averages_bounds (useds h) lo hi NE C) as [D F]. rewrite <- E in *. cbn in *. exists lo, hi. splits; auto; try lia.
  apply J_reached in R. destruct R as [X R]. destruct (t_first t).
  - destruct R as (_ & _ & _ & _ & R). assert (G : forall x, In x (useds h) -> t_min t <= x).
    { intros x Hx. apply in_flat_map in Hx. destruct Hx as (e & He & Y). rewrite Forall_forall in R. specialize (R e He). destruct e; cbn in Y; destruct Y; subst; tauto. }
    specialize (G lo A). lia.
  - destruct (useds h); [congruence|]. rewrite R in X. discriminate.
Qed.
Print Assumptions smoothed_rtt_between_samples.

(** At most the delay the peer reported is taken off a measurement ... *)
Theorem samples_lose_at_most_the_delay : forall initial ops t h, rreached initial ops t h -> forall raw delay used,
  In (VSample raw delay used) h -> raw - delay <= used <= raw.
Proof.
  intros i ops t h R raw d u H. apply J_reached in R. destruct R as [A R]. destruct (t_first t).
  - destruct R as (_ & _ & _ & _ & R). rewrite Forall_forall in R. specialize (R _ H). cbn in R. tauto.
  - assert (X : In raw (raws h)) by (apply in_flat_map; eexists; split; [exact H|left; reflexivity]). rewrite R in X. destruct X.
Qed.
Print Assumptions samples_lose_at_most_the_delay.
(** ... and exactly it, limited to what the peer promised once the handshake is confirmed, unless
    that would take the sample below the minimum. *)
Theorem sample_adjustment_exact : forall initial ops t h confirmed sent now delay t' h', rreached initial ops t h ->
  rreached initial (ops ++ [RSample confirmed sent now delay]) t' (h ++ h') -> sent <= now ->
  let raw := now - sent in
  let d := match confirmed with Some c => if c <? sent then N.min delay (pd_max (t_delay t)) else delay | None => delay end in
  h' = [VSample raw delay (t_latest t')] /\
  t_latest t' = (if N.min (t_min t) raw + d <=? raw then raw - d else raw) /\ t_delay t' = t_delay t.
Proof.
  intros i ops t h c s now d t' h' R R' L. unfold rreached in *. rewrite rruns_app, R in R'. cbn [rruns rstep] in R'. unfold rtt_sample in R'.
  destruct (N.ltb_spec now s); [lia|]. destruct (rtt_update _ _ _ _ _) as [t1|] eqn:E; [|discriminate].
  apply some_inj, pair_equal_spec in R'. destruct R' as [<- E']. apply app_inv_head in E'. cbn in E'. cbn zeta. split; [symmetry; exact E'|].
  apply update_spec in E. destruct E as (_ & E & _ & D & _). split; [|exact D]. rewrite E. destruct c as [c|]; cbn; [|reflexivity]. destruct (c <? s); reflexivity.
Qed.
Print Assumptions sample_adjustment_exact.

(** The probe timeout is at least a millisecond above the mean, at least four deviations above it, and
    at most five times the greatest sample (plus a millisecond); once confirmed it allows for the
    peer's delay too. *)
Theorem pto_bounds : forall initial ops t h, rreached initial ops t h ->
  t_smoothed t + ms <= rtt_pto false t /\ t_smoothed t + 4 * t_var t <= rtt_pto false t /\
  rtt_pto true t = rtt_pto false t + pd_max (t_delay t) /\
  (useds h <> [] -> exists hi, In hi (useds h) /\ rtt_pto false t <= 5 * hi + ms).
Proof.
  intros i ops t h R. unfold rtt_pto, GRANULARITY. splits; try lia. intros NE.
  destruct (smoothed_rtt_between_samples _ _ _ _ R NE) as (lo & hi & A & B & C & D & _). exists hi. split; [exact B|]. lia.
Qed.
Print Assumptions pto_bounds.
(** The time after which a packet is lost is nine eighths of the larger of the mean and the latest
    sample, and never below a millisecond. *)
Theorem loss_delay_bounds : forall t, ms <= rtt_loss_delay t /\
  9 * t_latest t < 8 * (rtt_loss_delay t + 1) /\ 9 * t_smoothed t < 8 * (rtt_loss_delay t + 1) /\
  (rtt_loss_delay t = ms \/ 8 * rtt_loss_delay t <= 9 * t_latest t \/ 8 * rtt_loss_delay t <= 9 * t_smoothed t).
Proof. intros t. unfold rtt_loss_delay, GRANULARITY. splits; [lia|dlia|dlia|]. dlia. Qed.
Print Assumptions loss_delay_bounds.
(** Before the first sample the estimate is the value given, if that is at least a millisecond; a new
    path starts with the mean and deviation of the old one and with what was agreed with the peer. *)
Theorem initial_rtt_is_used : forall initial v t h, rreached initial [RInitial v] t h ->
  h = [] /\ t_smoothed t = (if ms <=? v then v else initial) /\ t_min t = t_smoothed t /\ t_var t = t_smoothed t / 2.
Proof.
  intros i v t h R. unfold rreached in R. cbn in R. unfold rtt_set_initial, GRANULARITY in R. destruct (ms <=? v); cbn in R; apply some_inj, pair_equal_spec in R; destruct R as [<- <-]; cbn; auto.
Qed.
Print Assumptions initial_rtt_is_used.
Theorem new_path_is_primed : forall initial other t h, rreached initial [RPrime other] t h ->
  h = [] /\ t_smoothed t = (if ms <=? t_smoothed other + t_var other then t_smoothed other + t_var other else initial) /\ t_delay t = t_delay other.
Proof.
  intros i v t h R. unfold rreached in R. cbn in R. unfold rtt_prime, rtt_set_initial, GRANULARITY in R. destruct (ms <=? _); cbn in R; apply some_inj, pair_equal_spec in R; destruct R as [<- <-]; cbn; auto.
Qed.
Print Assumptions new_path_is_primed.
(** The delay in an ACK frame is scaled by the peer's exponent, without overflow. *)
Theorem ack_delay_is_scaled : forall e v, e <= 20 -> v < 2 ^ 64 ->
  decode_ack_delay (Some e) v = 1000 * N.min (v * 2 ^ e) (if v <? 2 ^ (64 - e) then v * 2 ^ e else 2 ^ 64 - 1) /\
  decode_ack_delay (Some e) v < 1000 * 2 ^ 64 /\ (v * 2 ^ e < 2 ^ 64 -> decode_ack_delay (Some e) v = 1000 * (v * 2 ^ e)).
Proof.
  intros e v A B. unfold decode_ack_delay. rewrite N.shiftl_mul_pow2.
  assert (P : 2 ^ 64 = 2 ^ (64 - e) * 2 ^ e) by (rewrite <- N.pow_add_r; f_equal; lia).
  assert (E1 : 0 < 2 ^ e) by (apply pow2_pos).
  destruct (N.ltb_spec v (2 ^ (64 - e))) as [L|L].
  - assert (v * 2 ^ e < 2 ^ (64 - e) * 2 ^ e) by (apply N.mul_lt_mono_pos_r; lia). splits; [lia|lia|auto].
  - assert (2 ^ (64 - e) * 2 ^ e <= v * 2 ^ e) by (apply N.mul_le_mono_r; lia). splits; [lia|lia|lia].
Qed.
Print Assumptions ack_delay_is_scaled.
Example ack_delay_is_scaled_ex : decode_ack_delay (Some 3) 125 = 1 * ms /\ decode_ack_delay (Some 20) (2 ^ 62 - 1) = 1000 * (2 ^ 64 - 1) /\ decode_ack_delay None 125 = 0.
Proof. vm_compute. auto. Qed.
(** No use of the estimator that the connection makes panics, if the peer's min_ack_delay is at most
    50 ms (see C48 for the other case). *)
Theorem rtt_estimator_never_panics : forall initial ops, rallowed false Guesstimate ops -> lenN ops < 2 ^ 62 ->
  exists t h, rreached initial ops t h.
Proof.
  intros i ops A L. destruct (runs_total ops (rtt_new i) 0) as (t & h & E & _); cbn; auto; try lia. exists t, h. exact E.
Qed.
Print Assumptions rtt_estimator_never_panics.
Example rtt_estimator_never_panics_ex : rallowed false Guesstimate rtt_example.
Proof. exact rtt_example_allowed. Qed.

(** ** C48 *)
(** The peer may send parameters that make the code panic. *)
Theorem ack_rate_total_refuted : exists max_ms min_us ratio cwnd mtu t, legal_params max_ms (Some min_us) /\
  min_us * 1000 <= max_ms * ms /\ 0 < mtu /\ 0 < cwnd /\ rtt_process_tps max_ms (Some min_us) ratio cwnd mtu t = None.
Proof. exists 100, 60000, 40, 12000, 1200, (rtt_new (100 * ms)). vm_compute. repeat split; discriminate. Qed.
Print Assumptions ack_rate_total_refuted.
(** With a min_ack_delay of at most 50 ms the request is computed; parameters where the minimum exceeds
    the maximum are refused.  The delay asked for is a [ratio]th of ten round trips, but no less than
    the peer's minimum and no more than 50 ms, and an acknowledgement is asked for at least every 256
    and at most every 2 packets.
    Missing: min_ack_delay above 50 ms, for which the statement is false (above). *)
Theorem ack_rate_is_computed_partial : forall max_ms min_us ratio cwnd mtu t, legal_params max_ms (Some min_us) ->
  min_us * 1000 <= 50 * ms -> 0 < mtu ->
  if max_ms * ms <? min_us * 1000 then rtt_process_tps max_ms (Some min_us) ratio cwnd mtu t = Some None
  else exists t' f, rtt_process_tps max_ms (Some min_us) ratio cwnd mtu t = Some (Some t') /\ t_delay t' = Flexible f /\
    a_delay (f_current f) = max_ms * ms /\
    1 <= a_packets (f_target f) <= 255 /\ min_us * 1000 <= a_delay (f_target f) <= 50 * ms /\
    (let x := t_smoothed t * 10 / N.max 10 ratio in
     (min_us * 1000 <= x <= 50 * ms -> a_delay (f_target f) = x) /\ (x < min_us * 1000 -> a_delay (f_target f) = min_us * 1000) /\ (50 * ms < x -> a_delay (f_target f) = 50 * ms)) /\
    (let y := cwnd * 10 / mtu / N.max 10 ratio in 2 <= y <= 256 -> a_packets (f_target f) = y - 1).
Proof.
  intros mx us ratio cwnd mtu t _ F M. unfold rtt_process_tps. destruct (_ <? _); [reflexivity|]. unfold flex_new. change ACK_RATIO_SCALE with 10.
  destruct (rate_new_ok (us * 1000) (N.max 10 ratio) cwnd mtu (t_smoothed t) F M) as (r & -> & [R1 R2] & R3 & R4); [lia|].
  eexists _, _. split; [reflexivity|]. split; [reflexivity|]. cbn [f_current f_target a_delay a_packets]. splits; auto; try lia; apply R3.
Qed.
Print Assumptions ack_rate_is_computed_partial.
Example ack_rate_is_computed_ex : legal_params 25 (Some 1000) /\
  match rtt_process_tps 25 (Some 1000) 40 120000 1200 (rtt_new (100 * ms)) with
  | Some (Some t) => match t_delay t with Flexible f => f_target f = mkRate 24 (25 * ms) | Fixed _ => False end
  | _ => False end.
Proof. vm_compute. repeat split; reflexivity. Qed.

(** ** C68 *)
(** The requests to one peer from one path are numbered 0, 1, 2, ...; each asks for 2 to 256 packets and
    for a delay no less than the peer's minimum.
    Missing: requests from another path of the same connection (below). *)
Theorem ack_requests_numbered_partial : forall initial ops t h min_us, rreached initial ops t h -> one_peer ops -> lenN ops < 2 ^ 62 ->
  min_us * 1000 <= 50 * ms -> Forall (fun o => match o with RParams _ (Some us) _ _ _ => us = min_us | _ => True end) ops ->
  forall i b r, nth_error (frames h) i = Some (b, r) ->
  frame_decode b = FOk (FAckFrequency (N.of_nat i) (a_packets r + 1) (a_delay r / 1000) false) [] /\
  2 <= a_packets r + 1 <= 256 /\ min_us <= a_delay r / 1000 <= 50000.
Proof.
  intros i ops t h us R [P1 P2] L F PM n b r E. assert (HQ : Q (us * 1000) t ([] ++ h)).
  { eapply (Q_runs (us * 1000) ops (rtt_new i) []); eauto.
    - split; [intros k br X; destruct k; discriminate|reflexivity].
    - cbn. lia.
    - apply Forall_forall. intros o Ho. rewrite Forall_forall in PM. specialize (PM o Ho). destruct o; cbn; auto.
      + assert (X : In (RPrime other) (filter is_prime ops)) by (apply filter_In; split; [exact Ho|reflexivity]). rewrite P2 in X. destruct X.
      + destruct min_us; auto. rewrite PM. reflexivity.
    - destruct (filter is_params ops); auto. exists DEFAULT_REMOTE_ACK_DELAY. reflexivity. }
  destruct HQ as [HQ _]. destruct (HQ n (b, r) E) as [A [B C]]. cbn [fst snd] in *. split; [exact A|]. unfold ms in *. split; [lia|]. split; dlia.
Qed.
Print Assumptions ack_requests_numbered_partial.
Example ack_requests_numbered_ex : one_peer rtt_example /\ Forall (fun o => match o with RParams _ (Some us) _ _ _ => us = 1000 | _ => True end) rtt_example.
Proof. split; [split; [cbn; lia|reflexivity]|]. repeat constructor. Qed.
(** A second request waits for the first one to be acknowledged or lost. *)
Theorem one_request_at_a_time : forall initial ops1 rem ops2 t0 h0 t1 b r t2 h2,
  rreached initial ops1 t0 h0 -> rstep t0 (RWrite rem) = Some (t1, [VFrame b r]) -> rruns t1 ops2 = Some (t2, h2) ->
  filter settles ops2 = [] -> frames h2 = [].
Proof.
  intros i ops1 rem ops2 t0 h0 t1 b r t2 h2 _ S R F.
  assert (O : exists f, t_delay t1 = Flexible f /\ f_outstanding f = true).
  { cbn [rstep] in S. unfold pd_write, flex_write in S. destruct (t_delay t0) as [d|f]; [discriminate|].
    destruct (_ && _); [|discriminate]. destruct (rate_write _ _ _) as [[l|]|]; [|discriminate|discriminate]. apply some_inj, pair_equal_spec in S. destruct S as [<- _]. cbn. eauto. }
  clear S. revert t1 h2 R O. induction ops2 as [|o ops2 IH]; intros t1 h2 R (f & D & O); cbn in R.
  - apply some_inj, pair_equal_spec in R. destruct R as [_ <-]. reflexivity.
  - destruct (rstep t1 o) as [[t3 h3]|] eqn:E; [|discriminate]. destruct (rruns t3 ops2) as [[t4 h4]|] eqn:E2; [|discriminate].
    apply some_inj, pair_equal_spec in R. destruct R as [<- <-]. cbn in F. destruct (settles o) eqn:C; [discriminate|].
    destruct (step_outstanding _ _ _ _ _ E D O C) as [A B]. rewrite frames_app, A. cbn. eapply IH; eauto.
Qed.
Print Assumptions one_request_at_a_time.
(** A request is made exactly if none is outstanding, it fits, and what is wanted differs from what the
    peer agreed to in the number of packets or by more than a quarter of the delay. *)
Theorem request_made_iff : forall f rem, f_seqno f < 2 ^ 62 -> 1 <= a_packets (f_target f) <= 255 -> a_delay (f_target f) <= 50 * ms ->
  exists l, frame_decode l = FOk (FAckFrequency (f_seqno f) (a_packets (f_target f) + 1) (a_delay (f_target f) / 1000) false) [] /\
  ((exists f', flex_write rem f = Some (f', Some l)) <->
   f_outstanding f = false /\ lenN l <= rem /\
   (a_packets (f_current f) <> a_packets (f_target f) \/
    a_delay (f_target f) / 4 < a_delay (f_current f) - a_delay (f_target f) \/
    a_delay (f_target f) / 4 < a_delay (f_target f) - a_delay (f_current f))).
Proof.
  intros f rem S P D. destruct (rate_write_ok 0 rem (f_seqno f) (f_target f)) as (l & W & DD); [split; [exact P|lia]|exact S|].
  exists l. split; [exact DD|]. unfold flex_write, needs_update. destruct (f_outstanding f); cbn [negb andb].
  - split; [intros [f' E]; discriminate|intros [E _]; discriminate].
  - rewrite W. destruct (N.eqb_spec (a_packets (f_current f)) (a_packets (f_target f))) as [E|E]; cbn [negb].
    + set (c := a_delay (f_current f)). set (g := a_delay (f_target f)). set (q := g / 4).
      destruct ((g + q <? c) || (c + q <? g)) eqn:B.
      * destruct (N.leb_spec (lenN l) rem).
        -- split; [intros _; splits; auto; right; lia|intros _; eauto].
        -- split; [intros [f' X]; discriminate|intros (_ & X & _); lia].
      * split; [intros [f' X]; discriminate|intros (_ & _ & X); lia].
    + destruct (N.leb_spec (lenN l) rem).
      * split; [intros _; splits; auto|intros _; eauto].
      * split; [intros [f' X]; discriminate|intros (_ & X & _); lia].
Qed.
Print Assumptions request_made_iff.
Example request_made_ex : let f := mkFlex (mkRate 1 (25 * ms)) (mkRate 9 (25 * ms)) 3 false ms 40 in
  flex_write 20 f = Some (mkFlex (mkRate 1 (25 * ms)) (mkRate 9 (25 * ms)) 4 true ms 40, Some [64; 175; 3; 10; 128; 0; 97; 168; 0]).
Proof. vm_compute. reflexivity. Qed.
(** A request that is lost is no longer outstanding, and nothing else changed: it is made again on the
    conditions of the theorem above. *)
Theorem lost_request_is_not_outstanding : forall t0 rem t1 b r, rstep t0 (RWrite rem) = Some (t1, [VFrame b r]) ->
  exists f0 f2 t2, t_delay t0 = Flexible f0 /\ rstep t1 RFrameLost = Some (t2, []) /\ t_delay t2 = Flexible f2 /\
    f_outstanding f2 = false /\ f_current f2 = f_current f0 /\ f_target f2 = f_target f0 /\ f_seqno f2 = f_seqno f0 + 1 /\ r = f_target f0.
Proof.
  intros t0 rem t1 b r S. cbn [rstep] in S. unfold pd_write, flex_write in S. destruct (t_delay t0) as [d|f]; [discriminate|].
  destruct (_ && _); [|discriminate]. destruct (rate_write _ _ _) as [[l|]|]; [|discriminate|discriminate]. apply some_inj, pair_equal_spec in S. destruct S as [<- S].
  eexists f, _, _. cbn. splits; try reflexivity. cbn in S. congruence.
Qed.
Print Assumptions lost_request_is_not_outstanding.
Example lost_request_ex : match rruns (rtt_new (100 * ms)) [RParams 25 (Some 1000) 40 48000 1200; RWrite 100; RWrite 100; RFrameLost; RWrite 100] with
  | Some (t, h) => lenN (frames h) = 2 | None => False end.
Proof. vm_compute. reflexivity. Qed.
(** Two paths of a connection may send requests with the same number: a path created while another is in
    use copies the next number and both go on from there.  The peer ignores the second request, but its
    acknowledgement is taken for consent. *)
Theorem ack_requests_numbered_refuted : exists ops t0 h0 ta ha tb hb b1 b2 r1 r2 n d1 d2,
  rallowed false Guesstimate ops /\ rreached (100 * ms) ops t0 h0 /\
  rruns t0 [RWrite 100] = Some (ta, ha) /\
  rruns (rtt_new (100 * ms)) [RPrime t0; RUpdateDelay 120000 1200; RWrite 100] = Some (tb, hb) /\
  frames ha = [(b1, r1)] /\ frames hb = [(b2, r2)] /\
  frame_decode b1 = FOk (FAckFrequency n (a_packets r1 + 1) d1 false) [] /\ frame_decode b2 = FOk (FAckFrequency n (a_packets r2 + 1) d2 false) [] /\ a_packets r1 <> a_packets r2.
Proof.
  pose (g := fun t ops => match rruns t ops with Some x => x | None => (rtt_new 0, []) end).
  pose (ops := [RParams 25 (Some 1000) 40 48000 1200]). pose (t0 := fst (g (rtt_new (100 * ms)) ops)).
  pose (a := g t0 [RWrite 100]). pose (b := g (rtt_new (100 * ms)) [RPrime t0; RUpdateDelay 120000 1200; RWrite 100]).
  pose (fa := hd ([], mkRate 0 0) (frames (snd a))). pose (fb := hd ([], mkRate 0 0) (frames (snd b))).
  exists ops, t0, [], (fst a), (snd a), (fst b), (snd b), (fst fa), (fst fb), (snd fa), (snd fb), 0, 25000, 37500.
  splits; try (vm_compute; reflexivity).
  - vm_compute. repeat split; discriminate.
  - vm_compute. discriminate.
Qed.
Print Assumptions ack_requests_numbered_refuted.

(** ** C69 *)
(** As long as what is wanted does not change, the delay allowed for covers the last request; and from the
    acknowledgement of a request until that of another, it covers that request.
    Missing: the time after what is wanted was lowered, while an earlier request may be in force (below). *)
Theorem peer_delay_covers_request_partial : forall initial ops1 rem ops2 t0 h0 t1 b r t2 h2,
  rreached initial ops1 t0 h0 -> rstep t0 (RWrite rem) = Some (t1, [VFrame b r]) -> rruns t1 ops2 = Some (t2, h2) ->
  filter changes_target ops2 = [] -> a_delay r <= pd_max (t_delay t2).
Proof.
  intros i ops1 rem ops2 t0 h0 t1 b r t2 h2 _ S R F.
  assert (O : exists f, t_delay t1 = Flexible f /\ f_target f = r).
  { cbn [rstep] in S. unfold pd_write, flex_write in S. destruct (t_delay t0) as [d|f]; [discriminate|].
    destruct (_ && _); [|discriminate]. destruct (rate_write _ _ _) as [[l|]|]; [|discriminate|discriminate]. apply some_inj, pair_equal_spec in S. destruct S as [<- E]. inv E. cbn. eauto. }
  destruct O as (f & D & O). destruct (runs_keep (fun f => f_target f = r) changes_target) with (ops := ops2) (t := t1) (t' := t2) (h' := h2) (f := f) as (f' & D' & O'); auto.
  - intros t o t' h' g S' D' HP C. destruct (step_target _ _ _ _ _ S' D' C) as (g' & G1 & G2). exists g'. split; [exact G1|]. congruence.
  - rewrite D'. cbn. unfold flex_max. rewrite O'. lia.
Qed.
Print Assumptions peer_delay_covers_request_partial.
Theorem peer_delay_covers_acked_partial : forall initial ops1 r ops2 t0 h0 f t1 h1 t2 h2,
  rreached initial ops1 t0 h0 -> t_delay t0 = Flexible f -> rstep t0 (RFrameAcked r) = Some (t1, h1) -> rruns t1 ops2 = Some (t2, h2) ->
  filter changes_current ops2 = [] -> a_delay r <= pd_max (t_delay t2).
Proof.
  intros i ops1 r ops2 t0 h0 f t1 h1 t2 h2 _ D S R F. cbn [rstep] in S. rewrite D in S. apply some_inj, pair_equal_spec in S. destruct S as [E _].
  destruct (runs_keep (fun f => f_current f = r) changes_current) with (ops := ops2) (t := t1) (t' := t2) (h' := h2) (f := flex_acked r f) as (f' & D' & O'); auto.
  - intros t o t' h' g S' D' HP C. destruct (step_current _ _ _ _ _ S' D' C) as (g' & G1 & G2). exists g'. split; [exact G1|]. congruence.
  - subst t1. reflexivity.
  - rewrite D'. cbn. unfold flex_max. rewrite O'. lia.
Qed.
Print Assumptions peer_delay_covers_acked_partial.
Example peer_delay_covers_ex : match rruns (rtt_new (100 * ms)) rtt_example with
  | Some (t, h) => match frames h with [(_, r)] => a_delay r = 9570312 /\ pd_max (t_delay t) = 25 * ms | _ => False end | None => False end.
Proof. vm_compute. split; reflexivity. Qed.
(** The probe timeout may allow for less than the peer was asked to delay: a request for a longer delay is
    sent, then the window shrinks and so does what is wanted, before the peer's answer. *)
Theorem peer_delay_covers_request_refuted : exists ops t h b r, rallowed false Guesstimate ops /\ one_peer ops /\
  rreached (200 * ms) ops t h /\ frames h = [(b, r)] /\ pd_max (t_delay t) < a_delay r.
Proof.
  pose (ops := [RParams 25 (Some 1000) 40 48000 1200; RWrite 100; RSample None 0 (20 * ms) 0; RUpdateDelay 24000 1200]).
  pose (a := match rruns (rtt_new (200 * ms)) ops with Some x => x | None => (rtt_new 0, []) end). pose (fa := hd ([], mkRate 0 0) (frames (snd a))).
  exists ops, (fst a), (snd a), (fst fa), (snd fa). splits; try (vm_compute; reflexivity).
  - vm_compute. repeat split; try discriminate.
  - split; [cbn; lia|reflexivity].
Qed.
Print Assumptions peer_delay_covers_request_refuted.
