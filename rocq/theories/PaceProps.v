(** C25, C72: pacing. *)
From Verif Require Import Base Lib FcModel LrModel CcModel PaceModel PaceProofs.
Local Open Scope Z_scope.

(** Two congestion windows per round trip, for [d] nanoseconds, rounded down. *)
Definition rate_for (cwnd rtt d : Z) : Z := d * (2 * cwnd) / rtt.
(** A sender obeys the pacer: it sends no packet before the time that [pc_next] gives for it, and none
    larger than the packet size.  [G]: a bound on a millisecond's worth (plus one byte); no number
    exceeds 64 bits. *)
Fixpoint obeys (G : Z) (x : pacer) (ops : list pop) : Prop :=
  match ops with
  | [] => True
  | PSend now rtt cwnd count :: ops' =>
      0 < cwnd /\ 0 < rtt /\ pc_t x <= now /\ 0 <= count <= pc_p x /\ (forall n, pc_next rtt cwnd x = Some n -> n <= now) /\
      rate_for cwnd rtt 1000000 + 1 <= G /\ 2 * cwnd < 2 ^ 64 /\ rtt * (pc_p x + G) < 2 ^ 64 /\ obeys G (pc_spend now rtt cwnd count x) ops'
  | PMtu p :: ops' => 0 <= p /\ G + p < 2 ^ 63 /\ obeys G (pc_set_mtu p x) ops'
  end.
(** The bytes sent, and what was earned since time [t]. *)
Definition sent_bytes (ops : list pop) : Z := fold_right (fun o s => match o with PSend _ _ _ c => c + s | PMtu _ => s end) 0 ops.
Fixpoint earned_since (t : Z) (ops : list pop) : Z :=
  match ops with
  | [] => 0
  | PSend now rtt cwnd _ :: ops' => rate_for cwnd rtt (now - t) + earned_since now ops'
  | PMtu _ :: ops' => earned_since t ops'
  end.
(** The state of a pacer after a history. *)
Definition paced (on : bool) (t0 m p0 G : Z) (ops : list pop) (x : pacer) : Prop :=
  exists x0, pc_new on t0 m p0 = Some x0 /\ 0 <= p0 /\ 0 <= G /\ G + p0 < 2 ^ 63 /\ obeys G x0 ops /\ x = pc_runs x0 ops.

Lemma paced_inv : forall G ops x, pc_on x = true -> 0 <= pc_p x -> G + pc_p x < 2 ^ 63 -> 0 <= G -> 0 <= pc_m x < 2 ^ 63 -> pc_c x <= pc_m x -> - G <= pc_c x -> obeys G x ops ->
  let x' := pc_runs x ops in
  pc_on x' = true /\ 0 <= pc_p x' /\ G + pc_p x' < 2 ^ 63 /\ pc_m x' = pc_m x /\ pc_c x' <= pc_m x /\ - G <= pc_c x' /\ pc_c x' <= pc_c x + earned_since (pc_t x) ops - sent_bytes ops.
Proof.
  intros G. induction ops as [|[now rtt cwnd count|p] ops IH]; intros x On P0 GP G0 M Cm Lo Ob; cbn [obeys earned_since sent_bytes fold_right] in *.
  - cbn. splits; auto; lia.
  - destruct Ob as (C & R & T & Co & Nx & E & CU & O & Ob). change (2 ^ 64) with (U64 + 1) in CU, O. change (2 ^ 63) with (ISIZE + 1) in *.
    destruct (spend_bound x now rtt cwnd count G) as (S1 & S2 & S3 & S4 & S5 & S6 & S7); auto; try lia.
    destruct (IH (pc_spend now rtt cwnd count x)) as (A1 & A2 & A3 & A4 & A5 & A6 & A7); auto; try (rewrite ?S5, ?S6; lia).
    change (pc_runs x (PSend now rtt cwnd count :: ops)) with (pc_runs (pc_spend now rtt cwnd count x) ops). cbn zeta in *. rewrite S5 in A4, A5. rewrite S4 in A7.
    change (fold_right _ 0 ops) with (sent_bytes ops). unfold earned, rate_for in *. splits; auto; lia.
  - destruct Ob as (O1 & O2 & O3). destruct (IH (pc_set_mtu p x)) as (A1 & A2 & A3 & A4 & A5 & A6 & A7); auto.
    change (pc_runs x (PMtu p :: ops)) with (pc_runs (pc_set_mtu p x) ops). cbn zeta in *. change (fold_right _ 0 ops) with (sent_bytes ops). splits; auto.
Qed.
Lemma obeys_app : forall G a b x, obeys G x (a ++ b) -> obeys G x a /\ obeys G (pc_runs x a) b.
Proof.
  intros G. induction a as [|[now rtt cwnd count|p] a IH]; intros b x H; cbn [app obeys] in *; [auto| |].
  - destruct H as (H1 & H2 & H3 & H4 & H5 & H6 & H7 & H8 & H9). apply IH in H9. destruct H9. change (pc_runs x (PSend now rtt cwnd count :: a)) with (pc_runs (pc_spend now rtt cwnd count x) a). tauto.
  - destruct H as (H1 & H2 & H3). apply IH in H3. destruct H3. change (pc_runs x (PMtu p :: a)) with (pc_runs (pc_set_mtu p x) a). splits; auto.
Qed.
Lemma new_inv : forall on t0 m p0 G x0, pc_new on t0 m p0 = Some x0 -> 0 <= p0 -> 0 <= G -> G + p0 < 2 ^ 63 ->
  pc_on x0 = on /\ pc_t x0 = t0 /\ pc_p x0 = p0 /\ pc_m x0 = m /\ pc_c x0 = m /\ 0 <= m < 2 ^ 63.
Proof.
  intros on t0 m p0 G x0 H P0 G0 GP. unfold pc_new in H. destruct (_ && _) eqn:E; [|discriminate]. injection H as <-. apply andb_true_iff in E. destruct E as [E1 E2]. change (2 ^ 63) with (ISIZE + 1) in *. cbn. splits; auto; lia.
Qed.

(** C25.  In any interval (the sends [PSend now ... :: ops] that follow any history [pre]): at most one
    packet, one burst, two windows per round trip of time elapsed since that first packet, and what a
    timer can't resolve (a millisecond's worth and a byte). *)
Theorem pacing_bounds_interval_partial : forall t0 m p0 G pre now rtt cwnd count ops x, paced true t0 m p0 G (pre ++ PSend now rtt cwnd count :: ops) x ->
  sent_bytes (PSend now rtt cwnd count :: ops) <= count + m + earned_since now ops + G.
Proof.
  intros t0 m p0 G pre now rtt cwnd count ops x (x0 & Nw & P0 & G0 & GP & Ob & _). destruct (new_inv _ _ _ _ _ _ Nw P0 G0 GP) as (N1 & N2 & N3 & N4 & N5 & N6).
  apply obeys_app in Ob. destruct Ob as [O1 O2]. destruct (paced_inv G pre x0) as (A1 & A2 & A3 & A4 & A5 & A6 & A7); auto; try (rewrite ?N3, ?N4, ?N5; auto; lia).
  cbn zeta in *. set (y := pc_runs x0 pre) in *. change (PSend now rtt cwnd count :: ops) with ([PSend now rtt cwnd count] ++ ops) in O2. apply obeys_app in O2. destruct O2 as [O2 O3].
  destruct (paced_inv G [PSend now rtt cwnd count] y) as (B1 & B2 & B3 & B4 & B5 & B6 & B7); auto; try lia.
  cbn zeta in *. set (z := pc_runs y [PSend now rtt cwnd count]) in *. assert (Tz : pc_t z = now) by (unfold z; cbn; unfold pc_spend; rewrite A1; reflexivity).
  destruct (paced_inv G ops z) as (C1 & C2 & C3 & C4 & C5 & C6 & C7); auto; try lia. cbn zeta in *. rewrite Tz in C7. cbn [sent_bytes fold_right]. fold (sent_bytes ops). lia.
Qed.
Print Assumptions pacing_bounds_interval_partial.
(** From the start: at most one burst, two windows per round trip, and the slack. *)
Theorem pacing_bounds_total : forall t0 m p0 G ops x, paced true t0 m p0 G ops x -> sent_bytes ops <= m + earned_since t0 ops + G.
Proof.
  intros t0 m p0 G ops x (x0 & Nw & P0 & G0 & GP & Ob & _). destruct (new_inv _ _ _ _ _ _ Nw P0 G0 GP) as (N1 & N2 & N3 & N4 & N5 & N6).
  destruct (paced_inv G ops x0) as (A1 & A2 & A3 & A4 & A5 & A6 & A7); auto; try (rewrite ?N3, ?N4, ?N5; auto; lia). cbn zeta in *. rewrite N2, N5 in A7. lia.
Qed.
Print Assumptions pacing_bounds_total.
(** With a constant window and RTT this is a rate. *)
Lemma earned_const : forall cwnd rtt ops t, 0 < rtt -> 0 < cwnd -> Forall (fun o => match o with PSend _ r c _ => r = rtt /\ c = cwnd | PMtu _ => True end) ops ->
  let last := fold_left (fun t o => match o with PSend now _ _ _ => now | PMtu _ => t end) ops t in
  earned_since t ops <= rate_for cwnd rtt (last - t).
Proof.
  intros cwnd rtt ops. induction ops as [|[now r c k|p] ops IH]; intros t R C F; cbn [earned_since fold_left] in *; cbn zeta.
  - unfold rate_for. replace (t - t) with 0 by lia. cbn. lia.
  - inv F. destruct H1 as [-> ->]. specialize (IH now R C H2). cbn zeta in IH. unfold rate_for in *. set (l := fold_left _ ops now) in *.
    assert ((now - t) * (2 * cwnd) / rtt + (l - now) * (2 * cwnd) / rtt <= (l - t) * (2 * cwnd) / rtt); [|lia].
    apply Z.div_le_lower_bound; [lia|]. pose proof (Z.mul_div_le ((now - t) * (2 * cwnd)) rtt R). pose proof (Z.mul_div_le ((l - now) * (2 * cwnd)) rtt R). lia.
  - inv F. apply (IH t R C H2).
Qed.
Theorem pacing_rate : forall t0 m p0 G pre now rtt cwnd count ops x, paced true t0 m p0 G (pre ++ PSend now rtt cwnd count :: ops) x ->
  Forall (fun o => match o with PSend _ r c _ => r = rtt /\ c = cwnd | PMtu _ => True end) ops ->
  let last := fold_left (fun t o => match o with PSend now _ _ _ => now | PMtu _ => t end) ops now in
  sent_bytes (PSend now rtt cwnd count :: ops) <= count + m + rate_for cwnd rtt (last - now) + G.
Proof.
  intros t0 m p0 G pre now rtt cwnd count ops x H F last. pose proof (pacing_bounds_interval_partial _ _ _ _ _ _ _ _ _ _ _ H) as B.
  destruct H as (x0 & _ & _ & _ & _ & Ob & _). apply obeys_app in Ob. destruct Ob as [_ Ob]. cbn [obeys] in Ob. destruct Ob as (C & R & _).
  pose proof (earned_const cwnd rtt ops now R C F). unfold last. cbn zeta in *. lia.
Qed.
Print Assumptions pacing_rate.
(** Full statement: without the slack [G].  It is false: with a wait below a millisecond the pacer says
    "now", again and again, at one instant. *)
Theorem pacing_without_slack_refuted : exists t0 m p0 G ops x, paced true t0 m p0 G ops x /\ p0 + m + earned_since t0 ops < sent_bytes ops.
Proof.
  exists 0, 2400, 1200, 48001, (repeat (PSend 0 50000000 1200000 1200) 12). eexists. split; [|vm_compute; reflexivity].
  eexists. splits; [vm_compute; reflexivity|lia|lia|reflexivity| |reflexivity].
  cbn [repeat obeys]. repeat match goal with |- _ /\ _ => split | |- forall n, _ -> _ => intros ? H; vm_compute in H; injection H as <- end; try (vm_compute; first [reflexivity|discriminate]); vm_compute; split; discriminate.
Qed.
Print Assumptions pacing_without_slack_refuted.

(** C25: the wait is enough.  If the pacer names a time [n] in the future, then a packet sent at [n] (or
    later) finds a packet's worth of credit, but for what is earned in a nanosecond, rounded up. *)
Theorem wait_is_enough : forall x rtt cwnd n now count, pc_on x = true -> 0 < cwnd -> 2 * cwnd < 2 ^ 64 -> 0 < rtt -> rtt * (pc_p x - pc_c x) < 2 ^ 64 ->
  pc_next rtt cwnd x = Some n -> pc_t x < n -> n <= now -> 0 <= pc_m x < 2 ^ 63 -> pc_c x <= pc_m x -> - 2 ^ 62 <= pc_c x -> 0 <= pc_p x < 2 ^ 62 -> 0 <= count <= pc_p x ->
  pc_p x - count - ((2 * cwnd - 1) / rtt + 1) <= pc_c (pc_spend now rtt cwnd count x) \/ pc_c (pc_spend now rtt cwnd count x) = pc_m x.
Proof.
  intros x rtt cwnd n now count On C CU R O Nx Tn Nn M Cm Cl P Co. change (2 ^ 64) with (U64 + 1) in CU, O. change (2 ^ 63) with (ISIZE + 1) in M. assert (I62 : 2 ^ 62 + 2 ^ 62 = ISIZE + 1) by reflexivity.
  unfold pc_next in Nx. destruct (Z.leb_spec (pc_p x) (pc_c x)); [injection Nx as <-; lia|].
  assert (SC : smul cwnd SPEEDUP = 2 * cwnd) by (unfold smul, SPEEDUP; lia). rewrite SC in Nx. destruct (Z.eqb_spec (2 * cwnd) 0); [lia|].
  assert (RU : rtt <= U64) by (apply Z.le_trans with (rtt * (pc_p x - pc_c x)); [rewrite <- (Z.mul_1_r rtt) at 1; apply Z.mul_le_mono_nonneg_l; lia|lia]).
  rewrite Z.min_r in Nx by lia. assert (SD : smul rtt (pc_p x - pc_c x) = rtt * (pc_p x - pc_c x)) by (unfold smul; lia). rewrite SD in Nx.
  destruct (Z.ltb_spec (rtt * (pc_p x - pc_c x) / (2 * cwnd)) GRAN); apply some_inj in Nx; [lia|].
  destruct (wait_earns cwnd rtt (pc_p x - pc_c x) (now - pc_t x)) as (b & Eb & W & _); [lia|lia|lia|lia|lia|lia|]. unfold pc_spend. rewrite On, Z.max_r, Eb by lia. cbn [pc_c].
  assert (B0 : 0 <= (2 * cwnd - 1) / rtt) by (apply Z.div_pos; lia). assert (I0 : ISIZE = 2 ^ 62 + 2 ^ 62 - 1) by lia. clear I62. set (K := 2 ^ 62) in *. clearbody K. unfold sadd. lia.
Qed.
Print Assumptions wait_is_enough.
(** A new pacer lets a burst through at once; and while there is a packet's worth of credit there is no wait. *)
Theorem credit_means_no_wait : forall x rtt cwnd, pc_p x <= pc_c x -> pc_next rtt cwnd x = Some (pc_t x).
Proof. intros x rtt cwnd H. unfold pc_next. destruct (Z.leb_spec (pc_p x) (pc_c x)); [reflexivity|lia]. Qed.
Print Assumptions credit_means_no_wait.
(** A wait is never below a millisecond, and the time never precedes the last packet. *)
Theorem waits_are_timer_sized : forall x rtt cwnd n, pc_next rtt cwnd x = Some n -> n = pc_t x \/ pc_t x + 1000000 <= n.
Proof.
  intros x rtt cwnd n H. unfold pc_next in H. destruct (_ <=? _); [left; congruence|]. destruct (_ =? _); [discriminate|].
  destruct (Z.ltb_spec (smul (Z.min U64 rtt) (pc_p x - pc_c x) / smul cwnd SPEEDUP) GRAN); injection H as <-; [now left|right]. unfold GRAN in *. lia.
Qed.
Print Assumptions waits_are_timer_sized.

(** C72: with pacing disabled there is no wait, while packets are no larger than the burst the pacer
    was made with. *)
Lemma off_runs : forall ops x, pc_on x = false -> pc_on (pc_runs x ops) = false /\ pc_c (pc_runs x ops) = pc_c x.
Proof.
  induction ops as [|[now rtt cwnd count|p] ops IH]; intros x H; [auto| |].
  - change (pc_runs x (PSend now rtt cwnd count :: ops)) with (pc_runs (pc_spend now rtt cwnd count x) ops). destruct (IH (pc_spend now rtt cwnd count x)) as [A B]; unfold pc_spend in *; rewrite H in *; auto.
  - change (pc_runs x (PMtu p :: ops)) with (pc_runs (pc_set_mtu p x) ops). destruct (IH (pc_set_mtu p x)); auto.
Qed.
Theorem disabled_never_waits_partial : forall t0 m p0 x0 ops rtt cwnd, pc_new false t0 m p0 = Some x0 -> pc_p (pc_runs x0 ops) <= m ->
  pc_next rtt cwnd (pc_runs x0 ops) = Some (pc_t (pc_runs x0 ops)).
Proof.
  intros t0 m p0 x0 ops rtt cwnd H L. apply credit_means_no_wait. unfold pc_new in H. destruct (_ && _); [|discriminate]. injection H as <-.
  destruct (off_runs ops (mkPacer false t0 m m p0) eq_refl) as [_ ->]. exact L.
Qed.
Print Assumptions disabled_never_waits_partial.
(** Full statement: whatever the packet size.  It is false: the MTU rises from 1232 to 4067 bytes (a step of
    MTU discovery), the burst stays 2464, and a disabled pacer makes the sender wait after each packet. *)
Theorem disabled_never_waits_refuted : exists x0 ops rtt cwnd n,
  pc_new false 0 (2 * 1232) 1232 = Some x0 /\ pc_next rtt cwnd (pc_runs x0 ops) = Some n /\ n = pc_t (pc_runs x0 ops) + 6679166.
Proof.
  eexists. exists [PSend 1000 100000000 12320 1232; PMtu 4067; PSend 2000 100000000 12000 4067], 100000000, 12000. eexists.
  split; [vm_compute; reflexivity|]. split; vm_compute; reflexivity.
Qed.
Print Assumptions disabled_never_waits_refuted.
(** A sender with nothing in flight is never made to wait (C72). *)
Theorem idle_sender_never_waits : forall s rtt, c_bif (sd_cc s) = 0%N -> sd_next rtt s = Some None.
Proof. intros s rtt H. unfold sd_next. rewrite H. reflexivity. Qed.
Print Assumptions idle_sender_never_waits.
(** A new sender may send two full packets, and no more, at one instant (with the initial window, and an
    RTT of 100 ms). *)
Example burst_of_two :
  match sd_new true 0 (cc_new SsClassic NewReno 1200 false) with
  | Some s => let p n := mkPkt TShort n true 0 true 0 None false 1200 false in
              let s1 := sd_sent (p 0%N) 100000000 s in let s2 := sd_sent (p 1%N) 100000000 s1 in
              sd_next 100000000 s = Some None /\ sd_next 100000000 s1 = Some (Some 0) /\ sd_next 100000000 s2 = Some (Some 5000000)
  | None => False end.
Proof. vm_compute. auto. Qed.
(** The hypotheses of the bounds are met by a sender that waits as told. *)
Example waits_as_told : exists x, paced true 0 2400 1200 241 [PSend 0 100000000 12000 1200; PSend 0 100000000 12000 1200; PSend 5000000 100000000 12000 1200; PSend 10000000 100000000 12000 1200] x /\ pc_c x = 0.
Proof.
  exists (mkPacer true 10000000 2400 0 1200). split; [|reflexivity]. exists (mkPacer true 0 2400 2400 1200). splits; [vm_compute; reflexivity|lia|lia|reflexivity| |vm_compute; reflexivity].
  cbn [obeys]. repeat match goal with |- _ /\ _ => split | |- forall n, _ -> _ => intros ? H; vm_compute in H; injection H as <- end; try (vm_compute; first [reflexivity|discriminate]); vm_compute; split; discriminate.
Qed.
