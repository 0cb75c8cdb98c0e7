(** Theorems about loss recovery, for every history of sending, acknowledgements, timeouts,
    discarding of keys, Retry, rejected 0-RTT and migration. *)
From Coq Require Import Sorted Permutation.
From Verif Require Import Base Lib FcModel LrModel LrSpec LrProofs LrProofs2 LrProofs3 LrProofs4 LrProofs5 LrProofs6 LrProofs7.

Lemma reached_inv fast ops r h : reached fast ops r h -> exists T last gone, INV T last gone r /\ TI last r /\ HI last h r.
Proof.
  intros [A R]. destruct (inv_new fast) as (I1 & I2 & I3). destruct (runs_ok ops _ _ _ _ [] I1 I2 I3 A) as (r' & h' & T & last & gone & E & H1 & H2 & H3 & _).
  rewrite R in E. apply some_inj in E. apply pair_equal_spec in E. destruct E as [<- <-]. exists T, last, gone. auto.
Qed.
Lemma reached_next fast ops o r h : allowed (ops ++ [o]) -> lr_runs (lr_new fast) ops = Some (r, h) ->
  exists T last gone, INV T last gone r /\ TI last r /\ uses T last gone [o].
Proof.
  intros A R. destruct (inv_new fast) as (I1 & I2 & I3). destruct (runs_uses ops [o] _ _ _ _ I1 I2 A) as (r' & h' & T & last & gone & E & H1 & H2 & H3).
  rewrite R in E. apply some_inj in E. apply pair_equal_spec in E. destruct E as [<- _]. exists T, last, gone. auto.
Qed.

(** A history that the examples use: four application packets, of which number 3 is acknowledged,
    so that number 0 is lost; then a timeout that declares numbers 1 and 2 lost. *)
Definition four : list lop :=
  [LSent true TShort 0 10 true 7 1200 false; LSent true TShort 1 20 true 8 1200 false; LSent true TShort 2 30 true 9 1200 false; LSent true TShort 3 40 true 9 1200 false].
Definition loss_example : list lop := four ++ [LAck SpApp [(3, 3)] 0 50 100 1000; LTimeout 145 100 1000 1200 true].
Lemma loss_example_allowed : allowed loss_example.
Proof. cbn. unfold upd. cbn. splits; try lia; exact Logic.I. Qed.
Example loss_example_run : match lr_runs (lr_new 100) loss_example with
  | Some (r, h) => sent_of SpApp h = [0; 1; 2; 3] /\ acked_of SpApp h = [3] /\ lost_of SpApp h = [0; 1; 2] /\ map p_pn (tracked SpApp r) = [0; 1; 2]
  | None => False end.
Proof. vm_compute. splits; reflexivity. Qed.

(** ** C21 Loss recovery never panics. *)
Theorem loss_recovery_never_panics : forall fast ops, allowed ops -> exists r h, lr_runs (lr_new fast) ops = Some (r, h).
Proof.
  intros fast ops A. destruct (inv_new fast) as (I1 & I2 & I3). destruct (runs_ok ops _ _ _ _ [] I1 I2 I3 A) as (r' & h' & T & last & gone & E & _). eauto.
Qed.
Print Assumptions loss_recovery_never_panics.
Example loss_recovery_never_panics_ex : allowed loss_example.
Proof. exact loss_example_allowed. Qed.
(** Asking when the next timeout is never fails either. *)
Theorem next_timeout_total : forall fast ops r h possible ld base, reached fast ops r h -> next_timeout possible ld base r <> None.
Proof.
  intros fast ops r h possible ld base R. destruct (reached_inv _ _ _ _ R) as (T & last & gone & H & _). unfold next_timeout, earliest_pto.
  pose proof (pto_time_ok _ _ _ _ base SpInitial H) as A. pose proof (pto_time_ok _ _ _ _ base SpHandshake H) as B. pose proof (pto_time_ok _ _ _ _ base SpApp H) as C.
  destruct possible; [|discriminate]. destruct (r_confirmed r).
  - destruct (pto_time base SpApp r); [discriminate|contradiction].
  - destruct (pto_time base SpInitial r); [|contradiction]. destruct (pto_time base SpHandshake r); [discriminate|contradiction].
Qed.
Print Assumptions next_timeout_total.

(** Every packet sent has exactly one fate: it was acknowledged, was forgotten after having been lost,
    was dropped with its keys, or is still tracked. *)
Theorem every_packet_has_one_fate : forall fast ops r h, reached fast ops r h -> forall sp,
  NoDup (sent_of sp h) /\
  Permutation (sent_of sp h) (acked_of sp h ++ forgotten_of sp h ++ dropped_of sp h ++ map p_pn (tracked sp r)).
Proof. intros fast ops r h R sp. destruct (reached_inv _ _ _ _ R) as (T & last & gone & _ & _ & H). destruct (H sp) as (A & B & _). auto. Qed.
Print Assumptions every_packet_has_one_fate.

(** A packet is reported lost at most once, after it was sent, and never when it was acknowledged
    before or is acknowledged by the same ACK frame. *)
Theorem lost_at_most_once : forall fast ops r h, reached fast ops r h -> forall sp, NoDup (lost_of sp h).
Proof. intros fast ops r h R sp. destruct (reached_inv _ _ _ _ R) as (T & last & gone & _ & _ & H). apply H. Qed.
Print Assumptions lost_at_most_once.
Theorem never_lost_after_acked : forall fast ops o r h r' out, allowed (ops ++ [o]) ->
  lr_runs (lr_new fast) ops = Some (r, h) -> lr_step r o = Some (r', out) -> forall sp n, In n (lost_in sp out) ->
  In n (sent_of sp h) /\ ~ In n (acked_of sp (h ++ [(o, out)])) /\ ~ In n (dropped_of sp (h ++ [(o, out)])) /\ ~ In n (forgotten_of sp (h ++ [(o, out)])).
Proof.
  intros fast ops o r h r' out A R S sp n Hn.
  assert (RR : reached fast (ops ++ [o]) r' (h ++ [(o, out)])).
  { split; [exact A|]. rewrite runs_app, R. cbn [lr_runs]. rewrite S. reflexivity. }
  destruct (reached_inv _ _ _ _ RR) as (T1 & last1 & gone1 & _ & _ & H). destruct (H sp) as (P & N1 & _ & N2 & L2 & LT & FG & _).
  assert (R0 : reached fast ops r h). { split; [|exact R]. eapply uses_app. exact A. }
  destruct (reached_inv _ _ _ _ R0) as (_ & last0 & _ & _ & _ & H0). destruct (H0 sp) as (P0 & _).
  destruct (reached_next _ _ _ _ _ A R) as (T & last & gone & H1 & H2 & U).
  destruct (step_ok T last gone r o [] H1 H2 U) as (r2 & out2 & T2 & last2 & gone2 & E1 & _ & _ & _ & E2 & _).
  rewrite S in E1. apply some_inj in E1. apply pair_equal_spec in E1. destruct E1 as [<- <-]. destruct (E2 sp) as (_ & _ & E3 & _).
  destruct (E3 n Hn) as ((p & P1 & P2 & P3) & Hb).
  assert (Hs : In n (sent_of sp h)). { eapply Permutation_in; [apply Permutation_sym; exact P0|]. rewrite !in_app_iff. right. right. right. subst n. apply in_map. exact P1. }
  split; [exact Hs|].
  pose proof (Permutation_NoDup P N1) as ND. rewrite !app_assoc in ND. rewrite <- app_assoc in ND.
  assert (D : forall l, In n l -> NoDup ((acked_of sp (h ++ [(o, out)]) ++ forgotten_of sp (h ++ [(o, out)])) ++ dropped_of sp (h ++ [(o, out)]) ++ l) ->
     ~ In n (acked_of sp (h ++ [(o, out)])) /\ ~ In n (dropped_of sp (h ++ [(o, out)])) /\ ~ In n (forgotten_of sp (h ++ [(o, out)]))).
  { clear. intros l Hl. set (a := acked_of _ _). set (b := forgotten_of _ _). set (c := dropped_of _ _). clearbody a b c. intros NN.
    assert (X : forall x y : list N, NoDup (x ++ y) -> forall z, In z x -> In z y -> False).
    { clear. induction x as [|u x IH]; cbn; intros y H z A B; [contradiction|]. inv H. destruct A as [<-|A]; [apply H2; apply in_app_iff; auto|eapply IH; eauto]. }
    splits; intros G.
    - eapply (X _ _ NN n); [apply in_app_iff; auto|apply in_app_iff; auto].
    - rewrite app_assoc in NN. eapply (X _ _ NN n); [apply in_app_iff; auto|exact Hl].
    - eapply (X _ _ NN n); [apply in_app_iff; auto|apply in_app_iff; auto]. }
  apply (D _ Hb). exact ND.
Qed.
Print Assumptions never_lost_after_acked.

(** Packets are tracked in the order of their numbers, and only in their own space. *)
Theorem tracked_in_order : forall fast ops r h, reached fast ops r h -> forall sp,
  StronglySorted (fun a b => p_pn a < p_pn b) (tracked sp r) /\ Forall (fun p => of_space sp p = true) (tracked sp r).
Proof.
  intros fast ops r h R sp. destruct (reached_inv _ _ _ _ R) as (T & last & gone & H & _). destruct (inv_tracked _ _ _ _ sp H) as (A & B & _). split; [|exact B].
  clear -A. unfold lost_sorted in A. induction A; constructor; [assumption|]. eapply Forall_impl; [|eassumption]. intros x (X & _). exact X.
Qed.
Print Assumptions tracked_in_order.

(** An ACK frame takes exactly the tracked packets in its ranges, and reports them newest first.  Packets are forgotten
    only a full PTO after they were declared lost.  Other spaces are not touched. *)
Theorem ack_takes_exactly_its_ranges : forall fast ops sp rs delay now ld base r h,
  allowed (ops ++ [LAck sp rs delay now ld base]) -> lr_runs (lr_new fast) ops = Some (r, h) ->
  exists r' out, lr_step r (LAck sp rs delay now ld base) = Some (r', out) /\
    o_acked out = rev (filter (fun p => in_ranges rs (p_pn p)) (tracked sp r)) /\
    (forall n, In n (map p_pn (tracked sp r')) <-> In n (map p_pn (tracked sp r)) /\ in_ranges rs n = false /\ ~ In n (map p_pn (o_gone out))) /\
    (forall p, In p (o_gone out) -> In p (tracked sp r) /\ exists t tr, p_lost p = Some (t, tr) /\ t + pto_period base r <= now) /\
    (forall sp', sp' <> sp -> tracked sp' r' = tracked sp' r).
Proof.
  intros fast ops sp rs delay now ld base r h A R. destruct (reached_next _ _ _ _ _ A R) as (T & last & gone & H1 & H2 & U). cbn [uses] in U. destruct U as (U1 & U2 & _).
  destruct (ack_ok T last gone r sp rs delay now ld base H1 U1 U2) as (r' & out & E1 & E2 & E3 & E4 & E5). exists r', out. split; [exact E1|].
  assert (OT : forall sp', sp' <> sp -> tracked sp' r' = tracked sp' r) by (intros sp' N1; unfold tracked; rewrite E4 by exact N1; reflexivity).
  pose proof (inv_nodup _ _ _ _ sp H1) as ND.
  unfold tracked at 1 2 3 4. unfold tracked in ND. destruct (get_sp sp r) as [s|] eqn:Es.
  2:{ destruct E5 as [-> ->]. rewrite Es. cbn. splits; try reflexivity; try tauto. }
  cbn zeta in E5. destruct E5 as (s' & G1 & G2 & _ & G3). rewrite G1.
  fold (taken rs (l_pkts s)). destruct (taken rs (l_pkts s)) as [|b m] eqn:ET.
  - destruct G3 as (-> & _ & -> & _). cbn. splits; try reflexivity; try tauto.
    intros n. split; [|tauto]. intros Hn. splits; auto. apply in_map_iff in Hn. destruct Hn as (p & <- & Hp). destruct (in_ranges rs (p_pn p)) eqn:E; [|reflexivity].
    exfalso. assert (X : In p (taken rs (l_pkts s))) by (unfold taken; rewrite <- in_rev; apply filter_In; auto). rewrite ET in X. exact X.
  - destruct G3 as (-> & _ & _ & ->). cbn [o_acked o_gone]. splits; try reflexivity; try exact OT.
    + intros n. unfold after_detect. rewrite map_map.
      assert (EQ : map (fun x => p_pn (markO now ld (new_largest rs (l_pkts s) (l_largest s)) x)) (filter (fun p => negb (expired now (pto_period base r) p)) (untaken rs (l_pkts s))) = map p_pn (filter (fun p => negb (expired now (pto_period base r) p)) (untaken rs (l_pkts s)))).
      { apply map_ext. intros p. apply markO_pn. }
      rewrite EQ. unfold untaken. split.
      * intros Hn. apply in_map_iff in Hn. destruct Hn as (p & <- & Hp). apply filter_In in Hp. destruct Hp as [Hp He]. apply filter_In in Hp. destruct Hp as [Hp Hr].
        splits; [apply in_map; exact Hp|apply negb_true_iff; exact Hr|]. intros G. apply in_map_iff in G. destruct G as (q & Q1 & Q2). apply filter_In in Q2. destruct Q2 as [Q2 Q3]. apply filter_In in Q2. destruct Q2 as [Q2 _].
        assert (q = p) by (eapply NoDup_map_inj; eauto). subst q. rewrite Q3 in He. discriminate.
      * intros (Hn & Hr & Hg). apply in_map_iff in Hn. destruct Hn as (p & <- & Hp). apply in_map_iff. exists p. split; [reflexivity|]. apply filter_In. split.
        -- apply filter_In. rewrite Hr. auto.
        -- destruct (expired now (pto_period base r) p) eqn:EX; [|reflexivity]. exfalso. apply Hg. apply in_map. apply filter_In. split; [|exact EX]. apply filter_In. rewrite Hr. auto.
    + intros p Hp. apply filter_In in Hp. destruct Hp as [Hp He]. unfold untaken in Hp. apply filter_In in Hp. split; [apply Hp|]. unfold expired in He.
      destruct (p_lost p) as [[t tr]|]; [|discriminate]. exists t, tr. split; [reflexivity|]. apply N.leb_le. exact He.
Qed.
Print Assumptions ack_takes_exactly_its_ranges.
Example ack_takes_exactly_its_ranges_ex : allowed (four ++ [LAck SpApp [(2, 3); (0, 0)] 0 50 100 1000]) /\
  match lr_runs (lr_new 100) (four ++ [LAck SpApp [(2, 3); (0, 0)] 0 50 100 1000]) with Some (r, h) => acked_of SpApp h = [3; 2; 0] /\ map p_pn (tracked SpApp r) = [1] | None => False end.
Proof. split; [cbn; unfold upd; cbn; splits; try lia; exact Logic.I|vm_compute; split; reflexivity]. Qed.

(** What is reported acknowledged, lost or dropped, and what is tracked, is a packet as it was sent: its
    type, number, time, size and frames. *)
Theorem what_comes_back_was_sent : forall fast ops r h, reached fast ops r h ->
  let sent := map ident (flat_map (fun x => ev_sent (o_cc (snd x))) h) in
  (forall sp p, In p (tracked sp r) -> In (ident p) sent) /\
  forall x, In x h -> forall p, In p (o_acked (snd x) ++ o_lost (snd x) ++ o_dropped (snd x)) -> In (ident p) sent.
Proof.
  intros fast ops r h [_ R]. destruct (runs_id _ _ _ _ R) as [A B]. cbn [lr_new all_tracked opk r_i r_h r_a lsp_new l_pkts app] in A, B. cbn zeta. split.
  - intros sp p Hp. apply A. eapply all_in; eauto.
  - intros x Hx p Hp. destruct (B x Hx) as (P & Q & S). rewrite !in_app_iff in Hp. destruct Hp as [Hp|[Hp|Hp]]; auto.
Qed.
Print Assumptions what_comes_back_was_sent.
(** The path (congestion control) is told of exactly the packets acknowledged, lost and dropped. *)
Theorem path_is_told : forall fast ops r h, reached fast ops r h -> forall x, In x h ->
  ev_acked (o_cc (snd x)) = o_acked (snd x) /\ ev_lost (o_cc (snd x)) = filter is_lost (o_lost (snd x)) /\ ev_discarded (o_cc (snd x)) = o_dropped (snd x).
Proof. intros fast ops r h [_ R]. destruct (runs_told _ _ _ _ R) as (A & _). exact A. Qed.
Print Assumptions path_is_told.
(** The loss statistics: packets and bytes declared lost without those acknowledged later; late
    acknowledgements; acknowledgements of packets that were probed. *)
Theorem loss_statistics : forall fast ops r h, reached fast ops r h ->
  st_lost (r_stats r) + sumN (fun o => lenN (filter is_lost (o_acked o))) h = sumN (fun o => lenN (filter is_lost (o_lost o))) h /\
  st_late (r_stats r) = sumN (fun o => lenN (filter is_lost (o_acked o))) h /\
  st_bytes_lost (r_stats r) + sumN (fun o => total_len (filter is_lost (o_acked o))) h = sumN (fun o => total_len (filter is_lost (o_lost o))) h /\
  st_pto_ack (r_stats r) = sumN (fun o => lenN (filter p_pto (o_acked o))) h.
Proof. intros fast ops r h [_ R]. destruct (runs_told _ _ _ _ R) as (_ & A & B & C & D). cbn [lr_new r_stats st_lost st_late st_bytes_lost st_pto_ack] in *. rewrite ?N.add_0_l in *. auto. Qed.
Print Assumptions loss_statistics.
Example loss_statistics_ex : match lr_runs (lr_new 100) (loss_example ++ [LAck SpApp [(0, 1)] 0 150 100 1000]) with
  | Some (r, h) => st_lost (r_stats r) = 1 /\ st_late (r_stats r) = 2 /\ st_bytes_lost (r_stats r) = 1200
  | None => False end.
Proof. vm_compute. splits; reflexivity. Qed.

(** An RTT sample is taken only when the largest packet newly acknowledged is larger than any
    acknowledged before, was sent on the current path, and some packet acknowledged with it elicits acknowledgement; it is the
    time since that packet was sent. *)
Theorem rtt_samples : forall fast ops sp rs delay now ld base r h,
  allowed (ops ++ [LAck sp rs delay now ld base]) -> lr_runs (lr_new fast) ops = Some (r, h) ->
  exists r' out, lr_step r (LAck sp rs delay now ld base) = Some (r', out) /\
    forall sample d c, In (CcRtt sample d c) (o_cc out) <->
      exists p, In p (o_acked out) /\ (forall q, In q (o_acked out) -> p_pn q <= p_pn p) /\
        match largest_acked sp r with Some la => la < p_pn p | None => True end /\ p_primary p = true /\ existsb p_ae (o_acked out) = true /\
        sample + p_time p = now /\ d = delay /\ c = match r_confirmed r with Some t => t <? p_time p | None => false end.
Proof.
  intros fast ops sp rs delay now ld base r h A R. destruct (reached_next _ _ _ _ _ A R) as (T & last & gone & H1 & H2 & U). cbn [uses] in U. destruct U as (U1 & U2 & _).
  destruct (ack_ok T last gone r sp rs delay now ld base H1 U1 U2) as (r' & out & E1 & E2 & E3 & E4 & E5). exists r', out. split; [exact E1|].
  unfold largest_acked. destruct (get_sp sp r) as [s|] eqn:Es.
  2:{ destruct E5 as [-> ->]. intros. cbn. split; [contradiction|intros (p & [] & _)]. }
  cbn zeta in E5. destruct E5 as (s' & G1 & G2 & _ & G3). destruct (inv_get _ _ _ _ _ _ H1 Es) as (_ & OK). destruct OK as (_ & S & Fp & _).
  destruct (taken rs (l_pkts s)) as [|b m] eqn:ET.
  - destruct G3 as (_ & _ & -> & _). intros. cbn. split; [contradiction|intros (p & [] & _)].
  - destruct G3 as (_ & _ & _ & ->). cbn [o_acked o_cc]. intros sample d c.
    assert (M : forall q, In q (b :: m) -> p_pn q <= p_pn b).
    { intros q Hq. destruct (new_largest_cases rs (l_pkts s) None) as [(X & X')|[(p & X1 & X2 & X3 & X4)|X]]; [| |contradiction].
      - exfalso. unfold new_largest in X. rewrite ET in X. discriminate.
      - unfold new_largest in X2. rewrite ET in X2. cbn [opt_lt] in X2. assert (p_pn b = p_pn p) by congruence. rewrite H. apply X4; [exact S|]. rewrite ET. exact Hq. }
    assert (BT : p_time b <= now). { assert (In b (l_pkts s)). { assert (X : In b (taken rs (l_pkts s))) by (rewrite ET; left; reflexivity). unfold taken in X. apply in_rev in X. apply filter_In in X. apply X. } rewrite Forall_forall in Fp. destruct (Fp b H) as (Z & _). lia. }
    rewrite in_app_iff. unfold ack_sample. rewrite ET. apply N.leb_le in BT. rewrite BT, andb_true_r. apply N.leb_le in BT. split.
    + intros [X|X]; [|cbn in X; destruct X as [X|[X|[]]]; discriminate].
      destruct (opt_lt (p_pn b) (l_largest s) && existsb p_ae (b :: m) && p_primary b) eqn:C; [|contradiction]. destruct X as [X|[]]. apply andb_true_iff in C. destruct C as [C C3]. apply andb_true_iff in C. destruct C as [C1 C2].
      exists b. splits; [left; reflexivity|exact M| |exact C3|exact C2| | |]; try congruence.
      * unfold opt_lt in C1. destruct (l_largest s); [apply N.ltb_lt; exact C1|exact Logic.I].
      * assert (now - p_time b = sample) by congruence. lia.
    + intros (p & P1 & P2 & P3 & P4 & P5 & P6 & P7 & P8).
      assert (p = b). { assert (p_pn p = p_pn b). { pose proof (M p P1). pose proof (P2 b (or_introl eq_refl)). lia. }
        pose proof (inv_nodup _ _ _ _ sp H1) as ND. rewrite (tracked_get _ _ _ Es) in ND.
        assert (X : forall q, In q (b :: m) -> In q (l_pkts s)) by (intros q Hq; rewrite <- ET in Hq; unfold taken in Hq; apply in_rev in Hq; apply filter_In in Hq; apply Hq).
        eapply (NoDup_map_inj p_pn); eauto. apply X. left. reflexivity. }
      subst p. left. rewrite P4, P5. assert (O : opt_lt (p_pn b) (l_largest s) = true) by (unfold opt_lt; destruct (l_largest s); [apply N.ltb_lt; exact P3|reflexivity]). rewrite O. cbn [andb]. left.
      assert (now - p_time b = sample) by lia. congruence.
Qed.
Print Assumptions rtt_samples.
Example rtt_samples_ex : match lr_runs (lr_new 100) (four ++ [LAck SpApp [(3, 3)] 7 50 100 1000]) with
  | Some (r, h) => flat_map (fun x => filter (fun e => match e with CcRtt _ _ _ => true | _ => false end) (o_cc (snd x))) h = [CcRtt 10 7 false] | None => False end.
Proof. vm_compute. reflexivity. Qed.
(** Migration: packets sent before are no longer counted as of the current path. *)
Theorem migration_forgets_the_path : forall r r' out, lr_step r LMigrate = Some (r', out) -> out = no_out /\
  forall sp, map (fun p => (ident p, p_lost p, p_pto p)) (tracked sp r') = map (fun p => (ident p, p_lost p, p_pto p)) (tracked sp r) /\ Forall (fun p => p_primary p = false) (tracked sp r').
Proof.
  intros r r' out H. cbn [lr_step] in H. apply some_inj in H. apply pair_equal_spec in H. destruct H as [<- <-]. split; [reflexivity|]. intros sp. unfold tracked.
  replace (get_sp sp (lr_migrate r)) with (option_map lsp_migrate (get_sp sp r)) by (destruct sp; reflexivity). destruct (get_sp sp r) as [s|]; cbn; [|split; [reflexivity|constructor]].
  rewrite map_map. split; [reflexivity|]. rewrite Forall_forall. intros p Hp. apply in_map_iff in Hp. destruct Hp as (q & <- & _). reflexivity.
Qed.
Print Assumptions migration_forgets_the_path.

(** ** C22 *)
Lemma lost_detect_in now ld cd la l n : NoDup (map p_pn l) ->
  forall p, In p l -> is_lost p = false -> p_pn p = n -> (In n (map p_pn (lost_detect now ld cd la l)) <-> lost_by now ld la p).
Proof.
  intros ND p Hp HL E. rewrite <- shouldO_spec. unfold lost_detect. rewrite map_map. split.
  - intros Hn. apply in_map_iff in Hn. destruct Hn as (q & Q1 & Q2). rewrite markO_pn in Q1. apply filter_In in Q2. destruct Q2 as [Q2 Q3]. apply filter_In in Q2. destruct Q2 as [Q2 _].
    assert (q = p) by (eapply (NoDup_map_inj p_pn); eauto; congruence). subst q. apply andb_true_iff in Q3. tauto.
  - intros S. apply in_map_iff. exists p. rewrite markO_pn. split; [exact E|]. apply filter_In. split; [apply filter_In; split; [exact Hp|]|rewrite S, HL; reflexivity].
    unfold expired. unfold is_lost in HL. destruct (p_lost p) as [[? ?]|]; [discriminate|reflexivity].
Qed.
Lemma lost_detect_from now ld cd la l n : In n (map p_pn (lost_detect now ld cd la l)) -> exists p, In p l /\ is_lost p = false /\ p_pn p = n.
Proof.
  unfold lost_detect. rewrite map_map. intros Hn. apply in_map_iff in Hn. destruct Hn as (q & Q1 & Q2). rewrite markO_pn in Q1. apply filter_In in Q2. destruct Q2 as [Q2 Q3]. apply filter_In in Q2.
  apply andb_true_iff in Q3. destruct Q3 as [_ Q3]. apply negb_true_iff in Q3. exists q. tauto.
Qed.
Lemma lost_detect_sp now ld cd la sp l : Forall (fun p => of_space sp p = true) l -> Forall (fun p => of_space sp p = true) (lost_detect now ld cd la l).
Proof.
  intros F. unfold lost_detect. rewrite Forall_forall in *. intros p Hp. apply in_map_iff in Hp. destruct Hp as (q & <- & Q). apply filter_In in Q. destruct Q as [Q _]. apply filter_In in Q.
  unfold of_space. rewrite markO_type. apply F. tauto.
Qed.

(** When an ACK frame newly acknowledges something, the packets then declared lost are exactly those
    with evidence of loss by RFC 9002; otherwise none is. *)
Theorem ack_declares_lost_exactly_on_evidence : forall fast ops sp rs delay now ld base r h,
  allowed (ops ++ [LAck sp rs delay now ld base]) -> lr_runs (lr_new fast) ops = Some (r, h) ->
  exists r' out, lr_step r (LAck sp rs delay now ld base) = Some (r', out) /\
    (forall p, In p (tracked sp r) -> is_lost p = false -> o_acked out <> [] -> in_ranges rs (p_pn p) = false ->
       (In (p_pn p) (lost_in sp out) <-> lost_by now ld (largest_acked sp r') p)) /\
    (forall n, In n (lost_in sp out) -> o_acked out <> [] /\ exists p, In p (tracked sp r) /\ p_pn p = n /\ is_lost p = false /\ in_ranges rs n = false) /\
    (forall sp', sp' <> sp -> lost_in sp' out = []) /\ (forall sp', probes_in sp' out = []).
Proof.
  intros fast ops sp rs delay now ld base r h A R. destruct (reached_next _ _ _ _ _ A R) as (T & last & gone & H1 & H2 & U). cbn [uses] in U. destruct U as (U1 & U2 & _).
  destruct (ack_ok T last gone r sp rs delay now ld base H1 U1 U2) as (r' & out & E1 & E2 & E3 & E4 & E5). exists r', out. split; [exact E1|].
  pose proof (inv_nodup _ _ _ _ sp H1) as ND. destruct (inv_tracked _ _ _ _ sp H1) as (_ & SP & _).
  unfold tracked, largest_acked. unfold tracked in ND, SP. destruct (get_sp sp r) as [s|] eqn:Es.
  2:{ destruct E5 as [-> ->]. splits; try reflexivity; try contradiction. }
  cbn zeta in E5. destruct E5 as (s' & G1 & G2 & _ & G3). rewrite G1, G2. set (la := new_largest rs (l_pkts s) (l_largest s)) in *.
  destruct (taken rs (l_pkts s)) as [|b m] eqn:ET.
  - destruct G3 as (_ & _ & -> & _). splits; try reflexivity; try contradiction.
  - destruct G3 as (_ & _ & _ & ->). unfold lost_in, probes_in. cbn [o_acked o_lost]. rewrite lost_detect_all.
    assert (SP' : Forall (fun p => of_space sp p = true) (untaken rs (l_pkts s))) by (unfold untaken; apply Forall_filter; exact SP).
    assert (SL := lost_detect_sp now ld (pto_period base r) la sp _ SP').
    assert (ND' : NoDup (map p_pn (untaken rs (l_pkts s)))) by (unfold untaken; clear -ND; induction (l_pkts s) as [|x l IH]; cbn; [constructor|]; inv ND; destruct (negb (in_ranges rs (p_pn x))); cbn; [|auto]; constructor; [|auto]; intros G; apply H1; apply in_map_iff in G; destruct G as (q & Q1 & Q2); apply filter_In in Q2; rewrite <- Q1; apply in_map; apply Q2).
    splits.
    + intros p Hp HL _ Hr. rewrite (pns_same sp) by exact SL. apply lost_detect_in; auto. unfold untaken. apply filter_In. rewrite Hr. auto.
    + intros n Hn. rewrite (pns_same sp) in Hn by exact SL. apply lost_detect_from in Hn. destruct Hn as (p & P1 & P2 & P3). split; [discriminate|].
      unfold untaken in P1. apply filter_In in P1. destruct P1 as [P1 P4]. apply negb_true_iff in P4. exists p. subst n. auto.
    + intros sp' N1. eapply pns_other; [exact N1|exact SL].
    + intros sp'. unfold pns. rewrite filter_none with (l := lost_detect _ _ _ _ _); [reflexivity|]. rewrite Forall_forall. intros p Hp. rewrite <- lost_detect_all in Hp. apply filter_In in Hp. destruct Hp as [_ ->]. reflexivity.
Qed.
Print Assumptions ack_declares_lost_exactly_on_evidence.

(** So it is at a timeout, in each space. *)
Theorem timeout_declares_lost_exactly_on_evidence : forall fast ops now ld base mtu keys r h,
  allowed (ops ++ [LTimeout now ld base mtu keys]) -> lr_runs (lr_new fast) ops = Some (r, h) ->
  exists r' out, lr_step r (LTimeout now ld base mtu keys) = Some (r', out) /\ o_acked out = [] /\ forall sp,
    (forall p, In p (tracked sp r) -> is_lost p = false ->
       (In (p_pn p) (lost_in sp out) <-> lost_by now ld (largest_acked sp r) p)) /\
    (forall n, In n (lost_in sp out) -> exists p, In p (tracked sp r) /\ p_pn p = n /\ is_lost p = false).
Proof.
  intros fast ops now ld base mtu keys r h A R. destruct (reached_next _ _ _ _ _ A R) as (T & last & gone & H1 & H2 & U). cbn [uses] in U. destruct U as (U1 & _).
  destruct (timeout_ok T last gone r now ld base mtu keys H1 U1) as (r' & out & rd & t & E1 & E2 & E3 & E4 & E5 & E6 & E7 & E8 & E9 & E10). exists r', out. split; [exact E1|].
  split; [rewrite E7; reflexivity|]. intros sp.
  assert (TL : forall p, In p (t SpInitial ++ t SpHandshake ++ t SpApp) -> is_lost p = false).
  { destruct (fires base now rd).
    - destruct E10 as (rp & F & _). intros p Hp.
      assert (exists sp, In p (t sp)) as (sp1 & Hq). { rewrite !in_app_iff in Hp. destruct Hp as [?|[?|?]]; eauto. }
      specialize (F sp1). destruct (get_sp sp1 rd) as [s|], (get_sp sp1 rp) as [s'|]; try contradiction; [|rewrite F in Hq; contradiction].
      destruct F as (size & l' & n & _ & F). destruct (sp_in sp1 _); [|destruct F as [_ F]; rewrite F in Hq; contradiction].
      pose proof (pto_loop_ok (2 * mtu) (l_pkts s) size) as PL. rewrite F in PL. destruct PL as (_ & k & rest & P1 & P2 & _). rewrite P2 in Hq. apply in_map_iff in Hq. destruct Hq as (q & <- & Hq).
      assert (X : In q (filter probe_candidate (l_pkts s))) by (rewrite P1; apply in_app_iff; auto). apply filter_In in X. destruct X as [_ X]. unfold probe_candidate in X. apply andb_true_iff in X. destruct X as [_ X].
      apply negb_true_iff in X. exact X.
    - destruct E10 as (F & _). intros p Hp. rewrite !F in Hp. contradiction. }
  assert (LL : lost_in sp out = map p_pn (lost_sp now ld (pto_period base r) (get_sp sp r))).
  { unfold lost_in. rewrite E7. cbn [o_lost]. rewrite filter_app, (filter_none is_lost (t SpInitial ++ _)), app_nil_r.
    - unfold detected_lists. rewrite !filter_app, !lost_sp_all.
      apply (pns_three (fun s => lost_sp now ld (pto_period base r) (get_sp s r))). intros s. destruct (inv_tracked _ _ _ _ s H1) as (_ & SP & _). unfold tracked in SP. destruct (get_sp s r) as [x|]; cbn [lost_sp]; [|constructor]. apply lost_detect_sp. exact SP.
    - rewrite Forall_forall. exact TL. }
  rewrite LL. pose proof (inv_nodup _ _ _ _ sp H1) as ND. unfold tracked, largest_acked in *. destruct (get_sp sp r) as [s|]; cbn [lost_sp].
  - split; [intros p Hp HL; apply lost_detect_in; auto|]. intros n Hn. apply lost_detect_from in Hn. destruct Hn as (p & P1 & P2 & P3). exists p. auto.
  - split; [contradiction|]. intros n [].
Qed.
Print Assumptions timeout_declares_lost_exactly_on_evidence.

(** The largest acknowledged packet that the evidence speaks of is the largest one acknowledged so far. *)
Theorem largest_acked_is_largest : forall fast ops r h, reached fast ops r h -> forall sp, get_sp sp r <> None ->
  match largest_acked sp r with
  | Some la => In la (acked_of sp h) /\ (forall n, In n (acked_of sp h) -> n <= la)
  | None => acked_of sp h = []
  end.
Proof.
  intros fast ops r h R sp G. destruct (reached_inv _ _ _ _ R) as (T & last & gone & _ & _ & H). destruct (H sp) as (_ & _ & _ & _ & _ & _ & _ & X). unfold largest_acked. destruct (get_sp sp r); [exact X|contradiction].
Qed.
Print Assumptions largest_acked_is_largest.

(** The timer is set no later than the time at which a packet that a later acknowledgement has
    passed must be declared lost. *)
Theorem loss_timer_is_set : forall fast ops r h sp p la, reached fast ops r h -> In p (tracked sp r) -> is_lost p = false ->
  largest_acked sp r = Some la -> p_pn p < la -> forall possible ld base, exists t, next_timeout possible ld base r = Some (Some t) /\ t <= p_time p + ld.
Proof.
  intros fast ops r h sp p la R Hp HL Hla Hlt possible ld base. pose proof (next_timeout_total _ _ _ _ possible ld base R) as NT.
  destruct (reached_inv _ _ _ _ R) as (T & last & gone & _ & HT & _). specialize (HT sp). unfold tracked, largest_acked in *. destruct (get_sp sp r) as [s|] eqn:Es; [|contradiction].
  destruct HT as [HT _]. destruct (HT p la Hp Hla Hlt HL) as (t & E & L).
  assert (EL : exists t', earliest_loss ld r = Some t' /\ t' <= p_time p + ld).
  { unfold earliest_loss. destruct sp; cbn [get_sp] in Es; rewrite Es; cbn [loss_start]; rewrite E;
      destruct (loss_start (r_i r)), (loss_start (r_h r)), (loss_start (r_a r)); cbn; eexists; (split; [reflexivity|lia]). }
  destruct EL as (t' & E1 & E2). unfold next_timeout in *. rewrite E1 in *. destruct possible; [|exists t'; auto].
  destruct (earliest_pto base r) as [[x|]|]; [| |contradiction]; cbn; eexists; (split; [reflexivity|lia]).
Qed.
Print Assumptions loss_timer_is_set.
Example loss_timer_is_set_ex : match lr_runs (lr_new 100) (four ++ [LAck SpApp [(3, 3)] 0 50 100 1000]) with
  | Some (r, h) => largest_acked SpApp r = Some 3 /\ map (fun p => (p_pn p, p_time p)) (filter (fun p => negb (is_lost p)) (tracked SpApp r)) = [(1, 20); (2, 30)] /\ next_timeout true 100 1000 r = Some (Some 120)
  | None => False end.
Proof. vm_compute. splits; reflexivity. Qed.

(** The PTO timer is set as long as a packet that elicits acknowledgement is tracked: in the application space once the
    handshake is confirmed, in the other spaces before. *)
Theorem pto_timer_is_set : forall fast ops r h sp p, reached fast ops r h -> In p (tracked sp r) -> p_ae p = true ->
  (sp = SpApp <-> r_confirmed r <> None) -> forall ld base, exists t, next_timeout true ld base r = Some (Some t).
Proof.
  intros fast ops r h sp p R Hp HA HC ld base. pose proof (next_timeout_total _ _ _ _ true ld base R) as NT.
  destruct (reached_inv _ _ _ _ R) as (T & last & gone & H & _ & _).
  assert (P : exists t, pto_time base sp r = Some (Some t)).
  { unfold pto_time, tracked in *. destruct (get_sp sp r) as [s|] eqn:Es; [|contradiction]. destruct (inv_get _ _ _ _ _ _ H Es) as (_ & OK). destruct OK as (_ & _ & _ & _ & O & L).
    assert (0 < l_out s). { rewrite O. apply in_split in Hp. destruct Hp as (a & b & E). rewrite E. rewrite count_ae_app. unfold count_ae. cbn [filter]. rewrite HA. unfold lenN. cbn. lia. }
    unfold pto_base_time. destruct (N.ltb_spec 0 (l_out s)); [|lia]. specialize (L H0). destruct (l_last_ae s); [eauto|contradiction]. }
  destruct P as (t & P). unfold next_timeout, earliest_pto in *. destruct (r_confirmed r).
  - assert (sp = SpApp) by (apply HC; discriminate). subst sp. rewrite P in *. destruct (earliest_loss ld r); cbn; eauto.
  - assert (sp <> SpApp) by (intros E; apply HC in E; apply E; reflexivity).
    destruct sp; [| |contradiction]; rewrite P in *.
    + destruct (pto_time base SpHandshake r) as [[x|]|]; [| |contradiction]; destruct (earliest_loss ld r); cbn; eauto.
    + destruct (pto_time base SpInitial r) as [[x|]|]; [| |contradiction]; destruct (earliest_loss ld r); cbn; eauto.
Qed.
Print Assumptions pto_timer_is_set.

(** ** C45 *)
Lemma candidates_after now ld cd la l :
  filter probe_candidate (after_detect now ld cd la l) = filter (fun p => probe_candidate p && negb (shouldO now ld la p)) l.
Proof.
  unfold after_detect. induction l as [|p l IH]; [reflexivity|]. cbn [filter].
  destruct (is_lost p) eqn:EL.
  - assert (PC : probe_candidate p = false) by (unfold probe_candidate; rewrite EL; apply andb_false_r). rewrite PC. cbn [andb].
    destruct (expired now cd p); cbn [negb map filter]; [exact IH|]. assert (X : probe_candidate (markO now ld la p) = false).
    { unfold probe_candidate. rewrite markO_is_lost, EL, orb_true_r. apply andb_false_r. } rewrite X. exact IH.
  - assert (EX : expired now cd p = false) by (unfold expired; unfold is_lost in EL; destruct (p_lost p) as [[? ?]|]; [discriminate|reflexivity]). rewrite EX. cbn [negb map filter].
    destruct (shouldO now ld la p) eqn:SH.
    + assert (X : probe_candidate (markO now ld la p) = false). { unfold probe_candidate. rewrite markO_is_lost, SH. apply andb_false_r. } rewrite X, andb_false_r. exact IH.
    + assert (X : markO now ld la p = p). { unfold markO, shouldO in *. destruct la; [|reflexivity]. unfold mark. rewrite SH. reflexivity. } rewrite X, andb_true_r, IH. reflexivity.
Qed.

(** What a timeout asks to send again, per space, is an initial part of the packets that are neither
    lost nor were probed before, oldest first, and not more than two datagrams; when it does so the PTO count goes up.
    Missing: "a packet that is not sent again is not marked as probed", see the refutation below. *)
Theorem pto_probes_oldest_first_partial : forall fast ops now ld base mtu keys r h,
  allowed (ops ++ [LTimeout now ld base mtu keys]) -> lr_runs (lr_new fast) ops = Some (r, h) ->
  exists r' out, lr_step r (LTimeout now ld base mtu keys) = Some (r', out) /\ forall sp,
    exists k rest, filter (fun p => probe_candidate p && negb (existsb (N.eqb (p_pn p)) (lost_in sp out))) (tracked sp r) = k ++ rest /\
      probes_in sp out = map p_pn k /\ (k <> [] -> total_len k <= 2 * mtu).
Proof.
  intros fast ops now ld base mtu keys r h A R.
  destruct (timeout_declares_lost_exactly_on_evidence _ _ _ _ _ _ _ _ _ A R) as (r' & out & E1 & _ & EV). exists r', out. split; [exact E1|]. intros sp. destruct (EV sp) as [EV1 _].
  destruct (reached_next _ _ _ _ _ A R) as (T & last & gone & H1 & H2 & U). cbn [uses] in U. destruct U as (U1 & _).
  destruct (timeout_ok T last gone r now ld base mtu keys H1 U1) as (r2 & out2 & rd & t & F1 & F2 & F3 & F4 & F5 & F6 & F7 & F8 & F9 & F10).
  cbn [lr_step] in E1. rewrite E1 in F1. apply some_inj in F1. apply pair_equal_spec in F1. destruct F1 as [<- <-].
  assert (EQ : filter (fun p => probe_candidate p && negb (existsb (N.eqb (p_pn p)) (lost_in sp out))) (tracked sp r) = filter probe_candidate (tracked sp rd)).
  { specialize (F4 sp). unfold tracked in *. unfold largest_acked in EV1. destruct (get_sp sp r) as [s|], (get_sp sp rd) as [s1|]; cbn [detected] in F4; try contradiction; [|reflexivity].
    destruct F4 as (_ & -> & _). rewrite candidates_after. apply filter_ext_in. intros p Hp. destruct (probe_candidate p) eqn:PC; [|reflexivity]. cbn [andb]. f_equal.
    assert (HL : is_lost p = false). { unfold probe_candidate in PC. apply andb_true_iff in PC. destruct PC as [_ PC]. apply negb_true_iff in PC. exact PC. }
    specialize (EV1 p Hp HL). rewrite <- shouldO_spec in EV1. apply Bool.eq_iff_eq_true. rewrite <- EV1. rewrite existsb_exists. split.
    - intros (x & X1 & X2). apply N.eqb_eq in X2. subst. exact X1.
    - intros X. exists (p_pn p). split; [exact X|apply N.eqb_refl]. }
  rewrite EQ.
  assert (SPt : forall s, Forall (fun p => of_space s p = true) (t s) /\ exists k rest, filter probe_candidate (tracked s rd) = k ++ rest /\ map p_pn (t s) = map p_pn k /\ (k <> [] -> total_len k <= 2 * mtu) /\ Forall (fun p => is_lost p = false) (t s)).
  { intros s. destruct (fires base now rd).
    - destruct F10 as (rp & F & _). specialize (F s). unfold tracked. specialize (F4 s). destruct (get_sp s rd) as [x|]; destruct (get_sp s rp) as [x'|]; try contradiction.
      + destruct (get_sp s r) as [y|]; cbn [detected] in F4; [|contradiction]. destruct F4 as (OK & _). destruct OK as (_ & _ & _ & SPx & _).
        destruct F as (size & l' & n & _ & F). destruct (sp_in s _).
        * pose proof (pto_loop_ok (2 * mtu) (l_pkts x) size) as PL. rewrite F in PL. destruct PL as (_ & k & rest & P1 & P2 & P3 & _).
          assert (SK : Forall (fun p => In p (filter probe_candidate (l_pkts x))) k) by (rewrite Forall_forall; intros q Hq; rewrite P1; apply in_app_iff; auto).
          rewrite Forall_forall in SK, SPx. split; [|exists k, rest; splits; [exact P1| | |]].
          -- rewrite P2, Forall_forall. intros q Hq. apply in_map_iff in Hq. destruct Hq as (q' & <- & Hq). apply SK in Hq. apply filter_In in Hq. apply (SPx q'). apply Hq.
          -- rewrite P2, map_map. reflexivity.
          -- intros NK. destruct (N.max_spec size (2 * mtu)) as [[? M]|[? M]]; rewrite M in P3; [lia|].
             destruct k as [|p k]; [contradiction|]. assert (total_len (p :: k) = 0) by lia. lia.
          -- rewrite P2, Forall_forall. intros q Hq. apply in_map_iff in Hq. destruct Hq as (q' & <- & Hq). apply SK in Hq. apply filter_In in Hq. destruct Hq as [_ Hq]. unfold probe_candidate in Hq. apply andb_true_iff in Hq. destruct Hq as [_ Hq]. apply negb_true_iff in Hq. exact Hq.
        * destruct F as [_ F]. rewrite F. split; [constructor|]. exists [], (filter probe_candidate (l_pkts x)). splits; try reflexivity; try constructor. intros X. contradiction.
      + rewrite F. split; [constructor|]. exists [], []. splits; try reflexivity; try constructor. intros X. contradiction.
    - destruct F10 as (F & _). rewrite F. split; [constructor|]. exists [], (filter probe_candidate (tracked s rd)). splits; try reflexivity; try constructor. intros X. contradiction. }
  assert (PI : probes_in sp out = map p_pn (t sp)).
  { unfold probes_in. rewrite F7. cbn [o_lost]. rewrite filter_app, (filter_none (fun p => negb (is_lost p)) (detected_lists _ _ _ _)).
    - cbn [app]. rewrite filter_all.
      + apply (pns_three t). intros s. apply SPt.
      + rewrite Forall_forall. intros p Hp. rewrite !in_app_iff in Hp. destruct Hp as [Hp|[Hp|Hp]].
        * destruct (SPt SpInitial) as (_ & k & rest & _ & _ & _ & X). rewrite Forall_forall in X. rewrite X; auto.
        * destruct (SPt SpHandshake) as (_ & k & rest & _ & _ & _ & X). rewrite Forall_forall in X. rewrite X; auto.
        * destruct (SPt SpApp) as (_ & k & rest & _ & _ & _ & X). rewrite Forall_forall in X. rewrite X; auto.
    - rewrite Forall_forall. intros p Hp. assert (X : filter is_lost (detected_lists now ld (pto_period base r) r) = detected_lists now ld (pto_period base r) r) by (unfold detected_lists; rewrite !filter_app, !lost_sp_all; reflexivity).
      rewrite <- X in Hp. apply filter_In in Hp. destruct Hp as [_ ->]. reflexivity. }
  rewrite PI. destruct (SPt sp) as (_ & k & rest & K1 & K2 & K3 & _). exists k, rest. auto.
Qed.
Print Assumptions pto_probes_oldest_first_partial.

Definition pto_example : list lop :=
  four ++ [LDiscard SpInitial 1000 45; LDiscard SpHandshake 1000 46; LTimeout 1100 100 1000 1200 true; LTimeout 4000 100 1000 1200 true].
Lemma pto_example_allowed : allowed pto_example.
Proof. cbn; unfold upd; cbn; splits; try lia; try discriminate; try reflexivity; exact Logic.I. Qed.
Example pto_example_run : allowed pto_example /\ match lr_runs (lr_new 100) pto_example with
  | Some (r, h) => map (fun x => probes_in SpApp (snd x)) h = [[]; []; []; []; []; []; [0; 1]; [3]]
  | None => False end.
Proof. split; [exact pto_example_allowed|vm_compute; reflexivity]. Qed.

(** A PTO marks a packet that it does not send again: with packets of the largest size, the third is
    marked by the first PTO, and the second PTO passes over it although it is the oldest that was not
    sent again. *)
Local Opaque lr_runs.
Theorem pto_probes_every_packet_in_turn_refuted : exists fast ops r h p, reached fast ops r h /\ In p (tracked SpApp r) /\ is_lost p = false /\
  (forall out, In out (map snd h) -> ~ In (p_pn p) (probes_in SpApp out)) /\
  exists out n, In out (map snd h) /\ In n (probes_in SpApp out) /\ p_pn p < n.
Proof.
  assert (X : match lr_runs (lr_new 100) pto_example with
    | Some (r, h) => existsb (fun p => negb (is_lost p) && forallb (fun out => negb (existsb (N.eqb (p_pn p)) (probes_in SpApp out))) (map snd h) &&
                               existsb (fun out => existsb (fun n => p_pn p <? n) (probes_in SpApp out)) (map snd h)) (tracked SpApp r) = true
    | None => False end) by (vm_compute; reflexivity).
  destruct (lr_runs (lr_new 100) pto_example) as [[r h]|] eqn:E; [|contradiction]. apply existsb_exists in X. destruct X as (p & P1 & P2). apply andb_true_iff in P2. destruct P2 as [P2 P3]. apply andb_true_iff in P2. destruct P2 as [P2 P4].
  exists 100, pto_example, r, h, p. splits.
  - unfold reached. split; [exact pto_example_allowed|]. rewrite E. reflexivity.
  - exact P1.
  - apply negb_true_iff. exact P2.
  - intros out Ho Hn. rewrite forallb_forall in P4. specialize (P4 out Ho). apply negb_true_iff in P4. assert (existsb (N.eqb (p_pn p)) (probes_in SpApp out) = true) by (apply existsb_exists; exists (p_pn p); split; [exact Hn|apply N.eqb_refl]). congruence.
  - apply existsb_exists in P3. destruct P3 as (out & O1 & O2). apply existsb_exists in O2. destruct O2 as (n & N1 & N2). exists out, n. splits; auto. apply N.ltb_lt. exact N2.
Qed.
Local Transparent lr_runs.
Print Assumptions pto_probes_every_packet_in_turn_refuted.

(** ** C64 Backoff *)
Definition backoff (r : lr) : N := match r_pto r with Some p => pt_count p | None => 0 end.
(** A timeout raises the number of PTOs by at most one; it does so, and grants two probe packets, when it
    sends probes, and only if the PTO timer of some space is due. *)
Theorem pto_count_goes_up_by_one : forall fast ops now ld base mtu keys r h,
  allowed (ops ++ [LTimeout now ld base mtu keys]) -> lr_runs (lr_new fast) ops = Some (r, h) ->
  exists r' out, lr_step r (LTimeout now ld base mtu keys) = Some (r', out) /\
    (r_pto r' = r_pto r /\ (forall sp, probes_in sp out = []) \/
     backoff r' = backoff r + 1 /\ (exists p, r_pto r' = Some p /\ pt_packets p = 2) /\ exists sp t, pto_time base sp r = Some (Some t) /\ t <= now).
Proof.
  intros fast ops now ld base mtu keys r h A R.
  destruct (reached_next _ _ _ _ _ A R) as (T & last & gone & H1 & H2 & U). cbn [uses] in U. destruct U as (U1 & _).
  destruct (timeout_ok T last gone r now ld base mtu keys H1 U1) as (r' & out & rd & t & F1 & F2 & F3 & F4 & F5 & F6 & F7 & F8 & F9 & F10).
  exists r', out. split; [exact F1|].
  assert (DU : forall sp, due base now sp rd = true -> exists t, pto_time base sp r = Some (Some t) /\ t <= now).
  { intros sp D. unfold due, pto_time in *. specialize (F4 sp). destruct (get_sp sp rd) as [s1|]; [|discriminate]. destruct (get_sp sp r) as [s|] eqn:Es; cbn [detected] in F4; [|contradiction].
    destruct F4 as (OK & Q1 & _ & _ & Q2). destruct (inv_get _ _ _ _ _ _ H1 Es) as (_ & OK0). destruct OK as (Z & _ & _ & _ & O & _). destruct OK0 as (Z0 & _ & _ & _ & O0 & L0).
    assert (LE : l_out s1 <= l_out s).
    { rewrite O, O0, Q1. unfold after_detect. rewrite count_ae_markO. pose proof (count_ae_split (expired now (pto_period base r)) (l_pkts s)). lia. }
    rewrite (pto_period_ext base _ _ F5 F6) in D. unfold pto_base_time in *. rewrite Z, Q2 in D. rewrite Z0.
    destruct (N.ltb_spec 0 (l_out s1)); destruct (N.ltb_spec 0 (l_out s)); try lia.
    - destruct (l_last_ae s); [|discriminate]. eexists. split; [reflexivity|]. apply N.leb_le. exact D.
    - specialize (L0 H0). destruct sp; [| |discriminate]; destruct (l_last_ae s); try discriminate; (eexists; split; [reflexivity|]; apply N.leb_le; exact D).
    - destruct sp; [| |discriminate]; destruct (l_last_ae s); try discriminate; (eexists; split; [reflexivity|]; apply N.leb_le; exact D). }
  destruct (fires base now rd) eqn:FI.
  - right. destruct F10 as (rp & _ & _ & p & P1 & P2 & P3). splits.
    + unfold backoff. rewrite P1, P3. destruct (r_pto r); lia.
    + exists p. auto.
    + unfold fires in FI. apply orb_true_iff in FI. rewrite orb_true_iff in FI. destruct FI as [[D|D]|D]; apply DU in D; destruct D as (x & D); eauto.
  - left. destruct F10 as (P1 & _ & P2). split; [exact P2|]. intros sp. unfold probes_in. rewrite F7. cbn [o_lost]. rewrite !P1, !app_nil_r.
    assert (X : filter is_lost (detected_lists now ld (pto_period base r) r) = detected_lists now ld (pto_period base r) r) by (unfold detected_lists; rewrite !filter_app, !lost_sp_all; reflexivity).
    rewrite (filter_none (fun p => negb (is_lost p))); [reflexivity|]. rewrite Forall_forall. intros p Hp. rewrite <- X in Hp. apply filter_In in Hp. destruct Hp as [_ ->]. reflexivity.
Qed.
Print Assumptions pto_count_goes_up_by_one.
(** An acknowledgement of anything new resets it. *)
Theorem acknowledgement_resets_backoff : forall fast ops sp rs delay now ld base r h,
  allowed (ops ++ [LAck sp rs delay now ld base]) -> lr_runs (lr_new fast) ops = Some (r, h) ->
  exists r' out, lr_step r (LAck sp rs delay now ld base) = Some (r', out) /\
    r_pto r' = match o_acked out with [] => r_pto r | _ => None end.
Proof.
  intros fast ops sp rs delay now ld base r h A R. destruct (reached_next _ _ _ _ _ A R) as (T & last & gone & H1 & H2 & U). cbn [uses] in U. destruct U as (U1 & U2 & _).
  destruct (ack_ok T last gone r sp rs delay now ld base H1 U1 U2) as (r' & out & E1 & E2 & E3 & E4 & E5). exists r', out. split; [exact E1|].
  destruct (get_sp sp r) as [s|]; [|destruct E5 as [-> ->]; reflexivity]. cbn zeta in E5. destruct E5 as (s' & _ & _ & _ & G3).
  destruct (taken rs (l_pkts s)) eqn:ET; [destruct G3 as (_ & _ & -> & ->); reflexivity|destruct G3 as (_ & _ & -> & ->); reflexivity].
Qed.
Print Assumptions acknowledgement_resets_backoff.
(** Each PTO doubles the period, up to 2^24 times, and never beyond an hour or the base times 2^24. *)
Theorem pto_period_doubles : forall base r p, r_pto r = Some p -> pt_count p < 24 -> base * (r_fast r * 2 ^ 24) < 2 ^ 64 * 1000000000 ->
  forall q, pt_count q = pt_count p + 1 -> r_fast r = 100 ->
  pto_period base r = base * 2 ^ pt_count p /\ pto_period base (set_pto (Some q) r) = 2 * pto_period base r.
Proof.
  intros base r p E Hc Hb q Hq Hf.
  assert (F : forall c, c <= 24 -> base * (100 * 2 ^ c) / FAST_PTO_SCALE = base * 2 ^ c /\ (base * (100 * 2 ^ c) <? 2 ^ 64 * NANOS) = true).
  { intros c Hle. split.
    - unfold FAST_PTO_SCALE. replace (base * (100 * 2 ^ c)) with (base * 2 ^ c * 100) by lia. apply N.div_mul. discriminate.
    - apply N.ltb_lt. unfold NANOS. eapply N.le_lt_trans; [|exact Hb]. rewrite Hf. apply N.mul_le_mono_l, N.mul_le_mono_l. apply N.pow_le_mono_r; [discriminate|exact Hle]. }
  unfold pto_period, set_pto. cbn [r_pto r_fast]. rewrite E, Hf, Hq.
  assert (2 ^ 32 = 4294967296) as -> by reflexivity.
  destruct (N.ltb_spec (pt_count p) 4294967296); [|lia]. destruct (N.ltb_spec (pt_count p + 1) 4294967296); [|lia].
  replace (N.min (pt_count p) 24) with (pt_count p) by lia. replace (N.min (pt_count p + 1) 24) with (pt_count p + 1) by lia.
  destruct (F (pt_count p)) as [-> ->]; [lia|]. destruct (F (pt_count p + 1)) as [-> ->]; [lia|]. split; [reflexivity|]. rewrite N.pow_add_r. change (2 ^ 1) with 2. lia.
Qed.
Print Assumptions pto_period_doubles.
(** A send profile never allows more than the MTU; outside of PTO and recovery not more than the
    window, except for packets with acknowledgements only; and after a PTO two are granted whatever the window is. *)
Theorem send_profile_limits : forall mtu avail paced rec r r' pf, ACK_ONLY_SIZE_LIMIT < mtu -> send_profile mtu avail paced rec r = Some (r', pf) ->
  pf_limit pf <= mtu /\
  (match r_pto r with Some p => 0 < pt_packets p | None => False end ->
     pf_limit pf = mtu /\ exists p q, r_pto r = Some p /\ r_pto r' = Some q /\ pt_packets q + 1 = pt_packets p /\ pt_count q = pt_count p) /\
  (match r_pto r with Some p => pt_packets p = 0 | None => True end -> r' = r /\
     (ACK_ONLY_SIZE_LIMIT <= pf_limit pf -> rec = false \/ mtu < avail -> pf_limit pf <= avail /\ (mtu < avail -> paced = false))).
Proof.
  intros mtu avail paced rec r r' pf H E. unfold send_profile, prof_pto, prof_limited, prof_paced, ACK_ONLY_SIZE_LIMIT in *.
  destruct (N.ltb_spec 256 mtu); [|lia].
  assert (REST : (if mtu <? avail then Some (r, if paced then mkProf (256 - 1) sp_none true else mkProf (N.max (256 - 1) mtu) sp_none false) else if rec then option_map (pair r) (Some (mkProf mtu (mkSet true true true) false)) else Some (r, mkProf (N.max (256 - 1) avail) sp_none false)) = Some (r', pf) ->
    pf_limit pf <= mtu /\ r' = r /\ (256 <= pf_limit pf -> rec = false \/ mtu < avail -> pf_limit pf <= avail /\ (mtu < avail -> paced = false))).
  { destruct (N.ltb_spec mtu avail) as [G|G].
    - intros X. apply some_inj in X. apply pair_equal_spec in X. destruct X as [<- <-]. destruct paced; cbn [pf_limit]; splits; try reflexivity; try lia; intros; try (split; [lia|reflexivity]).
    - destruct rec; intros X; apply some_inj in X; apply pair_equal_spec in X; destruct X as [<- <-]; cbn [pf_limit]; splits; try reflexivity; try lia. }
  destruct (r_pto r) as [p|] eqn:EP.
  - destruct (N.ltb_spec 0 (pt_packets p)) as [G|G].
    + cbn [option_map] in E. apply some_inj in E. apply pair_equal_spec in E. destruct E as [<- <-]. cbn [pf_limit]. splits; [lia| |lia]. intros _. split; [reflexivity|]. eexists p, _. splits; try reflexivity. cbn. lia.
    + destruct (REST E) as (A & B & C). splits; auto. lia.
  - destruct (REST E) as (A & B & C). splits; auto. contradiction.
Qed.
Print Assumptions send_profile_limits.
