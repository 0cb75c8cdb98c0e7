(** Properties of the congestion controller: C24 (window), C39 (slow start), C70 (persistent congestion),
    C71 (undo of spurious reactions). *)
From Coq Require Import Sorted.
From Verif Require Import Base Lib FcModel LrModel LrSpec CcModel CcSpec CcProofs CcProofs2 CcProofs3.

Definition pk (t : ptype) (pn time len : N) : pkt := mkPkt t pn true time true 0 None false len false.
Definition pk_lost (t : ptype) (pn time len : N) : pkt := mkPkt t pn true time true 0 (Some (0, TimeThreshold)) false len false.

(** ** C24: the window *)

(** The window is never below two datagrams of the smallest size that datagrams were ever limited to. *)
Theorem window_floor : forall ss wa m spur ops c k, cc_runs (cc_new ss wa m spur) ops = Some c ->
  k <= m -> (forall m', In (CMtu m') ops -> k <= m') -> 2 * k <= cwnd c.
Proof.
  intros ss wa m spur ops c k R K M. apply (floor_runs k) in R; [exact (proj1 R)|exact M|]. split; [|split].
  - unfold cwnd. cbn. pose proof (initial_floor m). lia.
  - discriminate.
  - exact K.
Qed.
Print Assumptions window_floor.
(** In particular two full datagrams, as long as the limit does not rise. *)
Theorem window_holds_two_datagrams_partial : forall ss wa m spur ops c, cc_runs (cc_new ss wa m spur) ops = Some c ->
  c_mtu c <= m -> (forall m', In (CMtu m') ops -> c_mtu c <= m') -> 2 * c_mtu c <= cwnd c.
Proof. intros ss wa m spur ops c R K M. exact (window_floor ss wa m spur ops c _ R K M). Qed.
Print Assumptions window_holds_two_datagrams_partial.
Definition collapse : list cop :=
  [CSent (pk TShort 0 10 1200); CSent (pk TShort 1 500 1200); CLost (Some 5) None 100 [pk TShort 0 10 1200; pk TShort 1 500 1200]].
Example window_floor_ex : match cc_runs (cc_new SsClassic NewReno 1280 false) collapse with Some c => cwnd c = 2560 /\ s_phase (c_cur c) = PPersist | None => False end.
Proof. vm_compute. auto. Qed.
(** When path MTU discovery raises the limit, the window may hold less than two datagrams. *)
Theorem window_holds_two_datagrams_refuted : exists ops c, cc_runs (cc_new SsClassic NewReno 1280 false) ops = Some c /\ cwnd c < 2 * c_mtu c.
Proof.
  pose (x := cc_runs (cc_new SsClassic NewReno 1280 false) (collapse ++ [CMtu 1472])).
  exists (collapse ++ [CMtu 1472]), (match x with Some c => c | None => cc_new SsClassic NewReno 0 false end). vm_compute. auto.
Qed.
Print Assumptions window_holds_two_datagrams_refuted.

(** After a reaction, the next one is to a packet that is not older than one sent after the first. *)
Theorem next_reaction_is_to_newer_packet : forall ss wa m spur a o1 b o2 c1 c2 c3 c4,
  cc_runs (cc_new ss wa m spur) a = Some c1 -> cc_step c1 o1 = Some c2 -> reacted c1 c2 ->
  cc_runs c2 b = Some c3 -> c_nspur c3 = c_nspur c2 -> cc_step c3 o2 = Some c4 -> reacted c3 c4 ->
  exists p q b1 b2, trigger_of o2 = Some p /\ b = b1 ++ CSent q :: b2 /\ p_pn q <= p_pn p.
Proof.
  intros ss wa m spur a o1 b o2 c1 c2 c3 c4 R1 S1 X1 R2 E S2 X2.
  pose proof (settled_runs _ _ _ R1 (settled_new _ _ _ _)) as I1. pose proof (settled_step _ _ _ S1 I1) as I2. pose proof (settled_runs _ _ _ R2 I2) as I3.
  destruct (reacts _ _ _ S1 I1 X1) as (p1 & _ & _ & T & _). destruct (reacts _ _ _ S2 I3 X2) as (p & Tr & A & _).
  assert (C : covered ([] ++ b) c3) by (apply (covered_runs b [] c2); auto; left; exact T). cbn [app] in C.
  unfold after_rec in A. apply andb_true_iff in A. destruct A as [A1 A2]. destruct C as [C|(q & b1 & b2 & Eb & C)]; [rewrite C in A1; discriminate|].
  rewrite C in A2. exists p, q, b1, b2. splits; auto. lia.
Qed.
Print Assumptions next_reaction_is_to_newer_packet.
(** One multiplicative reduction per recovery period: in one packet number space (numbers increase), every
    reduction is caused by a packet sent after the reduction before.  (Unless an undo comes between.) *)
Theorem one_reduction_per_period_partial : forall ss wa m spur a o1 b o2 c1 c2 c3 c4 p,
  cc_runs (cc_new ss wa m spur) a = Some c1 -> cc_step c1 o1 = Some c2 -> reacted c1 c2 ->
  cc_runs c2 b = Some c3 -> c_nspur c3 = c_nspur c2 -> cc_step c3 o2 = Some c4 -> reacted c3 c4 ->
  StronglySorted N.lt (sent_pns (a ++ b)) -> trigger_of o2 = Some p -> In (p_pn p) (sent_pns (a ++ b)) ->
  In (p_pn p) (sent_pns b).
Proof.
  intros ss wa m spur a o1 b o2 c1 c2 c3 c4 p R1 S1 X1 R2 E S2 X2 Srt Tr P.
  destruct (next_reaction_is_to_newer_packet _ _ _ _ _ _ _ _ _ _ _ _ R1 S1 X1 R2 E S2 X2) as (p' & q & b1 & b2 & Tr' & Eb & L).
  rewrite Tr in Tr'. injection Tr' as <-. rewrite sent_pns_app in P, Srt. apply in_app_or in P. destruct P as [P|P]; [exfalso|exact P].
  assert (Q : In (p_pn q) (sent_pns b)) by (rewrite Eb, sent_pns_app; apply in_or_app; right; now left).
  clear - P Q L Srt. induction (sent_pns a) as [|x l IH]; [destruct P|]. inv Srt. destruct P as [->|P]; [|auto].
  rewrite Forall_forall in H2. specialize (H2 (p_pn q) (in_or_app _ _ _ (or_intror Q))). lia.
Qed.
Print Assumptions one_reduction_per_period_partial.
(** It reduces: the loss of a packet sent since the last report of congestion. *)
Theorem newer_loss_reduces : forall ss wa m spur a q b o p c1 c2 c3,
  cc_runs (cc_new ss wa m spur) a = Some c1 -> cc_runs c1 (CSent q :: b) = Some c2 -> cc_step c2 o = Some c3 ->
  StronglySorted N.lt (sent_pns (a ++ [CSent q])) -> (forall x, In x b -> trigger_of x = None) -> c_nspur c2 = c_nspur c1 ->
  trigger_of o = Some p -> p_pn q <= p_pn p -> reacted c2 c3.
Proof.
  intros ss wa m spur a q b o p c1 c2 c3 R1 R2 S Srt NT E Tr L.
  pose proof (settled_runs _ _ _ R1 (settled_new _ _ _ _)) as I1. pose proof (rec_runs _ [] _ _ R1 (rec_new _ _ _ _)) as [Rc _]. cbn [app] in Rc.
  cbn [cc_runs cc_step] in R2. set (cs := cc_sent q c1) in *.
  assert (Ss : cc_step c1 (CSent q) = Some cs) by reflexivity.
  pose proof (settled_step _ _ _ Ss I1) as Is. pose proof (settled_runs _ _ _ R2 Is) as I2.
  assert (Es : c_nspur cs = c_nspur c1) by (destruct (step_nspur _ _ _ Ss) as [X|(_ & ? & ? & ? & ? & ? & X)]; [exact X|discriminate]).
  assert (Us : ~ undone c1 cs) by (intros (_ & X & _); lia).
  pose proof (step_react _ _ _ Ss I1 Us) as [_ (_ & Ts & Rs)].
  destruct (no_report _ _ _ R2 Is) as [T2 Rec2]; [lia|exact NT|exact Ts|].
  assert (A : after_rec p c2 = true).
  { unfold after_rec. rewrite T2, Rec2, Rs. cbn [negb andb]. destruct (transient (s_phase (c_cur c1))); [lia|].
    destruct (s_rec (c_cur c1)) as [r|] eqn:Er; [|reflexivity]. specialize (Rc r Er). rewrite sent_pns_app in Srt. cbn [sent_pns flat_map app] in Srt.
    assert (r < p_pn q); [|lia]. clear - Rc Srt. revert Rc Srt. generalize (sent_pns a). clear a. intros l Rc Srt. induction l as [|x l IH]; [destruct Rc|]. inv Srt. destruct Rc as [->|Rc]; [|auto].
    rewrite Forall_forall in H2. apply (H2 (p_pn q)). apply in_or_app. right. now left. }
  destruct (undone_dec c2 c3) as [U|U].
  { destruct (undone_spec _ _ _ S U) as (ps & now & pto & rtt & bfi & c0 & s & -> & _). discriminate. }
  pose proof (step_react _ _ _ S I2 U) as [_ T]. destruct o; cbn [trigger_of] in Tr, T; try discriminate.
  - rewrite Tr, A in T. unfold reacted. lia.
  - injection Tr as ->. rewrite A in T. unfold reacted. lia.
Qed.
Print Assumptions newer_loss_reduces.
Definition two_losses : list cop :=
  [CSent (pk TShort 0 10 1200); CSent (pk TShort 1 11 1200); CLost None None 100 [pk TShort 0 10 1200];
   CSent (pk TShort 2 12 1200); CLost None None 100 [pk TShort 1 11 1200]; CEcn (pk TShort 1 11 1200)].
Example one_reduction_ex :
  match cc_runs (cc_new SsClassic NewReno 1200 false) two_losses with Some c => c_nloss c + c_necn c = 1 /\ cwnd c = 6000 | None => False end /\
  match cc_runs (cc_new SsClassic NewReno 1200 false) (two_losses ++ [CLost None None 100 [pk TShort 2 12 1200]]) with Some c => c_nloss c = 2 /\ cwnd c = 3000 | None => False end.
Proof. vm_compute. auto. Qed.
(** Across packet number spaces it may react twice: two Initial packets are lost one after the other, and a
    Handshake packet with a smaller number is sent in between. *)
Theorem one_reduction_per_period_refuted : exists b c1 c2 c3,
  let i0 := pk TInitial 0 10 1200 in let i1 := pk TInitial 1 11 1200 in
  cc_runs (cc_new SsClassic NewReno 1200 false) [CSent i0; CSent i1] = Some c1 /\
  cc_runs c1 [CLost None None 100 [i0]] = Some c2 /\ reacted c1 c2 /\ ~ In (CSent i1) b /\
  cc_runs c2 (b ++ [CLost None None 100 [i1]]) = Some c3 /\ c_nspur c3 = c_nspur c2 /\ reacted c2 c3 /\ cwnd c3 = 3000.
Proof.
  pose (i0 := pk TInitial 0 10 1200). pose (i1 := pk TInitial 1 11 1200). pose (b := [CSent (pk THandshake 0 12 1200)]).
  pose (z := cc_new SsClassic NewReno 1200 false). pose (g := fun c ops => match cc_runs c ops with Some c => c | None => z end).
  pose (c1 := g z [CSent i0; CSent i1]). pose (c2 := g c1 [CLost None None 100 [i0]]). pose (c3 := g c2 (b ++ [CLost None None 100 [i1]])).
  exists b, c1, c2, c3. cbn zeta. splits; try (vm_compute; reflexivity). intros [X|[]]. discriminate.
Qed.
Print Assumptions one_reduction_per_period_refuted.

(** What a reaction does: the window is halved (NewReno) or multiplied by 0.7, for a congestion mark by 0.85
    (Cubic), but not below two datagrams; slow start is over. *)
Theorem reaction_amount : forall c o c', cc_step c o = Some c' -> reacted c c' -> settled c ->
  (forall first prev pto ps, o = CLost first prev pto ps -> in_order ps /\ ~ persistent_congestion first prev pto (filter (fun p => negb (p_probe p)) ps)) ->
  s_ssthresh (c_cur c') = Some (cwnd c') /\
  cwnd c' = N.max (match c_wa c, o with NewReno, _ => cwnd c / 2 | Cubic _, CEcn _ => cwnd c * 85 / 100 | Cubic _, _ => cwnd c * 70 / 100 end) (2 * c_mtu c).
Proof.
  intros c o c' S R I NP. destruct (reacts _ _ _ S I R) as (p & Tr & A & _). destruct o as [ | |first prev pto ps|q| | |]; cbn [trigger_of] in Tr; try discriminate; cbn [cc_step] in S.
  - apply cc_lost_spec in S. destruct S as (c1 & Sm & _ & _ & _ & _ & _ & H). cbn [trigger_of] in H. rewrite Tr in H. cbn zeta in H.
    destruct (NP _ _ _ _ eq_refl) as [Or NP']. destruct (persistent_iff first prev pto (non_probe ps) (fst (congestion_event false p c1))) as (c2 & P1 & _ & P2 & _); [apply sorted_filter; exact Or|].
    rewrite P1 in H. injection H as <-. rewrite (P2 NP'). destruct Sm as [Q1 Q2 Q3 _ _ _ _ _]. assert (A' : after_rec p c1 = true) by (unfold after_rec; rewrite Q1; exact A).
    pose proof (event_yes false _ _ A') as E. cbn zeta in E. destruct E as (_ & _ & _ & _ & _ & _ & _ & _ & _ & E1 & E2 & _). split; [exact E1|]. rewrite E2. unfold cwnd. rewrite Q1, Q2, Q3.
    destruct (c_wa c); reflexivity.
  - injection S as <-. injection Tr as ->. unfold cc_ecn. pose proof (event_yes true _ _ A) as E. cbn zeta in E. destruct E as (_ & _ & _ & _ & _ & _ & _ & _ & _ & E1 & E2 & _).
    split; [exact E1|]. rewrite E2. destruct (c_wa c); reflexivity.
Qed.
Print Assumptions reaction_amount.
(** Nothing changes when it does not react. *)
Theorem no_reaction_no_change : forall c o c', cc_step c o = Some c' -> settled c -> ~ reacted c c' ->
  (exists p, o = CEcn p) \/ (exists first prev pto ps, o = CLost first prev pto ps /\ in_order ps /\ ~ persistent_congestion first prev pto (filter (fun p => negb (p_probe p)) ps)) ->
  c_cur c' = c_cur c.
Proof.
  intros c o c' S I R [(p & ->)|(first & prev & pto & ps & -> & Or & NP)]; cbn [cc_step] in S.
  - injection S as <-. unfold cc_ecn in *. destruct (after_rec p c) eqn:A; [|now rewrite congestion_event_no].
    exfalso. apply R. pose proof (event_yes true _ _ A) as E. cbn zeta in E. unfold reacted. lia.
  - apply cc_lost_spec in S. destruct S as (c1 & Sm & _ & _ & _ & _ & _ & H). destruct Sm as [Q1 Q2 Q3 Q4 Q5 Q6 Q7 Q8]. destruct (trigger_of _) as [p|]; [|now subst]. cbn zeta in H.
    destruct (persistent_iff first prev pto (non_probe ps) (fst (congestion_event false p c1))) as (c2 & P1 & _ & P2 & _); [apply sorted_filter; exact Or|].
    rewrite P1 in H. injection H as <-. rewrite (P2 NP) in *. destruct (after_rec p c1) eqn:A; [|rewrite congestion_event_no by assumption; exact Q1].
    exfalso. apply R. pose proof (event_yes false _ _ A) as E. cbn zeta in E. unfold reacted. lia.
Qed.
Print Assumptions no_reaction_no_change.
(** [settled] holds of every controller that can come about. *)
Theorem reachable_settled : forall ss wa m spur ops c, cc_runs (cc_new ss wa m spur) ops = Some c -> settled c.
Proof. intros ss wa m spur ops c R. exact (settled_runs _ _ _ R (settled_new _ _ _ _)). Qed.
Print Assumptions reachable_settled.

(** The window grows only when a packet is acknowledged that was sent no later than a packet sent while the
    window was in use (apart from an undo, and when it is below two datagrams). *)
Theorem growth_needs_use : forall ss wa m spur ops o c c', let ini := cc_new ss wa m spur in
  cc_runs ini ops = Some c -> cc_step c o = Some c' -> ~ undone c c' -> 2 * c_mtu c <= cwnd c -> cwnd c < cwnd c' ->
  exists ps now pto rtt bfi p a q b c0, o = CAcked ps now pto rtt bfi /\ In p ps /\ cc_outstanding p = true /\
    ops = a ++ CSent q :: b /\ cc_in_flight q = true /\ p_pn p <= p_pn q /\ cc_runs ini a = Some c0 /\ in_use c0.
Proof.
  intros ss wa m spur ops o c c' ini R S U F G. destruct (growth _ _ _ S U F G) as (ps & now & pto & rtt & bfi & -> & p & f & P1 & P2 & P3 & P4).
  destruct (used_runs ini ops c eq_refl R f P3) as (a & q & b & c0 & E & R0 & Us & Q & Ef).
  exists ps, now, pto, rtt, bfi, p, a, q, b, c0. splits; auto. lia.
Qed.
Print Assumptions growth_needs_use.
Definition full_window : list cop := map (fun n => CSent (pk TShort n 10 1200)) [0; 1; 2; 3; 4; 5; 6; 7; 8; 9].
Example growth_ex :
  match cc_runs (cc_new SsClassic NewReno 1200 false) (full_window ++ [CAcked [pk TShort 1 10 1200; pk TShort 0 10 1200] 60 100 50 1]) with Some c => cwnd c = 14400 | None => False end /\
  match cc_runs (cc_new SsClassic NewReno 1200 false) (firstn 2 full_window ++ [CAcked [pk TShort 1 10 1200; pk TShort 0 10 1200] 60 100 50 1]) with Some c => cwnd c = 12000 | None => False end.
Proof. vm_compute. auto. Qed.
(** How much it grows: never more than was acknowledged as long as slow start has no threshold; above the threshold one
    datagram for as many bytes as the algorithm asks for (a window full of them for NewReno).  Acknowledgements never shrink it. *)
Theorem growth_bounded : forall ps now pto rtt bfi c c', cc_step c (CAcked ps now pto rtt bfi) = Some c' -> ~ undone c c' ->
  cwnd c <= cwnd c' /\
  (s_ssthresh (c_cur c') = None -> cwnd c' <= cwnd c + acked_bytes ps) /\
  ((exists t, s_ssthresh (c_cur c) = Some t /\ t <= cwnd c) -> exists k, cwnd c' = cwnd c + k * c_mtu c /\
     k * (match c_wa c with NewReno => cwnd c | Cubic _ => bfi end) <= s_acked (c_cur c) + acked_bytes ps).
Proof.
  intros ps now pto rtt bfi c c' S U. cbn [cc_step] in S. apply cc_acked_spec in S.
  destruct S as (c0 & D & _ & _ & _ & _ & _ & _ & _ & _ & N1 & _ & _ & Wl & _ & G1 & _ & _ & _ & G2 & _).
  assert (C0 : c_cur c0 = c_cur c /\ c_wa c0 = c_wa c).
  { apply detect_spec in D. destruct D as (_ & _ & _ & _ & _ & _ & _ & _ & D).
    destruct D as [(_ & X & Y & _)|(s & _ & St & _ & X & [(Y & Z & _)|(_ & X1 & X2)])]; auto. exfalso. apply U. split; [exact Y|]. split; [lia|]. eauto. }
  destruct C0 as [C1 C2]. unfold cwnd in *. rewrite C1, C2 in *. splits; auto.
  - intros T. apply G1 in T. lia.
  - intros T. destruct (G2 T) as (_ & _ & [E|(k & E & B)]); [exists 0; lia|]. exists k. split; [exact E|]. unfold wa_bytes in B. destruct (c_wa c); lia.
Qed.
Print Assumptions growth_bounded.

(** Below the threshold, slow start stops at it: only avoidance's growth goes beyond. *)
Lemma slow_stops : forall largest rtt now n c c1 t, grow_slow largest rtt now n c = Some c1 -> s_ssthresh (c_cur c) = Some t -> cwnd c < t ->
  cwnd c <= cwnd c1 <= t /\ s_acked (c_cur c1) = s_acked (c_cur c) /\ c_wa c1 = c_wa c /\ c_mtu c1 = c_mtu c.
Proof.
  intros largest rtt now n c c1 t H T W. unfold grow_slow in H. unfold cwnd in *. rewrite T in H. destruct (N.ltb_spec (s_cwnd (c_cur c)) t); [|lia].
  destruct (ss_acked rtt largest (s_cwnd (c_cur c)) now (c_ss c)) as [[ss' [e|]]|] eqn:A; [| |discriminate].
  - apply ss_acked_exit in A. subst e. apply some_inj in H. subst c1. cbn. splits; auto; lia.
  - apply some_inj in H. subst c1. destruct (N.leb_spec t (s_cwnd (c_cur c) + ss_increase n (c_mtu c) ss')); cbn; splits; auto; lia.
Qed.
Theorem slow_start_stops_at_threshold : forall ps now pto rtt bfi c c' t, cc_step c (CAcked ps now pto rtt bfi) = Some c' -> ~ undone c c' ->
  s_ssthresh (c_cur c) = Some t -> cwnd c < t ->
  exists k, cwnd c' <= t + k * c_mtu c /\ k * (match c_wa c with NewReno => cwnd c | Cubic _ => bfi end) <= s_acked (c_cur c) + acked_bytes ps.
Proof.
  intros ps now pto rtt bfi c c' t S U T W. cbn [cc_step] in S. unfold cc_acked in S. destruct ps as [|big ps0]; [discriminate|]. set (ps := big :: ps0) in *.
  destruct (detect_spurious ps (cleanup now pto c)) as [c0|] eqn:D; cbn [obind] in S; [|discriminate].
  destruct (ack_loop ps c0 true 0) as [[c2 lim] n] eqn:AL. apply ack_loop_spec in AL.
  destruct AL as (E1 & E2 & E3 & E4 & E5 & E6 & E7 & E8 & E9 & E10 & E11 & E12 & E13 & E14 & E15 & E16 & E17 & E18 & E19 & E20 & E21).
  set (c3 := if in_slow_start (s_phase (c_cur c2)) then with_ss (ss_record n (c_ss c2)) c2 else c2) in *.
  assert (C3 : c_wa c3 = c_wa c2 /\ c_mtu c3 = c_mtu c2 /\ c_stored c3 = c_stored c2 /\ c_nspur c3 = c_nspur c2 /\ c_cur c3 = c_cur c2) by (subst c3; destruct (in_slow_start _); auto).
  clearbody c3. destruct C3 as (F1 & F2 & F3 & F4 & F5).
  assert (K : c_stored c' = c_stored c3 /\ c_nspur c' = c_nspur c3).
  { destruct lim; [injection S as <-; auto|]. destruct (grow_slow (p_pn big) rtt now n c3) as [c4|] eqn:G; cbn [obind] in S; [|discriminate].
    unfold grow_slow in G. unfold grow_avoid in S.
    assert (c_stored c4 = c_stored c3 /\ c_nspur c4 = c_nspur c3).
    { destruct (match s_ssthresh (c_cur c3) with None => true | Some _ => _ end); [|injection G as <-; auto]. destruct (ss_acked _ _ _ _ _) as [[ss' [e|]]|]; [| |discriminate]; injection G as <-; auto. }
    destruct (match s_ssthresh (c_cur c4) with None => false | Some _ => _ end); [|injection S as <-; auto]. destruct (_ =? 0); [discriminate|]. injection S as <-. auto. }
  assert (C0 : c_cur c0 = c_cur c /\ c_wa c0 = c_wa c /\ c_mtu c0 = c_mtu c).
  { apply detect_spec in D. destruct D as (D1 & D2 & D3 & D4 & D5 & D6 & D7 & D8 & D).
    destruct D as [(_ & X & Y & _)|(s & _ & St & _ & X & [(Y & Z & _)|(_ & X1 & X2)])]; auto. exfalso. apply U. destruct K as [K1 K2].
    split; [congruence|]. split; [rewrite K2, F4; assert (c_nspur c2 = c_nspur c0) by congruence; lia|]. eauto. }
  destruct C0 as [C1 [C2 C4]].
  assert (CW : cwnd c3 = cwnd c /\ s_ssthresh (c_cur c3) = Some t /\ s_acked (c_cur c3) = s_acked (c_cur c) /\ c_wa c3 = c_wa c /\ c_mtu c3 = c_mtu c /\ n <= acked_bytes ps) by (unfold cwnd; splits; try congruence; lia).
  destruct CW as (W1 & W2 & W3 & W4 & W5 & W6).
  destruct lim; [injection S as <-; exists 0; lia|].
  destruct (grow_slow (p_pn big) rtt now n c3) as [c4|] eqn:G; cbn [obind] in S; [|discriminate].
  apply (slow_stops _ _ _ _ _ _ t) in G; [|exact W2|lia]. destruct G as (G1 & G2 & G3 & G4).
  unfold grow_avoid in S. destruct (match s_ssthresh (c_cur c4) with None => false | Some _ => _ end); [|injection S as <-; exists 0; lia].
  set (b := wa_bytes bfi (s_cwnd (c_cur c4)) (c_wa c4)) in *. destruct (N.eqb_spec b 0) as [|B0]; [discriminate|]. apply some_inj in S. subst c'.
  exists ((N.min (s_acked (c_cur c4)) b + n) / b). unfold cwnd in *. cbn [c_cur with_cur s_cwnd]. rewrite G4, W5. split; [lia|].
  assert (BB : match c_wa c with NewReno => s_cwnd (c_cur c) | Cubic _ => bfi end <= b) by (subst b; rewrite G3, W4; unfold wa_bytes; destruct (c_wa c); lia).
  etransitivity; [apply N.mul_le_mono_l; exact BB|]. rewrite N.mul_comm. etransitivity; [apply N.mul_div_le; exact B0|]. lia.
Qed.
Print Assumptions slow_start_stops_at_threshold.

(** ** C70: persistent congestion *)
(** It is declared exactly when two of the lost packets, with all between them lost, are more than three probe
    timeouts apart; then the window is two datagrams and slow start begins anew. *)
Theorem persistent_congestion_exact : forall first prev pto ps c c', cc_step c (CLost first prev pto ps) = Some c' -> in_order ps ->
  let ps' := filter (fun p => negb (p_probe p)) ps in
  (persistent_congestion first prev pto ps' -> s_phase (c_cur c') = PPersist /\ cwnd c' = 2 * c_mtu c /\ c_ss c' = ss_reset (c_ss c)) /\
  (~ persistent_congestion first prev pto ps' -> (s_phase (c_cur c') = PPersist -> c_cur c' = c_cur c) /\ c_ss c' = c_ss c).
Proof.
  intros first prev pto ps c c' S Or ps'. cbn [cc_step] in S. apply cc_lost_spec in S. destruct S as (c1 & Sm & Ss & _ & _ & _ & _ & H).
  destruct Sm as [Q1 Q2 Q3 Q4 Q5 Q6 Q7 Q8]. rewrite <- lost_trigger in H. destruct (last_of (filter cc_in_flight (non_probe ps))) as [p|] eqn:L.
  - cbn zeta in H. set (c2 := fst (congestion_event false p c1)) in *.
    assert (E : c_ss c2 = c_ss c /\ c_mtu c2 = c_mtu c /\ (s_phase (c_cur c2) = PPersist -> c_cur c2 = c_cur c)).
    { subst c2. destruct (after_rec p c1) eqn:A; [|rewrite congestion_event_no by assumption; cbn; splits; auto; congruence].
      pose proof (event_yes false _ _ A) as E. cbn zeta in E. destruct E as (E1 & _ & _ & _ & E2 & _ & _ & E3 & _). splits; [congruence|congruence|]. rewrite E3. discriminate. }
    clearbody c2. destruct E as (E1 & E2 & E3). destruct (persistent_iff first prev pto (non_probe ps) c2) as (c3 & P1 & P2 & P3 & _); [apply sorted_filter; exact Or|].
    rewrite P1 in H. injection H as <-. split.
    + intros P. destruct (P2 P) as (X1 & X2 & _ & X3 & _). splits; auto; [now rewrite X2, E2|congruence].
    + intros P. rewrite (P3 P). auto.
  - subst c'. split.
    + intros (f & a & b & _ & A & _ & Fa & _). exfalso. unfold last_of in L. assert (X : In a (rev (filter cc_in_flight (non_probe ps)))) by (apply in_rev; rewrite rev_involutive; apply filter_In; auto).
      destruct (rev (filter cc_in_flight (non_probe ps))); [destruct X|discriminate].
    + intros _. split; [intros _; exact Q1|exact Ss].
Qed.
Print Assumptions persistent_congestion_exact.
Example persistent_congestion_ex : let l := [pk TShort 0 10 1200; pk TShort 1 500 1200] in
  in_order l /\ persistent_congestion (Some 5) None 100 l /\ ~ persistent_congestion (Some 5) None 200 l.
Proof.
  cbn zeta. splits.
  - unfold in_order. repeat constructor; cbn; lia.
  - exists 5, (pk TShort 0 10 1200), (pk TShort 1 500 1200). splits; cbn; auto; try lia.
  - intros (f & p & q & _ & [<-|[<-|[]]] & [<-|[<-|[]]] & H); cbn in H; lia.
Qed.

(** ** C71: undo *)
(** An undo happens only when it is configured and only at an acknowledgement.  It brings back at least the window from before the latest reaction to
    a loss, which was larger. *)
Theorem undo_restores : forall ss wa m spur ops o c c', let ini := cc_new ss wa m spur in
  cc_runs ini ops = Some c -> cc_step c o = Some c' -> undone c c' ->
  spur = true /\ exists ps now pto rtt bfi a first prev pto' lost b c0 c1,
    o = CAcked ps now pto rtt bfi /\ ops = a ++ CLost first prev pto' lost :: b /\ cc_runs ini a = Some c0 /\
    cc_step c0 (CLost first prev pto' lost) = Some c1 /\ c_nloss c1 = c_nloss c0 + 1 /\ c_nloss c = c_nloss c1 /\
    cwnd c < cwnd c0 /\ cwnd c0 <= cwnd c' /\ (s_ssthresh (c_cur c') = None -> s_ssthresh (c_cur c0) = None /\ cwnd c' <= cwnd c0 + acked_bytes ps) /\
    ((forall p, In p ps -> cc_outstanding p = false) -> c_cur c' = c_cur c0).
Proof.
  intros ss wa m spur ops o c c' ini R S U. pose proof (cc_runs_spur _ _ _ R) as Sp. cbn in Sp. destruct (undone_spec _ _ _ S U) as (ps & now & pto & rtt & bfi & cx & s & -> & St & L & Ec & _ & D & _).
  split; [destruct U as (U & _); congruence|].
  destruct (stored_runs ini ops c s eq_refl R St) as (a & first & prev & pto' & lost & b & c0 & c1 & E & R0 & S0 & N1 & N2 & _ & ->).
  exists ps, now, pto, rtt, bfi, a, first, prev, pto', lost, b, c0, c1. cbn [cc_step] in S. apply cc_acked_spec in S.
  destruct S as (cx' & D' & _ & _ & _ & _ & _ & _ & _ & _ & _ & _ & _ & Wl & _ & G1 & _ & G3 & _). rewrite D in D'. injection D' as <-. unfold cwnd in *. rewrite Ec in *. splits; auto; try (intros T; now apply G1).
Qed.
Print Assumptions undo_restores.
(** Every packet that was reported lost was acknowledged by then, or was older than two probe timeouts at some acknowledgement. *)
Theorem undo_needs_all_forgiven : forall ss wa m spur a first prev pto lost b o c c' p,
  cc_runs (cc_new ss wa m spur) (a ++ CLost first prev pto lost :: b) = Some c -> cc_step c o = Some c' -> c_nspur c' <> c_nspur c ->
  In p lost -> cc_in_flight p = true -> p_probe p = false -> forgiven (b ++ [o]) p.
Proof.
  intros ss wa m spur a first prev pto lost b o c c' p R S U P F NP. rewrite cc_runs_app in R. destruct (cc_runs _ a) as [c0|]; [|discriminate]. cbn [cc_runs] in R.
  destruct (cc_step c0 (CLost first prev pto lost)) as [c1|] eqn:S0; [|discriminate].
  assert (K : In (key_of p) (c_lost c1)).
  { cbn [cc_step] in S0. apply cc_lost_spec in S0. destruct S0 as (cx & _ & _ & _ & _ & L1 & _ & H). assert (NE : lost <> []) by (intros ->; destruct P). specialize (L1 NE).
    apply lost_loop_keys in L1. destruct L1 as (_ & L1 & _). specialize (L1 p P F NP). destruct (trigger_of _) as [q|]; [|now subst]. cbn zeta in H. apply persistent_spec in H.
    assert (E : c_lost (fst (congestion_event false q cx)) = c_lost cx).
    { destruct (after_rec q cx) eqn:A; [|now rewrite congestion_event_no]. pose proof (event_yes false _ _ A) as E. cbn zeta in E. apply E. }
    destruct H as [->|(s & -> & _)]; cbn; now rewrite E. }
  destruct (runs_keys _ _ _ _ R K) as [K'|(ps & now & pto' & rtt & bfi & I & Z)].
  2:{ exists ps, now, pto', rtt, bfi. split; [apply in_or_app; now left|exact Z]. }
  destruct (step_nspur _ _ _ S) as [X|(_ & ps & now & pto' & rtt & bfi & ->)]; [contradiction|]. exists ps, now, pto', rtt, bfi. split; [apply in_or_app; right; now left|].
  cbn [cc_step] in S. apply cc_acked_spec in S. destruct S as (cx & D & _ & _ & _ & _ & _ & _ & _ & _ & N1 & _). apply detect_spec in D. destruct D as (_ & _ & _ & _ & _ & _ & _ & _ & D).
  destruct D as [(X & _)|(s & (_ & G) & _)]; [congruence|]. destruct (G _ K') as [Y|(q & Q & Y)]; [right; cbn in Y; lia|left].
  unfold same_key in Y. apply andb_true_iff in Y. destruct Y as [Y1 Y2]. exists q. splits; auto; [cbn in Y1; lia|]. apply ptype_eqb_eq in Y2. exact Y2.
Qed.
Print Assumptions undo_needs_all_forgiven.
Definition spurious : list cop :=
  [CSent (pk TShort 0 10 1200); CSent (pk TShort 1 110 1200); CLost None None 40 [pk TShort 0 10 1200; pk TShort 1 110 1200]].
Example undo_ex :
  match cc_runs (cc_new SsClassic NewReno 1200 true) spurious with Some c => cwnd c = 6000 | None => False end /\
  match cc_runs (cc_new SsClassic NewReno 1200 true) (spurious ++ [CAcked [pk_lost TShort 1 110 1200; pk_lost TShort 0 10 1200] 160 80 50 1]) with Some c => cwnd c = 12000 | None => False end /\
  match cc_runs (cc_new SsClassic NewReno 1200 false) (spurious ++ [CAcked [pk_lost TShort 1 110 1200; pk_lost TShort 0 10 1200] 160 80 50 1]) with Some c => cwnd c = 6000 | None => False end.
Proof. vm_compute. auto. Qed.
(** It happens though a packet was lost and never acknowledged, if it is old enough when another one is acknowledged. *)
Theorem undo_only_if_all_acked_refuted : exists p o c c', In p [pk TShort 0 10 1200; pk TShort 1 110 1200] /\
  cc_runs (cc_new SsClassic NewReno 1200 true) spurious = Some c /\ cc_step c o = Some c' /\ undone c c' /\
  forall ps now pto rtt bfi, o = CAcked ps now pto rtt bfi -> ~ In (p_pn p) (map p_pn ps).
Proof.
  pose (z := cc_new SsClassic NewReno 1200 true). pose (o := CAcked [pk_lost TShort 1 110 1200] 160 40 50 1).
  pose (c := match cc_runs z spurious with Some c => c | None => z end). pose (c' := match cc_step c o with Some c => c | None => z end).
  exists (pk TShort 0 10 1200), o, c, c'. splits; try (vm_compute; reflexivity); [now left| |].
  - vm_compute. splits; [reflexivity|discriminate|]. eexists. split; reflexivity.
  - intros ps now pto rtt bfi X. injection X as <- _ _ _ _. cbn. intros [Y|[]]. discriminate.
Qed.
Print Assumptions undo_only_if_all_acked_refuted.

(** ** C39: leaving slow start *)
(** HyStart++ leaves slow start only when the smallest RTT of a round, over at least eight samples, was larger by the threshold than
    that of the round before, and five rounds ended since in which no round with eight samples had a smaller RTT than the base line.
    It does not change the window then. *)
Theorem hystart_exit : forall paced entry ops rtt largest w e,
  snd (hy_step (hy_run (hy_new paced entry) ops) (HAck rtt largest w)) = Some e ->
  e = w /\ exists a rtt0 lg0 w0 b last cur base, ops ++ [HAck rtt largest w] = a ++ HAck rtt0 lg0 w0 :: b /\
    let r := r_run r_new a in let thresh := N.max 4000000 (N.min (last / 8) 16000000) in
    8 <= lenN (r_now r ++ [rtt0]) /\ minimum (r_prev r) = Some last /\ minimum (r_now r ++ [rtt0]) = Some cur /\ last + thresh <= cur /\
    base = (if entry then last + thresh else cur) /\ ~ In HReset b /\ 5 <= round_ends r (HAck rtt0 lg0 w0 :: b) /\
    (forall b1 x l w' b2, b = b1 ++ HAck x l w' :: b2 -> 1 <= round_ends r (HAck rtt0 lg0 w0 :: b1) ->
       let now := r_now (r_run r (HAck rtt0 lg0 w0 :: b1)) ++ [x] in 8 <= lenN now -> exists m, minimum now = Some m /\ base <= m).
Proof.
  intros paced entry ops rtt largest w e H. pose proof (hinv_run paced entry (ops ++ [HAck rtt largest w])) as V. rewrite hy_run_snoc in V.
  set (h := hy_run (hy_new paced entry) ops) in *. cbn [hy_step] in *.
  assert (X : e = w /\ exists base, hy_base (fst (hy_acked rtt largest w h)) = Some base /\ 5 <= hy_rounds (fst (hy_acked rtt largest w h))).
  { clear V. unfold hy_acked in *. set (h1 := hy_css (hy_collect rtt h)) in *. clearbody h1. destruct (hy_end h1) as [en|]; [|discriminate].
    destruct (largest <? en); [discriminate|]. cbn [hy_next hy_base] in *. destruct (hy_base h1) as [base|]; [|discriminate]. cbn [fst snd hy_base hy_rounds] in *.
    destruct (CSS_ROUNDS <=? hy_rounds (hy_next h1) + 1) eqn:R; [|discriminate]. injection H as <-. unfold CSS_ROUNDS in R. split; [reflexivity|]. exists base. split; [reflexivity|lia]. }
  destruct X as (-> & base & B & R). split; [reflexivity|]. destruct V as [_ _ _ _ _ _ _ V]. specialize (V base B).
  destruct V as (a & rtt0 & lg0 & w0 & b & last & cur & E & H1 & H2 & H3 & H4 & H5 & H6 & H7 & H8 & _).
  exists a, rtt0, lg0, w0, b, last, cur, base. split; [exact E|]. cbv zeta in *. rewrite H7. splits; auto.
Qed.
Print Assumptions hystart_exit.
Definition hround (n rtt : N) : list hop := HSent (n * 10) :: map (fun k => HAck rtt (n * 10 - 9 + k) 50000) [0; 1; 2; 3; 4; 5; 6; 7; 8; 9].
Example hystart_exit_ex :
  outs (fun h o => Some (hy_step h o)) (hy_new true false) (hround 1 20000000 ++ hround 2 30000000 ++ hround 3 31000000 ++ hround 4 30000000 ++ hround 5 30000000 ++ hround 6 30000000) =
  Some (repeat None 65 ++ [Some 50000]).
Proof. vm_compute. reflexivity. Qed.
(** Growth in slow start per acknowledgement. *)
Theorem hystart_growth : forall paced entry ops acked mtu, let h := hy_run (hy_new paced entry) ops in
  hy_increase acked mtu h <= acked /\ (paced = false -> hy_increase acked mtu h <= 8 * mtu) /\ (hy_base h <> None -> 4 * hy_increase acked mtu h <= acked).
Proof.
  intros paced entry ops acked mtu h. pose proof (hv_paced _ _ _ _ (hinv_run paced entry ops)) as P. fold h in P. unfold hy_increase. rewrite P. unfold NON_PACED_L, CSS_GROWTH_DIVISOR.
  destruct paced, (hy_base h); splits; try congruence; dlia.
Qed.
Print Assumptions hystart_growth.
(** SEARCH answers as if it kept the whole history: no slot of its ring buffers is read that was not written, or was overwritten, and it does
    not panic, if RTTs are at least 3 ns. *)
Theorem search_history_is_exact : forall ops, rtts_ok ops -> exists l, outs se_step se_new ops = Some l /\ outs id_step id_new ops = Some l.
Proof. intros ops Ok. apply search_refines; [|exact Ok]. constructor; try reflexivity. discriminate. Qed.
Print Assumptions search_history_is_exact.
Definition sround (n : N) : list xop := [XSent 1000; XRecord (if n <? 30 then 1000 else 300); XAck 100 50000 (n * 35 + 1)].
Definition srounds : list xop := flat_map sround [0; 1; 2; 3; 4; 5; 6; 7; 8; 9; 10; 11; 12; 13; 14; 15; 16; 17; 18; 19; 20; 21; 22; 23; 24; 25; 26; 27; 28; 29; 30; 31; 32; 33; 34; 35; 36].
Example search_ex : rtts_ok srounds /\ exists l, outs se_step se_new srounds = Some l /\ In (Some 50000) l.
Proof.
  split.
  - intros rtt w now H. assert (A : forallb (fun o => match o with XAck r _ _ => 3 <=? r | _ => true end) srounds = true) by (vm_compute; reflexivity).
    rewrite forallb_forall in A. specialize (A _ H). cbn in A. lia.
  - eexists. split; [vm_compute; reflexivity|]. vm_compute. do 104 (right; try (left; reflexivity)).
Qed.
(** With an RTT of 2 ns it divides by zero. *)
Theorem search_small_rtt_refuted : exists ops, outs se_step se_new ops = None.
Proof. exists [XAck 2 1000 5]. reflexivity. Qed.
Print Assumptions search_small_rtt_refuted.
