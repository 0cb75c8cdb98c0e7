(** Proofs about one congestion controller over whole histories. *)
From Coq Require Import Sorted.
From Verif Require Import Base Lib FcModel LrModel LrSpec CcModel CcSpec CcProofs CcProofs2.

Lemma step_nspur : forall c o c', cc_step c o = Some c' ->
  c_nspur c' = c_nspur c \/ c_nspur c' = c_nspur c + 1 /\ exists ps now pto rtt bfi, o = CAcked ps now pto rtt bfi.
Proof.
  intros c o c' H. destruct o as [p|ps now pto rtt bfi|first prev pto ps|p|p| |m]; cbn [cc_step] in H.
  - injection H as <-. left. pose proof (cc_sent_spec p c) as E. cbn zeta in E. apply E.
  - apply cc_acked_spec in H. destruct H as (c0 & D & _ & _ & _ & _ & _ & _ & _ & _ & N1 & _). apply detect_spec in D.
    destruct D as (_ & _ & _ & _ & _ & _ & _ & _ & D). destruct D as [(X & _)|(s & _ & _ & _ & X & _)]; [left; congruence|right]. split; [congruence|]. eauto 6.
  - left. apply cc_lost_spec in H. destruct H as (c1 & S & _ & _ & _ & _ & _ & H). destruct S as [sm_cur0 sm_wa0 sm_mtu0 sm_stored0 sm_spur0 sm_nloss0 sm_necn0 sm_nspur0].
    destruct (trigger_of _) as [p|]; [|congruence]. cbn zeta in H. apply persistent_spec in H.
    assert (E : c_nspur (fst (congestion_event false p c1)) = c_nspur c1).
    { destruct (after_rec p c1) eqn:A; [|now rewrite congestion_event_no]. pose proof (event_yes false _ _ A) as E. cbn zeta in E. apply E. }
    destruct H as [->|(s & -> & _)]; cbn; congruence.
  - left. injection H as <-. unfold cc_ecn. destruct (after_rec p c) eqn:A; [|now rewrite congestion_event_no]. pose proof (event_yes true _ _ A) as E. cbn zeta in E. apply E.
  - left. unfold cc_discard in H. destruct (cc_outstanding p); [destruct (_ <=? _); [|discriminate]|]; injection H as <-; reflexivity.
  - left. injection H as <-. reflexivity.
  - left. injection H as <-. reflexivity.
Qed.
Lemma runs_nspur : forall ops c c', cc_runs c ops = Some c' -> c_nspur c <= c_nspur c'.
Proof.
  induction ops as [|o ops IH]; intros c c' H; cbn in H; [injection H as <-; lia|]. destruct (cc_step c o) as [c1|] eqn:S; [|discriminate].
  apply IH in H. apply step_nspur in S. lia.
Qed.
Lemma undone_dec : forall c c', undone c c' \/ ~ undone c c'.
Proof.
  intros c c'. unfold undone. destruct (c_spur c); [|right; intros (X & _); discriminate].
  destruct (N.eq_dec (c_nspur c') (c_nspur c)) as [E|E]; [right; intros (_ & X & _); contradiction|].
  destruct (c_stored c) as [s|]; [|right; intros (_ & _ & s & X & _); discriminate].
  destruct (N.lt_ge_cases (cwnd c) (s_cwnd s)) as [L|L]; [left; eauto 6|right]. intros (_ & _ & s' & X & Y). injection X as <-. lia.
Qed.
(** What an undo does. *)
Lemma undone_spec : forall c o c', cc_step c o = Some c' -> undone c c' ->
  exists ps now pto rtt bfi c0 s, o = CAcked ps now pto rtt bfi /\ c_stored c = Some s /\ cwnd c < s_cwnd s /\ c_cur c0 = s /\ gone now pto ps c /\
    detect_spurious ps (cleanup now pto c) = Some c0 /\ c_stored c' = None.
Proof.
  intros c o c' H (U1 & U2 & s & U3 & U4). destruct (step_nspur _ _ _ H) as [X|(_ & ps & now & pto & rtt & bfi & ->)]; [contradiction|].
  cbn [cc_step] in H. apply cc_acked_spec in H. destruct H as (c0 & D & _ & _ & _ & _ & _ & _ & _ & St & N1 & _). pose proof D as D'. apply detect_spec in D.
  destruct D as (_ & _ & _ & _ & _ & _ & _ & _ & D). destruct D as [(X & _)|(s' & G & S & Z & X & [(_ & _ & Y)|([Y|Y] & _)])]; try congruence.
  - rewrite U3 in S. injection S as <-. exists ps, now, pto, rtt, bfi, c0, s. splits; auto; congruence.
  - rewrite U3 in S. injection S as <-. lia.
Qed.
Lemma settled_step : forall c o c', cc_step c o = Some c' -> settled c -> settled c'.
Proof.
  intros c o c' H I. destruct (undone_dec c c') as [U|U]; [|apply (step_react _ _ _ H I U)].
  pose proof (undone_spec _ _ _ H U) as (ps & now & pto & rtt & bfi & c0 & s & -> & St & _ & C0 & _ & D & St').
  destruct I as (_ & _ & I3). specialize (I3 s St). cbn [cc_step] in H. apply cc_acked_spec in H. destruct H as (c0' & D' & _ & _ & _ & _ & _ & _ & _ & _ & _ & _ & _ & _ & Ph & _).
  rewrite D in D'. injection D' as <-. rewrite C0 in Ph.
  assert (T : transient (s_phase (c_cur c')) = false) by (destruct Ph as [->| ->]; [assumption|reflexivity]).
  unfold settled. rewrite St'. splits; try discriminate; intros X; rewrite X in T; discriminate.
Qed.
Lemma settled_new : forall ss wa m spur, settled (cc_new ss wa m spur).
Proof. intros. unfold settled. cbn. splits; discriminate. Qed.
Lemma settled_runs : forall ops c c', cc_runs c ops = Some c' -> settled c -> settled c'.
Proof.
  induction ops as [|o ops IH]; intros c c' H I; cbn in H; [now injection H as <-|]. destruct (cc_step c o) as [c1|] eqn:S; [|discriminate].
  apply (IH _ _ H). eapply settled_step; eauto.
Qed.

(** ** One reaction per period *)
Definition covered (b : list cop) (c : cc) : Prop :=
  transient (s_phase (c_cur c)) = true \/ exists q b1 b2, b = b1 ++ CSent q :: b2 /\ s_rec (c_cur c) = Some (p_pn q).
Lemma covered_step : forall b c o c', cc_step c o = Some c' -> settled c -> ~ undone c c' -> covered b c -> covered (b ++ [o]) c'.
Proof.
  intros b c o c' H I U C. pose proof (step_react _ _ _ H I U) as [_ R].
  assert (KEEP : forall q b1 b2, b = b1 ++ CSent q :: b2 -> s_rec (c_cur c') = Some (p_pn q) -> covered (b ++ [o]) c').
  { intros q b1 b2 E S. right. exists q, b1, (b2 ++ [o]). split; [rewrite E, <- app_assoc; reflexivity|exact S]. }
  destruct o as [p|ps now pto rtt bfi|first prev pto ps|p|p| |m]; cbn [trigger_of] in R.
  - destruct R as (_ & _ & R). destruct C as [T|(q & b1 & b2 & E & S)].
    + rewrite T in R. right. exists p, b, []. auto.
    + destruct (transient (s_phase (c_cur c))); [right; exists p, b, []; auto|]. eapply KEEP; [exact E|congruence].
  - destruct R as ((_ & R & _) & S'). destruct C as [T|(q & b1 & b2 & E & S)]; [left; congruence|eapply KEEP; [exact E|congruence]].
  - destruct R as (R & S'). destruct C as [T|(q & b1 & b2 & E & S)]; [left|eapply KEEP; [exact E|congruence]].
    destruct (match rev _ with [] => _ | _ => _ end) as [p|]; [destruct (after_rec p c)|]; destruct R as (_ & R); [exact R| |]; rewrite T in R; [exact R|apply R].
  - destruct R as (R & S'). destruct C as [T|(q & b1 & b2 & E & S)]; [left|eapply KEEP; [exact E|congruence]].
    destruct (after_rec p c); destruct R as (_ & R); [exact R|]; rewrite T in R; exact R.
  - destruct R as ((_ & R & _) & S'). destruct C as [T|(q & b1 & b2 & E & S)]; [left; congruence|eapply KEEP; [exact E|congruence]].
  - destruct R as ((_ & R & _) & S'). destruct C as [T|(q & b1 & b2 & E & S)]; [left; congruence|eapply KEEP; [exact E|congruence]].
  - destruct R as ((_ & R & _) & S'). destruct C as [T|(q & b1 & b2 & E & S)]; [left; congruence|eapply KEEP; [exact E|congruence]].
Qed.
Lemma covered_runs : forall b a c c', cc_runs c b = Some c' -> settled c -> c_nspur c' = c_nspur c -> covered a c -> covered (a ++ b) c'.
Proof.
  induction b as [|o b IH]; intros a c c' H I E C; cbn in H; [injection H as <-; now rewrite app_nil_r|]. destruct (cc_step c o) as [c1|] eqn:S; [|discriminate].
  pose proof (runs_nspur _ _ _ H) as M. pose proof (step_nspur _ _ _ S) as M'.
  change (a ++ o :: b) with (a ++ [o] ++ b). rewrite app_assoc. apply (IH _ c1); auto; [eapply settled_step; eauto|lia|].
  apply (covered_step _ c); auto. intros (_ & X & _). lia.
Qed.
Lemma reacts : forall c o c', cc_step c o = Some c' -> settled c -> reacted c c' ->
  exists p, trigger_of o = Some p /\ after_rec p c = true /\ transient (s_phase (c_cur c')) = true /\ c_nspur c' = c_nspur c.
Proof.
  intros c o c' H I R. unfold reacted in R.
  assert (U : ~ undone c c').
  { intros U. destruct (undone_spec _ _ _ H U) as (ps & now & pto & rtt & bfi & c0 & s & -> & _). cbn [cc_step] in H. apply cc_acked_spec in H.
    destruct H as (_ & _ & _ & _ & E1 & E2 & _). lia. }
  pose proof (step_react _ _ _ H I U) as [_ T]. pose proof (step_nspur _ _ _ H) as NS.
  destruct o as [p|ps now pto rtt bfi|first prev pto ps|p|p| |m]; cbn [trigger_of] in *; try (destruct T as ((T & _) & _); lia); try (destruct T as (T & _); lia).
  - destruct T as (T & _). destruct (match rev _ with [] => _ | _ => _ end) as [p|]; [|lia]. destruct (after_rec p c) eqn:A; [|lia]. destruct T as (_ & T).
    exists p. splits; auto. destruct NS as [NS|(_ & ? & ? & ? & ? & ? & X)]; [exact NS|discriminate].
  - destruct T as (T & _). destruct (after_rec p c) eqn:A; [|lia]. destruct T as (_ & T). exists p. splits; auto.
    destruct NS as [NS|(_ & ? & ? & ? & ? & ? & X)]; [exact NS|discriminate].
Qed.

(** ** Where the recovery start and the stored state come from *)
Definition rec_from (ops : list cop) (s : ccst) : Prop := forall r, s_rec s = Some r -> In r (sent_pns ops).
Lemma sent_pns_app : forall a b, sent_pns (a ++ b) = sent_pns a ++ sent_pns b.
Proof. intros. unfold sent_pns. now rewrite flat_map_app. Qed.
Lemma in_sent_app : forall r a b, In r (sent_pns a) -> In r (sent_pns (a ++ b)).
Proof. intros. rewrite sent_pns_app. apply in_or_app. now left. Qed.
Definition rec_inv (ops : list cop) (c : cc) : Prop := rec_from ops (c_cur c) /\ forall s, c_stored c = Some s -> rec_from ops s.
Lemma rec_step : forall ops c o c', cc_step c o = Some c' -> rec_inv ops c -> rec_inv (ops ++ [o]) c'.
Proof.
  intros ops c o c' H (I1 & I2).
  assert (J1 : rec_from (ops ++ [o]) (c_cur c)) by (intros r Hr; apply in_sent_app; auto).
  assert (J2 : forall s, c_stored c = Some s -> rec_from (ops ++ [o]) s) by (intros s Hs r Hr; apply in_sent_app; apply (I2 s); auto).
  clear I1 I2. destruct o as [p|ps now pto rtt bfi|first prev pto ps|p|p| |m]; cbn [cc_step] in H.
  - injection H as <-. pose proof (cc_sent_spec p c) as E. cbn zeta in E. destruct E as (_ & _ & E1 & _ & _ & _ & _ & _ & _ & _ & _ & _ & E2 & _).
    split; [|intros s Hs; apply J2; congruence]. intros r Hr. rewrite E2 in Hr. destruct (transient _); [|auto]. injection Hr as <-.
    rewrite sent_pns_app. apply in_or_app. right. now left.
  - apply cc_acked_spec in H. destruct H as (c0 & D & _ & _ & _ & _ & _ & _ & _ & St & _ & _ & Rc & _). apply detect_spec in D.
    destruct D as (_ & _ & _ & _ & _ & _ & _ & _ & D). split.
    + intros r Hr. rewrite Rc in Hr. destruct D as [(_ & X & _)|(s & _ & S & _ & _ & [(_ & _ & X)|(_ & X & _)])]; rewrite X in Hr; auto. apply (J2 s); auto.
    + intros s Hs. rewrite St in Hs. destruct D as [(_ & _ & _ & X)|(s' & _ & S & X & _)]; [apply J2; congruence|congruence].
  - apply cc_lost_spec in H. destruct H as (c1 & S & _ & _ & _ & _ & _ & H). destruct S as [sm_cur0 sm_wa0 sm_mtu0 sm_stored0 sm_spur0 sm_nloss0 sm_necn0 sm_nspur0].
    assert (K : forall x, rec_from x (c_cur c) -> (forall s, c_stored c = Some s -> rec_from x s) -> rec_inv x c1) by (intros x A B; split; rewrite ?sm_cur0, ?sm_stored0; auto).
    specialize (K _ J1 J2). destruct (trigger_of _) as [p|]; [|now subst]. cbn zeta in H.
    assert (K' : rec_inv (ops ++ [CLost first prev pto ps]) (fst (congestion_event false p c1))).
    { destruct (after_rec p c1) eqn:A; [|now rewrite congestion_event_no]. pose proof (event_yes false _ _ A) as E. cbn zeta in E.
      destruct E as (_ & _ & _ & _ & _ & _ & _ & _ & E1 & _ & _ & E2 & _). destruct K as [K1 K2]. split; [intros r Hr; apply K1; congruence|].
      intros s Hs. rewrite E2 in Hs. injection Hs as <-. exact K1. }
    apply persistent_spec in H. destruct H as [->|(s & -> & _ & _ & _ & _ & X)]; [exact K'|]. destruct K' as [K1 K2]. split; [|exact K2].
    intros r Hr. cbn in Hr. apply K1. congruence.
  - injection H as <-. unfold cc_ecn. destruct (after_rec p c) eqn:A; [|rewrite congestion_event_no by assumption; split; auto]. pose proof (event_yes true _ _ A) as E. cbn zeta in E.
    destruct E as (_ & _ & _ & _ & _ & _ & _ & _ & E1 & _ & _ & E2 & _). split; [intros r Hr; apply J1; congruence|intros s Hs; apply J2; congruence].
  - unfold cc_discard in H. destruct (cc_outstanding p); [destruct (_ <=? _); [|discriminate]|]; injection H as <-; split; auto.
  - injection H as <-. split; auto.
  - injection H as <-. split; auto.
Qed.
Lemma rec_runs : forall b a c c', cc_runs c b = Some c' -> rec_inv a c -> rec_inv (a ++ b) c'.
Proof.
  induction b as [|o b IH]; intros a c c' H I; cbn in H; [injection H as <-; now rewrite app_nil_r|]. destruct (cc_step c o) as [c1|] eqn:S; [|discriminate].
  change (a ++ o :: b) with (a ++ [o] ++ b). rewrite app_assoc. apply (IH _ c1); auto. eapply rec_step; eauto.
Qed.
Lemma rec_new : forall ss wa m spur, rec_inv [] (cc_new ss wa m spur).
Proof. intros. split; cbn; [intros r Hr; discriminate|intros s Hs; discriminate]. Qed.

(** No report of congestion: nothing is waited for that was not before. *)
Lemma no_report : forall b c c', cc_runs c b = Some c' -> settled c -> c_nspur c' = c_nspur c -> (forall o, In o b -> trigger_of o = None) ->
  transient (s_phase (c_cur c)) = false -> transient (s_phase (c_cur c')) = false /\ s_rec (c_cur c') = s_rec (c_cur c).
Proof.
  induction b as [|o b IH]; intros c c' H I E NT T; cbn in H; [now injection H as <-|]. destruct (cc_step c o) as [c1|] eqn:S; [|discriminate].
  pose proof (runs_nspur _ _ _ H) as M. pose proof (step_nspur _ _ _ S) as M'.
  assert (U : ~ undone c c1) by (intros (_ & X & _); lia).
  pose proof (step_react _ _ _ S I U) as [I' R]. specialize (IH _ _ H I'). assert (TR : trigger_of o = None) by (apply NT; now left).
  assert (X : transient (s_phase (c_cur c1)) = false /\ s_rec (c_cur c1) = s_rec (c_cur c)).
  { destruct o; rewrite ?TR in R; try (destruct R as ((_ & R & _) & R'); split; congruence). rewrite T in R. split; apply R. }
  destruct X as [X1 X2]. destruct IH as [Y1 Y2]; auto; [lia|intros x Hx; apply NT; now right|]. split; congruence.
Qed.

(** ** Growth *)
Definition used_before (ini : cc) (ops : list cop) (c : cc) : Prop :=
  forall f, c_fal c = Some f -> exists a q b c0, ops = a ++ CSent q :: b /\ cc_runs ini a = Some c0 /\ in_use c0 /\ cc_in_flight q = true /\ f = p_pn q + 1.
Lemma step_fal : forall c o c', cc_step c o = Some c' ->
  c_fal c' = c_fal c \/ exists p, o = CSent p /\ cc_in_flight p = true /\ in_use c /\ c_fal c' = Some (p_pn p + 1).
Proof.
  intros c o c' H. destruct o as [p|ps now pto rtt bfi|first prev pto ps|p|p| |m]; cbn [cc_step] in H.
  - injection H as <-. pose proof (cc_sent_spec p c) as E. cbn zeta in E. destruct E as (_ & _ & _ & _ & _ & _ & _ & _ & _ & _ & _ & _ & _ & _ & E & _).
    destruct E as [E|(E1 & E2 & E3)]; [now left|right; eauto].
  - left. apply cc_acked_spec in H. destruct H as (c0 & _ & _ & _ & _ & _ & _ & F & _). exact F.
  - left. apply cc_lost_spec in H. destruct H as (c1 & S & _ & F & _ & _ & _ & H).
    destruct (trigger_of _) as [p|]; [|congruence]. cbn zeta in H. apply persistent_spec in H.
    assert (E : c_fal (fst (congestion_event false p c1)) = c_fal c1).
    { destruct (after_rec p c1) eqn:A; [|now rewrite congestion_event_no]. pose proof (event_yes false _ _ A) as E. cbn zeta in E. apply E. }
    destruct H as [->|(s & -> & _)]; cbn; congruence.
  - left. injection H as <-. unfold cc_ecn. destruct (after_rec p c) eqn:A; [|now rewrite congestion_event_no]. pose proof (event_yes true _ _ A) as E. cbn zeta in E. apply E.
  - left. unfold cc_discard in H. destruct (cc_outstanding p); [destruct (_ <=? _); [|discriminate]|]; injection H as <-; reflexivity.
  - left. injection H as <-. reflexivity.
  - left. injection H as <-. reflexivity.
Qed.
Lemma used_runs : forall ini ops c, c_fal ini = None -> cc_runs ini ops = Some c -> used_before ini ops c.
Proof.
  intros ini ops. induction ops as [|o ops IH] using rev_ind; intros c F0 H; [injection H as <-; intros f Hf; congruence|].
  apply cc_runs_snoc in H. destruct H as (c1 & R & S). specialize (IH c1 F0 R). intros f Hf. destruct (step_fal _ _ _ S) as [E|(p & -> & P1 & P2 & P3)].
  - destruct (IH f) as (a & q & b & c0 & E0 & X); [congruence|]. exists a, q, (b ++ [o]), c0. split; [rewrite E0, <- app_assoc; reflexivity|exact X].
  - exists ops, p, [], c1. splits; auto. congruence.
Qed.
(** Which steps can raise the window. *)
Lemma growth : forall c o c', cc_step c o = Some c' -> ~ undone c c' -> 2 * c_mtu c <= cwnd c -> cwnd c < cwnd c' ->
  exists ps now pto rtt bfi, o = CAcked ps now pto rtt bfi /\ exists p f, In p ps /\ cc_outstanding p = true /\ c_fal c = Some f /\ p_pn p < f.
Proof.
  intros c o c' H U F L. destruct o as [p|ps now pto rtt bfi|first prev pto ps|p|p| |m]; cbn [cc_step] in H.
  - injection H as <-. pose proof (cc_sent_spec p c) as E. cbn zeta in E. destruct E as (_ & _ & _ & _ & _ & _ & _ & _ & E & _). lia.
  - exists ps, now, pto, rtt, bfi. split; [reflexivity|]. apply cc_acked_spec in H.
    destruct H as (c0 & D & _ & _ & _ & _ & _ & _ & _ & _ & N1 & _ & _ & _ & _ & _ & _ & _ & G & _). apply G. apply detect_spec in D.
    destruct D as (_ & _ & _ & _ & _ & _ & _ & _ & D). destruct D as [(_ & X & _)|(s & _ & S & _ & X & [(Y & Z & _)|(_ & W & _)])].
    + unfold cwnd in *. now rewrite X.
    + exfalso. apply U. split; [exact Y|]. split; [lia|]. eauto.
    + unfold cwnd in *. now rewrite W.
  - exfalso. apply cc_lost_spec in H. destruct H as (c1 & S & _ & _ & _ & _ & _ & H). destruct S as [sm_cur0 sm_wa0 sm_mtu0 sm_stored0 sm_spur0 sm_nloss0 sm_necn0 sm_nspur0].
    assert (W1 : cwnd c1 = cwnd c) by (unfold cwnd; congruence).
    destruct (trigger_of _) as [p|]; [|subst; lia]. cbn zeta in H. apply persistent_spec in H.
    assert (E : cwnd (fst (congestion_event false p c1)) <= cwnd c /\ c_mtu (fst (congestion_event false p c1)) = c_mtu c).
    { destruct (after_rec p c1) eqn:A; [|rewrite congestion_event_no by assumption; cbn; split; [lia|congruence]]. pose proof (event_yes false _ _ A) as E. cbn zeta in E.
      destruct E as (_ & _ & _ & _ & E1 & _ & _ & _ & _ & _ & E2 & _). rewrite E1, E2. split; [|congruence]. rewrite W1, sm_mtu0.
      apply N.max_lub; [|lia]. destruct (c_wa c1); cbn [wa_reduce fst]; [apply N.div_le_upper_bound; lia|]. apply N.div_le_upper_bound; lia. }
    destruct H as [->|(s & -> & _ & X & _)]; [lia|]. unfold cwnd in L at 2. cbn in L. rewrite X in L. unfold cwnd_min in L. lia.
  - exfalso. injection H as <-. unfold cc_ecn in L. destruct (after_rec p c) eqn:A; [|rewrite congestion_event_no in L by assumption; cbn in L; lia].
    pose proof (event_yes true _ _ A) as E. cbn zeta in E. destruct E as (_ & _ & _ & _ & _ & _ & _ & _ & _ & _ & E2 & _).
    assert (cwnd (fst (congestion_event true p c)) <= cwnd c); [|lia]. rewrite E2.
    apply N.max_lub; [|lia]. destruct (c_wa c); cbn [wa_reduce fst]; apply N.div_le_upper_bound; lia.
  - exfalso. unfold cc_discard in H. destruct (cc_outstanding p); [destruct (_ <=? _); [|discriminate]|]; injection H as <-; unfold cwnd in L; cbn in L; lia.
  - exfalso. injection H as <-. unfold cwnd in L; cbn in L; lia.
  - exfalso. injection H as <-. unfold cwnd in L; cbn in L; lia.
Qed.

(** ** The stored state and the lost packets *)
Lemma step_nloss : forall c o c', cc_step c o = Some c' ->
  (c_nloss c' = c_nloss c /\ (c_stored c' = c_stored c \/ c_stored c' = None)) \/
  (exists first prev pto ps, o = CLost first prev pto ps) /\ c_nloss c' = c_nloss c + 1 /\ c_stored c' = Some (c_cur c).
Proof.
  intros c o c' H. destruct o as [p|ps now pto rtt bfi|first prev pto ps|p|p| |m]; cbn [cc_step] in H.
  - injection H as <-. left. pose proof (cc_sent_spec p c) as E. cbn zeta in E. split; [apply E|left; apply E].
  - left. apply cc_acked_spec in H. destruct H as (c0 & D & _ & _ & E & _ & _ & _ & _ & St & _). split; [exact E|]. apply detect_spec in D.
    destruct D as (_ & _ & _ & _ & _ & _ & _ & _ & D). destruct D as [(_ & _ & _ & X)|(s & _ & _ & X & _)]; [left|right]; congruence.
  - apply cc_lost_spec in H. destruct H as (c1 & S & _ & _ & _ & _ & _ & H). destruct S as [sm_cur0 sm_wa0 sm_mtu0 sm_stored0 sm_spur0 sm_nloss0 sm_necn0 sm_nspur0].
    destruct (trigger_of _) as [p|]; [|subst; left; split; [congruence|left; congruence]]. cbn zeta in H. apply persistent_spec in H.
    destruct (after_rec p c1) eqn:A.
    + right. split; [eauto|]. pose proof (event_yes false _ _ A) as E. cbn zeta in E. destruct E as (_ & _ & _ & _ & _ & _ & _ & _ & _ & _ & _ & E1 & _ & E2).
      destruct H as [->|(s & -> & _)]; cbn; split; congruence.
    + left. rewrite congestion_event_no in H by assumption. cbn [fst] in H. destruct H as [->|(s & -> & _)]; cbn; split; try congruence; left; congruence.
  - left. injection H as <-. unfold cc_ecn. destruct (after_rec p c) eqn:A; [|rewrite congestion_event_no by assumption; cbn; auto]. pose proof (event_yes true _ _ A) as E. cbn zeta in E.
    destruct E as (_ & _ & _ & _ & _ & _ & _ & _ & _ & _ & _ & E1 & _ & E2). split; [congruence|left; congruence].
  - left. unfold cc_discard in H. destruct (cc_outstanding p); [destruct (_ <=? _); [|discriminate]|]; injection H as <-; auto.
  - left. injection H as <-. auto.
  - left. injection H as <-. auto.
Qed.
Lemma stored_runs : forall ini ops c s, c_stored ini = None -> cc_runs ini ops = Some c -> c_stored c = Some s ->
  exists a first prev pto ps b c0 c1, ops = a ++ CLost first prev pto ps :: b /\ cc_runs ini a = Some c0 /\ cc_step c0 (CLost first prev pto ps) = Some c1 /\
    c_nloss c1 = c_nloss c0 + 1 /\ c_nloss c = c_nloss c1 /\ cc_runs c1 b = Some c /\ s = c_cur c0.
Proof.
  intros ini ops. induction ops as [|o ops IH] using rev_ind; intros c s S0 H Hs; [injection H as <-; congruence|].
  apply cc_runs_snoc in H. destruct H as (c1 & R & S). destruct (step_nloss _ _ _ S) as [(E1 & E2)|((first & prev & pto & ps & ->) & E1 & E2)].
  - destruct (IH c1 s S0 R) as (a & first & prev & pto & ps & b & d0 & d1 & X & X1 & X2 & X3 & X4 & X5 & X6); [destruct E2; congruence|].
    exists a, first, prev, pto, ps, (b ++ [o]), d0, d1. splits; auto; [rewrite X, <- app_assoc; reflexivity|congruence|]. rewrite cc_runs_app, X5. cbn. now rewrite S.
  - exists ops, first, prev, pto, ps, [], c1, c. splits; auto. congruence.
Qed.
(** Every lost packet is remembered until it is forgiven. *)
Definition key_of (p : pkt) : N * ptype * N := (p_pn p, p_type p, p_time p).
Lemma lost_loop_keys : forall ps c c', lost_loop ps c = Some c' ->
  incl (c_lost c) (c_lost c') /\ (forall p, In p ps -> cc_in_flight p = true -> p_probe p = false -> In (key_of p) (c_lost c')) /\
  (forall x, In x (c_lost c') -> In x (c_lost c) \/ exists p, In p ps /\ cc_in_flight p = true /\ p_probe p = false /\ x = key_of p).
Proof.
  induction ps as [|p ps IH]; intros c c' H; cbn [lost_loop] in H; [injection H as <-; splits; auto; [apply incl_refl|intros p []]|].
  destruct (cc_in_flight p) eqn:F.
  - destruct (p_probe p) eqn:P.
    + apply IH in H. destruct H as (A & B & C). cbn in A, C. splits; auto; [intros q [<-|Q] Q1 Q2; [congruence|auto]|].
      intros x X. destruct (C x X) as [Y|(q & Q & Y)]; [now left|right; exists q; split; [now right|exact Y]].
    + destruct (existsb _ _); [discriminate|]. apply IH in H. destruct H as (A & B & C). cbn in A, C. splits.
      * intros x X. apply A. now right.
      * intros q [<-|Q] Q1 Q2; [apply A; now left|auto].
      * intros x X. destruct (C x X) as [[Y|Y]|(q & Q & Y)]; [right; exists p; splits; auto; now left|now left|right; exists q; split; [now right|exact Y]].
  - apply IH in H. destruct H as (A & B & C). splits; auto; [intros q [<-|Q] Q1 Q2; [congruence|auto]|].
    intros x X. destruct (C x X) as [Y|(q & Q & Y)]; [now left|right; exists q; split; [now right|exact Y]].
Qed.
Lemma ptype_eqb_eq : forall a b, ptype_eqb a b = true -> a = b.
Proof. intros [] []; cbn; intros; congruence. Qed.
Lemma detect_keys : forall now pto ps c c' x, detect_spurious ps (cleanup now pto c) = Some c' -> In x (c_lost c) ->
  In x (c_lost c') \/ 2 * pto < now - snd x \/ exists q, In q ps /\ p_pn q = fst (fst x) /\ p_type q = snd (fst x).
Proof.
  intros now pto ps c c' x H X. unfold detect_spurious, cleanup in H. cbn [c_lost with_lost] in H.
  destruct (now - snd x <=? pto * 2) eqn:Old; [|right; left; lia].
  assert (X1 : In x (filter (fun x => now - snd x <=? pto * 2) (c_lost c))) by (apply filter_In; auto).
  destruct (filter (fun x => now - snd x <=? pto * 2) (c_lost c)) as [|y l] eqn:E; [destruct X1|]. rewrite <- E in *. clear E y l.
  destruct (existsb (fun p => same_key p x) ps) eqn:Ex.
  { right. right. apply existsb_exists in Ex. destruct Ex as (q & Q & K). unfold same_key in K. apply andb_true_iff in K. destruct K as [K1 K2].
    exists q. splits; auto; [lia|now apply ptype_eqb_eq]. }
  set (l' := filter (fun x => negb _) _) in *. assert (X2 : In x l') by (apply filter_In; split; [exact X1|now rewrite Ex]).
  destruct l' as [|y l']; [destruct X2|]. injection H as <-. left. exact X2.
Qed.
Lemma step_keys : forall c o c' x, cc_step c o = Some c' -> In x (c_lost c) -> In x (c_lost c') \/
  exists ps now pto rtt bfi, o = CAcked ps now pto rtt bfi /\ (2 * pto < now - snd x \/ exists q, In q ps /\ p_pn q = fst (fst x) /\ p_type q = snd (fst x)).
Proof.
  intros c o c' x H X. destruct o as [p|ps now pto rtt bfi|first prev pto ps|p|p| |m]; cbn [cc_step] in H.
  - injection H as <-. left. pose proof (cc_sent_spec p c) as E. cbn zeta in E. destruct E as (_ & _ & _ & _ & _ & _ & _ & E & _). now rewrite E.
  - apply cc_acked_spec in H. destruct H as (c0 & D & _ & _ & _ & _ & L & _). rewrite L. destruct (detect_keys _ _ _ _ _ _ D X) as [Y|Y]; [now left|right; eauto 9].
  - left. apply cc_lost_spec in H. destruct H as (c1 & S & _ & _ & _ & L1 & L2 & H).
    assert (X1 : In x (c_lost c1)). { destruct ps as [|p ps]; [now rewrite L2|]. assert (NE : p :: ps <> []) by discriminate. specialize (L1 NE). apply lost_loop_keys in L1. now apply L1. }
    destruct (trigger_of _) as [p|]; [|now subst]. cbn zeta in H. apply persistent_spec in H.
    assert (E : c_lost (fst (congestion_event false p c1)) = c_lost c1).
    { destruct (after_rec p c1) eqn:A; [|now rewrite congestion_event_no]. pose proof (event_yes false _ _ A) as E. cbn zeta in E. apply E. }
    destruct H as [->|(s & -> & _)]; cbn; now rewrite E.
  - left. injection H as <-. unfold cc_ecn. destruct (after_rec p c) eqn:A; [|now rewrite congestion_event_no]. pose proof (event_yes true _ _ A) as E. cbn zeta in E.
    destruct E as (_ & _ & E & _). now rewrite E.
  - left. unfold cc_discard in H. destruct (cc_outstanding p); [destruct (_ <=? _); [|discriminate]|]; injection H as <-; exact X.
  - left. injection H as <-. exact X.
  - left. injection H as <-. exact X.
Qed.
Lemma runs_keys : forall b c c' p, cc_runs c b = Some c' -> In (key_of p) (c_lost c) -> In (key_of p) (c_lost c') \/ forgiven b p.
Proof.
  induction b as [|o b IH]; intros c c' p H X; cbn in H; [injection H as <-; now left|]. destruct (cc_step c o) as [c1|] eqn:S; [|discriminate].
  destruct (step_keys _ _ _ _ S X) as [Y|(ps & now & pto & rtt & bfi & -> & Y)].
  - destruct (IH _ _ p H Y) as [Z|(ps & now & pto & rtt & bfi & I & Z)]; [now left|right]. exists ps, now, pto, rtt, bfi. split; [now right|exact Z].
  - right. exists ps, now, pto, rtt, bfi. split; [now left|]. cbn in Y. destruct Y as [Y|Y]; auto.
Qed.
