(** Proofs about loss recovery together with the congestion controllers: one step, and histories. *)
From Coq Require Import Sorted Permutation.
From Verif Require Import Base Lib FcModel LrModel LrSpec LrProofs LrProofs2 LrProofs3 LrProofs4 LrProofs5 LrProofs6.
From Verif Require Import CcModel CcSpec CcProofs CcProofs2 CcProofs3 CcProofs4.

Definition progress (y : sys) (x : option sys) (ops : list lop) : Prop :=
  exists y' T last gone, x = Some y' /\ SI T last gone y' /\ uses T last gone ops /\ length (y_paths y') = length (y_paths y).

Lemma flight_same : forall r r', (forall sp, tracked sp r' = tracked sp r) -> flight r' = flight r.
Proof. intros r r' H. unfold flight. now rewrite !H. Qed.
Lemma quiet : forall T last gone y T' last' gone' r' i c e x ops, SI T last gone y -> x = Some (r', no_out) -> INV T' last' gone' r' -> TI last' r' ->
  uses T' last' gone' ops ->
  (forall sp, eff sp (tracked sp (y_lr y)) (tracked sp r') no_out) -> (forall sp, sent_ok_in (last sp) (last' sp) (pns sp (ev_sent (o_cc no_out)))) ->
  nth_error (y_paths y) i = Some c -> flight r' = flight (y_lr y) -> progress y (lift y i x e) ops.
Proof.
  intros T last gone y T' last' gone' r' i c e x ops S X I1 I2 U E So Nc F. pose proof S as [_ _ S3 _]. destruct (S3 _ _ Nc) as (G & K & B).
  destruct (lift_ok _ _ _ _ _ _ _ _ _ i c c e _ S X I1 I2 E So Nc) as (y' & L & S' & Le); auto; [now rewrite F|]. exists y', T', last', gone'. auto.
Qed.

Lemma step_sent : forall T last gone y i t pn time ae tokens len probe ops, SI T last gone y -> (i < length (y_paths y))%nat ->
  uses T last gone (LSent true t pn time ae tokens len probe :: ops) -> progress y (sys_step y (SSent i t pn time ae tokens len probe)) ops.
Proof.
  intros T last gone y i t pn time ae tokens len probe ops S Hi U. destruct (nth_error (y_paths y) i) as [c|] eqn:Nc; [|apply nth_error_None in Nc; lia].
  pose proof S as [S1 S2 S3 S4]. set (prim := Nat.eqb i (y_prim y)).
  destruct (step_ok _ _ _ _ (LSent prim t pn time ae tokens len probe) ops S1 S2 U) as (r' & out & T' & last' & gone' & R & I1 & I2 & U' & E & So & _).
  cbn [uses] in U. destruct U as (U1 & U2 & _). destruct (sent_ok _ _ _ _ prim t pn time ae tokens len probe S1 U1 U2) as (r2 & out2 & R2 & _ & _ & Fr & D).
  cbn [lr_step] in R. rewrite R2 in R. apply some_inj in R. apply pair_equal_spec in R. destruct R as [<- <-]. cbn [sys_step]. fold prim.
  destruct (get_sp (space_of t) (y_lr y)) as [s|] eqn:Gs.
  - cbn zeta in D. destruct D as [D ->]. set (p := if prim then _ else _) in *. destruct (S3 _ _ Nc) as (G & K & B). destruct (run_sent p c G) as (G' & L' & B').
    assert (FL : flight r2 = flight (y_lr y) + (if cc_in_flight p then p_len p else 0)).
    { pose proof (flight_one (space_of t) (y_lr y) r2) as FO. rewrite D, in_flight_app, in_flight_cons in FO. change (in_flight []) with 0 in FO.
      assert (cc_outstanding p = cc_in_flight p) by (unfold cc_outstanding, cc_in_flight, p; destruct prim; cbn; now rewrite ?andb_true_r). rewrite H in FO.
      assert (A : forall sp', sp' <> space_of t -> tracked sp' r2 = tracked sp' (y_lr y)) by (intros sp' Ns; apply get_tracked, Fr, Ns). specialize (FO A). lia. }
    destruct (lift_ok _ _ _ _ _ _ _ _ _ i c (cc_sent p c) no_env _ S R2 I1 I2 E So Nc) as (y' & Ly & Sy & Le); auto.
    + intros z Z. left. now rewrite <- L'.
    + rewrite B', B, FL. fold prim. destruct prim eqn:Ep; [reflexivity|]. unfold p, cc_in_flight. cbn. now rewrite andb_false_r.
    + destruct (Nat.eqb_spec i (y_prim y)) as [->|Ne]; [now left|right]. rewrite FL. unfold p, prim, cc_in_flight. cbn. rewrite andb_false_r. lia.
    + exists y', T', last', gone'. auto.
  - destruct D as [D ->]. eapply quiet; eauto. apply flight_same. intros sp. destruct (space_eqb sp (space_of t)) eqn:Q; [apply space_eqb_eq in Q; subst sp; unfold tracked; now rewrite D, Gs|].
    apply get_tracked, Fr. intros ->. rewrite space_eqb_refl in Q. discriminate.
Qed.

Lemma ack_sample_cops : forall e rs delay now s cf, flat_map (cops_of e) (ack_sample rs delay now s cf) = [].
Proof. intros. unfold ack_sample. destruct (taken rs (l_pkts s)); [reflexivity|]. destruct (_ && _); reflexivity. Qed.

Lemma step_ack : forall T last gone y sp rs delay now ld base e ops, SI T last gone y -> env_ok e ->
  uses T last gone (LAck sp rs delay now ld base :: ops) -> progress y (sys_step y (SAck sp rs delay now ld base e)) ops.
Proof.
  intros T last gone y sp rs delay now ld base e ops S (EO1 & EO2) U. destruct (prim_path _ _ _ _ S) as (c & Nc & (G & K & _) & B). pose proof S as [S1 S2 S3 S4].
  destruct (step_ok _ _ _ _ (LAck sp rs delay now ld base) ops S1 S2 U) as (r' & out & T' & last' & gone' & R & I1 & I2 & U' & E & So & _).
  cbn [uses] in U. destruct U as (U1 & U2 & _). destruct (ack_ok _ _ _ _ sp rs delay now ld base S1 U1 U2) as (r2 & out2 & R2 & _ & _ & Fr & D).
  cbn [lr_step] in R. rewrite R2 in R. apply some_inj in R. apply pair_equal_spec in R. destruct R as [<- <-]. cbn [sys_step].
  destruct (get_sp sp (y_lr y)) as [s|] eqn:Gs.
  2:{ destruct D as [-> ->]. eapply quiet; eauto. }
  cbn zeta in D. destruct D as (s' & Gs' & _ & _ & D).
  destruct (taken rs (l_pkts s)) as [|big tk] eqn:Tk.
  { destruct D as (D & _ & -> & _). eapply quiet; eauto. apply flight_same. intros sp'. destruct (space_eqb sp' sp) eqn:Q; [apply space_eqb_eq in Q; subst sp'; unfold tracked; now rewrite Gs, Gs'|].
    apply get_tracked, Fr. intros ->. rewrite space_eqb_refl in Q. discriminate. }
  rewrite <- Tk in D. destruct D as (D & _ & _ & Do). set (la := new_largest _ _ _) in *. set (cd := pto_period _ _) in *. set (un := untaken rs (l_pkts s)) in *. set (ls := lost_detect now ld cd la un) in *.
  destruct (inv_tracked _ _ _ _ sp S1) as (P1 & P2 & _). rewrite (tracked_get _ _ _ Gs) in P1, P2.
  destruct (lost_detect_facts now ld cd la un sp) as (Q1 & Q2 & Q3); [apply ss_filter; exact P1|apply Forall_filter; exact P2|]. fold ls in Q1, Q2, Q3.
  assert (Eo : o_lost out2 = ls) by (rewrite Do; reflexivity). assert (Ec : flat_map (cops_of e) (o_cc out2) = CLost (e_first e) (l_largest_time s) (e_pto e) ls :: (if e_ce e then [CEcn big] else []) ++ [CAcked (taken rs (l_pkts s)) (e_now e) (e_pto e) (e_rtt e) (e_bfi e)]).
  { rewrite Do. cbn [o_cc]. rewrite flat_map_app, ack_sample_cops. cbn [flat_map cops_of app]. rewrite Tk. now rewrite app_nil_r. }
  destruct (known_step _ _ _ _ _ _ _ _ S1 K E So) as [_ KS]. rewrite Eo in KS.
  destruct (run_lost (e_first e) (l_largest_time s) (e_pto e) ls sp c G Q1 Q2) as (c1 & R1 & G1 & B1 & K1).
  { intros x p X P Sx Ex. rewrite Forall_forall in Q2. specialize (Q2 p P). unfold of_space in Q2. apply space_eqb_eq in Q2. destruct (KS p P (proj1 (Q3 p P))) as (_ & _ & Y). apply (Y x X); [congruence|exact Ex]. }
  set (c2 := if e_ce e then cc_ecn big c1 else c1).
  assert (X2 : good c2 /\ c_lost c2 = c_lost c1 /\ c_bif c2 = c_bif c1) by (unfold c2; destruct (e_ce e); [apply run_ecn; exact G1|auto]). destruct X2 as (G2 & L2 & B2).
  destruct (run_acked (taken rs (l_pkts s)) (e_now e) (e_pto e) (e_rtt e) (e_bfi e) c2) as (c3 & R3 & G3 & L3 & B3); auto; [rewrite Tk; discriminate|].
  destruct (lift_ok _ _ _ _ _ _ _ _ _ (y_prim y) c c3 e _ S R2 I1 I2 E So Nc) as (y' & Ly & Sy & Le); auto.
  - rewrite Ec. cbn [cc_runs cc_step]. rewrite R1. unfold c2 in R3. destruct (e_ce e); cbn [app cc_runs cc_step]; now rewrite R3.
  - intros z Z. apply L3 in Z. rewrite L2 in Z. destruct (K1 z Z) as [Y|(p & P & Y)]; [now left|right]. exists p. rewrite Eo. splits; auto. apply Q3, P.
  - rewrite Nat.eqb_refl, B3, B2, B1, B, <- in_flight_eq.
    assert (A : forall sp', sp' <> sp -> tracked sp' r2 = tracked sp' (y_lr y)) by (intros sp' Ns; apply get_tracked, Fr, Ns). pose proof (flight_one sp _ _ A) as FO.
    rewrite (tracked_get _ _ _ Gs), (tracked_get _ _ _ Gs'), D in FO. pose proof (taken_flight rs (l_pkts s)) as TF. pose proof (detect_flight now ld cd la un) as DF. fold ls in DF. fold un in TF. lia.
  - exists y', T', last', gone'. auto.
Qed.

Lemma run_detect : forall T last gone r e now ld cd sp c, INV T last gone r -> good c ->
  (forall x p, In x (c_lost c) -> In p (lost_sp now ld cd (get_sp sp r)) -> space_of (snd (fst x)) = sp -> fst (fst x) <> p_pn p) ->
  exists c', cc_runs c (flat_map (cops_of e) (cc_sp now ld cd (get_sp sp r))) = Some c' /\ good c' /\ c_bif c' = c_bif c - total_len (filter cc_in_flight (lost_sp now ld cd (get_sp sp r))) /\
    forall x, In x (c_lost c') -> In x (c_lost c) \/ exists p, In p (lost_sp now ld cd (get_sp sp r)) /\ x = key_of p.
Proof.
  intros T last gone r e now ld cd sp c I G F. destruct (get_sp sp r) as [s|] eqn:Gs; cbn [cc_sp lost_sp] in *.
  - destruct (inv_tracked _ _ _ _ sp I) as (P1 & P2 & _). rewrite (tracked_get _ _ _ Gs) in P1, P2. destruct (lost_detect_facts now ld cd (l_largest s) (l_pkts s) sp P1 P2) as (Q1 & Q2 & Q3).
    destruct (run_lost (e_first e) (l_largest_time s) (e_pto e) _ sp c G Q1 Q2) as (c1 & R1 & G1 & B1 & K1); [exact F|].
    exists c1. cbn [flat_map cops_of app cc_runs cc_step]. rewrite R1. auto.
  - exists c. cbn. splits; auto. change (total_len []) with 0. lia.
Qed.

Lemma step_timeout : forall T last gone y now ld base mtu keys e ops, SI T last gone y -> env_ok e ->
  uses T last gone (LTimeout now ld base mtu keys :: ops) -> progress y (sys_step y (STimeout now ld base mtu keys e)) ops.
Proof.
  intros T last gone y now ld base mtu keys e ops S (EO1 & EO2) U. destruct (prim_path _ _ _ _ S) as (c & Nc & (G & K & _) & B). pose proof S as [S1 S2 S3 S4].
  destruct (step_ok _ _ _ _ (LTimeout now ld base mtu keys) ops S1 S2 U) as (r' & out & T' & last' & gone' & R & I1 & I2 & U' & E & So & _).
  cbn [uses] in U. destruct U as (U1 & _). destruct (timeout_ok _ _ _ _ now ld base mtu keys S1 U1) as (r2 & out2 & rd & t & R2 & _ & _ & De & _ & _ & Do & _ & _ & Ff).
  cbn [lr_step] in R. rewrite R2 in R. apply some_inj in R. apply pair_equal_spec in R. destruct R as [<- <-]. cbn [sys_step].
  set (cd := pto_period base (y_lr y)) in *.
  assert (FL : forall sp, in_flight (tracked sp r2) + total_len (filter cc_in_flight (lost_sp now ld cd (get_sp sp (y_lr y)))) = in_flight (tracked sp (y_lr y))).
  { intros sp. specialize (De sp). assert (E1 : in_flight (tracked sp r2) = in_flight (tracked sp rd)).
    { destruct (fires base now rd).
      - destruct Ff as (rp & Fg & Tr & _). rewrite Tr. specialize (Fg sp). unfold tracked. destruct (get_sp sp rd) as [a|], (get_sp sp rp) as [b|]; try contradiction; [|reflexivity].
        destruct Fg as (size & l' & n & -> & Fg). cbn [with_pkts l_pkts]. destruct (sp_in sp _); [now apply pto_loop_flight in Fg|]. destruct Fg as [-> _]. reflexivity.
      - destruct Ff as (_ & Tr & _). unfold tracked. now rewrite Tr. }
    rewrite E1. unfold tracked. destruct (get_sp sp (y_lr y)) as [s|], (get_sp sp rd) as [s'|]; cbn [detected] in De; try contradiction; [|reflexivity].
    destruct De as (_ & -> & _). cbn [lost_sp]. apply detect_flight. }
  assert (Il : forall sp p, In p (lost_sp now ld cd (get_sp sp (y_lr y))) -> In p (o_lost out2) /\ is_lost p = true /\ space_of (p_type p) = sp).
  { intros sp p P. splits.
    - rewrite Do. cbn [o_lost]. unfold detected_lists. rewrite !in_app_iff. destruct sp; cbn [get_sp] in P; tauto.
    - rewrite <- (lost_sp_all now ld cd (get_sp sp (y_lr y))) in P. apply filter_In in P. apply P.
    - pose proof (lost_sp_space _ _ _ _ sp now ld cd S1) as L. rewrite Forall_forall in L. specialize (L p P). unfold of_space in L. now apply space_eqb_eq in L. }
  destruct (known_step _ _ _ _ _ _ _ _ S1 K E So) as [_ KS].
  assert (Fr0 : forall sp x p, In x (c_lost c) -> In p (lost_sp now ld cd (get_sp sp (y_lr y))) -> space_of (snd (fst x)) = sp -> fst (fst x) <> p_pn p).
  { intros sp x p X P Sx. destruct (Il sp p P) as (A1 & A2 & A3). destruct (KS p A1 A2) as (_ & _ & Y). apply (Y x X). congruence. }
  destruct (run_detect _ _ _ _ e now ld cd SpInitial c S1 G (Fr0 SpInitial)) as (c1 & R1 & G1 & B1 & K1).
  destruct (run_detect _ _ _ _ e now ld cd SpHandshake c1 S1 G1) as (c2 & R3 & G2 & B2 & K2).
  { intros x p X P Sx. destruct (K1 x X) as [Y|(q & Q & ->)]; [apply (Fr0 SpHandshake x p Y P Sx)|]. destruct (Il _ _ Q) as (_ & _ & Z). cbn in Sx. congruence. }
  destruct (run_detect _ _ _ _ e now ld cd SpApp c2 S1 G2) as (c3 & R4 & G3 & B3 & K3).
  { intros x p X P Sx. destruct (K2 x X) as [Y|(q & Q & ->)]; [|destruct (Il _ _ Q) as (_ & _ & Z); cbn in Sx; congruence]. destruct (K1 x Y) as [Y'|(q & Q & ->)]; [apply (Fr0 SpApp x p Y' P Sx)|]. destruct (Il _ _ Q) as (_ & _ & Z). cbn in Sx. congruence. }
  destruct (lift_ok _ _ _ _ _ _ _ _ _ (y_prim y) c c3 e _ S R2 I1 I2 E So Nc) as (y' & Ly & Sy & Le); auto.
  - rewrite Do. cbn [o_cc]. cbn [get_sp] in R1, R3, R4. now rewrite !flat_map_app, cc_runs_app, R1, cc_runs_app, R3.
  - intros z Z. destruct (K3 z Z) as [Y|(p & P & ->)]; [|right; exists p; destruct (Il _ _ P) as (A1 & A2 & _); auto].
    destruct (K2 z Y) as [Y2|(p & P & ->)]; [|right; exists p; destruct (Il _ _ P) as (A1 & A2 & _); auto].
    destruct (K1 z Y2) as [Y3|(p & P & ->)]; [now left|right; exists p; destruct (Il _ _ P) as (A1 & A2 & _); auto].
  - rewrite Nat.eqb_refl, B3, B2, B1, B. unfold flight. pose proof (FL SpInitial). pose proof (FL SpHandshake). pose proof (FL SpApp). lia.
  - exists y', T', last', gone'. auto.
Qed.

(** Steps that only drop packets. *)
Lemma step_drop : forall T last gone y o ops r' out T' last' gone' d x, SI T last gone y -> lr_step (y_lr y) o = Some (r', out) -> x = Some (r', out) ->
  INV T' last' gone' r' -> TI last' r' -> uses T' last' gone' ops ->
  (forall sp, eff sp (tracked sp (y_lr y)) (tracked sp r') out) -> (forall sp, sent_ok_in (last sp) (last' sp) (pns sp (ev_sent (o_cc out)))) ->
  o_cc out = map CcDiscard d -> flight r' + in_flight d = flight (y_lr y) -> progress y (lift y (y_prim y) x no_env) ops.
Proof.
  intros T last gone y o ops r' out T' last' gone' d x S _ X I1 I2 U E So Oc F. destruct (prim_path _ _ _ _ S) as (c & Nc & (G & K & _) & B).
  destruct (run_discards no_env d c G) as (c' & Rc & G' & L' & B'); [lia|].
  destruct (lift_ok _ _ _ _ _ _ _ _ _ (y_prim y) c c' no_env _ S X I1 I2 E So Nc) as (y' & Ly & Sy & Le); auto.
  - now rewrite Oc.
  - intros z Z. left. now rewrite <- L'.
  - rewrite Nat.eqb_refl. lia.
  - exists y', T', last', gone'. auto.
Qed.
Lemma step_drop0 : forall T last gone y ops, SI T last gone y -> uses T last gone (LDrop0 :: ops) -> progress y (sys_step y SDrop0) ops.
Proof.
  intros T last gone y ops S U. pose proof S as [S1 S2 S3 S4]. destruct (step_ok _ _ _ _ LDrop0 ops S1 S2 U) as (r' & out & T' & last' & gone' & R & I1 & I2 & U' & E & So & _).
  pose proof (drop0_ok _ _ _ _ S1) as D. pose proof R as R'. cbn [lr_step] in R'. cbn [sys_step]. destruct (lr_drop_0rtt (y_lr y)) as [r2 out2] eqn:L0. apply some_inj in R'. apply pair_equal_spec in R'. destruct R' as [-> ->].
  destruct D as (_ & _ & Fr & D). assert (A : forall sp', sp' <> SpApp -> tracked sp' r' = tracked sp' (y_lr y)) by (intros sp' Ns; apply get_tracked, Fr, Ns). pose proof (flight_one SpApp _ _ A) as FO.
  assert (Oc : o_cc out = map CcDiscard (o_dropped out)).
  { unfold lr_drop_0rtt in L0. destruct (r_a (y_lr y)) as [s|]; [destruct (l_largest s)|]; try (apply pair_equal_spec in L0; destruct L0 as [_ <-]; reflexivity). }
  eapply step_drop; eauto. destruct (r_a (y_lr y)) as [s|] eqn:Ra.
  - destruct (l_largest s); [destruct D as [-> ->]; cbn; change (in_flight []) with 0; lia|]. destruct D as [D1 D2]. rewrite D1 in FO. rewrite D2. change (in_flight []) with 0 in FO. lia.
  - destruct D as [-> ->]. cbn. change (in_flight []) with 0. lia.
Qed.
Lemma step_retry : forall T last gone y ops, SI T last gone y -> uses T last gone (LRetry :: ops) -> progress y (sys_step y SRetry) ops.
Proof.
  intros T last gone y ops S U. pose proof S as [S1 S2 S3 S4]. destruct (step_ok _ _ _ _ LRetry ops S1 S2 U) as (r' & out & T' & last' & gone' & R & I1 & I2 & U' & E & So & _).
  pose proof (retry_ok _ _ _ _ S1) as D. pose proof R as R'. cbn [lr_step] in R'. cbn [sys_step]. destruct (lr_retry (y_lr y)) as [r2 out2] eqn:L0. apply some_inj in R'. apply pair_equal_spec in R'. destruct R' as [-> ->].
  destruct D as (_ & _ & Tn & D1 & D2). eapply step_drop; eauto. unfold flight. rewrite !Tn, D1, !in_flight_app. change (in_flight []) with 0. lia.
Qed.
Lemma step_discard : forall T last gone y sp base now ops, SI T last gone y -> uses T last gone (LDiscard sp base now :: ops) -> progress y (sys_step y (SDiscard sp base now)) ops.
Proof.
  intros T last gone y sp base now ops S U. pose proof S as [S1 S2 S3 S4]. destruct (step_ok _ _ _ _ (LDiscard sp base now) ops S1 S2 U) as (r' & out & T' & last' & gone' & R & I1 & I2 & U' & E & So & _).
  cbn [uses] in U. destruct U as (U1 & U2 & U3 & _). destruct (discard_ok _ _ _ _ sp base now S1 U1 U2 U3) as (r2 & out2 & R2 & _ & _ & Gn & D1 & D2 & Fr).
  pose proof R as R'. cbn [lr_step] in R'. rewrite R2 in R'. apply some_inj in R'. apply pair_equal_spec in R'. destruct R' as [-> ->]. cbn [sys_step].
  assert (A : forall sp', sp' <> sp -> tracked sp' r' = tracked sp' (y_lr y)) by (intros sp' Ns; apply get_tracked, Fr, Ns). pose proof (flight_one sp _ _ A) as FO.
  assert (Z : tracked sp r' = []) by (unfold tracked; now rewrite Gn). rewrite Z in FO. change (in_flight []) with 0 in FO. eapply step_drop; eauto. lia.
Qed.
Lemma step_profile : forall T last gone y mtu avail paced rec ops, SI T last gone y -> uses T last gone (LProfile mtu avail paced rec :: ops) -> progress y (sys_step y (SProfile mtu avail paced rec)) ops.
Proof.
  intros T last gone y mtu avail paced rec ops S U. pose proof S as [S1 S2 S3 S4]. destruct (step_ok _ _ _ _ (LProfile mtu avail paced rec) ops S1 S2 U) as (r' & out & T' & last' & gone' & R & I1 & I2 & U' & E & So & _).
  cbn [uses] in U. destruct U as (U1 & _). destruct (profile_ok _ _ _ _ mtu avail paced rec S1 U1) as (r2 & pf & R2 & _ & Fr).
  pose proof R as R'. cbn [lr_step] in R'. rewrite R2 in R'. apply some_inj in R'. apply pair_equal_spec in R'. destruct R' as [-> <-]. cbn [sys_step].
  destruct (prim_path _ _ _ _ S) as (c & Nc & _). eapply quiet; eauto. apply flight_same. intros sp. apply get_tracked, Fr.
Qed.
Lemma migrated : forall l, in_flight (map clear_primary l) = 0.
Proof. induction l as [|p l IH]; [reflexivity|]. cbn [map]. rewrite in_flight_cons, IH. unfold cc_outstanding. cbn. now rewrite andb_false_r. Qed.
Lemma step_primary : forall T last gone y i ops, SI T last gone y -> (i < length (y_paths y))%nat -> uses T last gone ops -> progress y (sys_step y (SPrimary i true)) ops.
Proof.
  intros T last gone y i ops S Hi U. pose proof S as [S1 S2 S3 S4]. cbn [sys_step]. destruct (prim_path _ _ _ _ S) as (c & Nc & (G & K & _) & B). rewrite Nc.
  destruct (nth_error (y_paths y) i) as [ci|] eqn:Ni; [|apply nth_error_None in Ni; lia]. destruct (Nat.eqb_spec i (y_prim y)) as [->|Ne]; [exists y, T, last, gone; auto|].
  destruct (step_ok _ _ _ _ LMigrate ops S1 S2 U) as (r' & out & T' & last' & gone' & R & I1 & I2 & U' & E & So & _).
  pose proof R as R'. cbn [lr_step] in R'. apply some_inj in R'. apply pair_equal_spec in R'. destruct R' as [<- <-]. destruct (migrate_ok _ _ _ _ S1) as (_ & _ & Tm).
  assert (F0 : flight (lr_migrate (y_lr y)) = 0) by (unfold flight; rewrite !Tm, !migrated; reflexivity).
  eexists. exists T', last', gone'. split; [reflexivity|]. splits; auto; [|cbn; apply upd_length]. constructor; cbn [y_lr y_paths y_prim]; auto; [|now rewrite upd_length].
  intros j d Hj. unfold path_inv. cbn [y_lr y_prim]. rewrite F0. apply upd_nth_eq in Hj. destruct Hj as [(<- & ->)|(Nij & Hj)].
  - splits; [exact G|exact (proj1 (known_step _ _ _ _ _ _ _ _ S1 K E So))|]. cbn. now destruct (_ =? _)%nat.
  - destruct (S3 _ _ Hj) as (Gj & Kj & Bj). splits; [exact Gj|exact (proj1 (known_step _ _ _ _ _ _ _ _ S1 Kj E So))|]. rewrite Bj. destruct (Nat.eqb_spec j (y_prim y)) as [->|]; [now elim Nij|]. now destruct (_ =? _)%nat.
Qed.
Lemma step_path : forall T last gone y ss wa m spur, SI T last gone y -> 0 < m -> SI T last gone (mkSys (y_lr y) (y_paths y ++ [cc_new ss wa m spur]) (y_prim y)).
Proof.
  intros T last gone y ss wa m spur [S1 S2 S3 S4] M. constructor; cbn [y_lr y_paths y_prim]; auto; [|rewrite app_length; lia].
  intros i c Hi. destruct (Nat.lt_ge_cases i (length (y_paths y))) as [L|L].
  - rewrite nth_error_app1 in Hi by exact L. apply (S3 _ _ Hi).
  - rewrite nth_error_app2 in Hi by exact L. destruct (i - length (y_paths y))%nat as [|k]; [|destruct k; discriminate]. injection Hi as <-.
    unfold path_inv. cbn [y_lr y_prim]. splits; [apply good_new; exact M|intros x []|]. destruct (Nat.eqb_spec i (y_prim y)); [lia|reflexivity].
Qed.
Lemma step_mtu : forall T last gone y i m c, SI T last gone y -> 0 < m -> nth_error (y_paths y) i = Some c -> SI T last gone (mkSys (y_lr y) (upd_nth i (with_mtu m c) (y_paths y)) (y_prim y)).
Proof.
  intros T last gone y i m c [S1 S2 S3 S4] M Nc. constructor; cbn [y_lr y_paths y_prim]; auto; [|now rewrite upd_length].
  intros j d Hj. unfold path_inv. cbn [y_lr y_prim]. apply upd_nth_eq in Hj. destruct Hj as [(<- & ->)|(Nij & Hj)]; [|apply (S3 _ _ Hj)].
  destruct (S3 _ _ Nc) as ((F & W) & K & B). splits; [|exact K|exact B]. split; [|exact W]. apply (floor_step 1 c (CMtu m)); [reflexivity| |exact F]. intros m' X. injection X as <-. lia.
Qed.
Lemma sys_ok : forall ops T last gone y, SI T last gone y -> uses T last gone (flat_map lops ops) -> paths_ok (length (y_paths y)) ops ->
  exists y' T' last' gone', sys_runs y ops = Some y' /\ SI T' last' gone' y'.
Proof.
  induction ops as [|o ops IH]; intros T last gone y S U P; cbn [sys_runs]; [exists y, T, last, gone; auto|].
  assert (Go : forall x, sys_step y o = x -> progress y x (flat_map lops ops) -> paths_ok (length (y_paths y)) ops -> exists y' T' last' gone', match x with Some y' => sys_runs y' ops | None => None end = Some y' /\ SI T' last' gone' y').
  { intros x _ (y' & T' & last' & gone' & -> & S' & U' & L') P'. rewrite <- L' in P'. apply (IH _ _ _ _ S' U' P'). }
  cbn [flat_map] in U. destruct o; cbn [lops app] in U; cbn [paths_ok] in P.
  - apply Go; [reflexivity| |apply P]. eapply step_sent; eauto. apply P.
  - apply Go; [reflexivity| |apply P]. eapply step_ack; eauto. apply P.
  - apply Go; [reflexivity| |apply P]. eapply step_timeout; eauto. apply P.
  - apply Go; [reflexivity| |apply P]. eapply step_drop0; eauto.
  - apply Go; [reflexivity| |apply P]. eapply step_retry; eauto.
  - apply Go; [reflexivity| |apply P]. eapply step_discard; eauto.
  - apply Go; [reflexivity| |apply P]. eapply step_profile; eauto.
  - destruct P as (P1 & P2 & P3). apply Go; [reflexivity| |exact P3]. cbn [sys_step]. destruct (nth_error (y_paths y) i) as [c|] eqn:Nc; [|apply nth_error_None in Nc; lia].
    eexists. exists T, last, gone. split; [reflexivity|]. splits; auto; [apply step_mtu; auto|cbn; apply upd_length].
  - destruct P as (P1 & P2 & P3 & P4). cbn [sys_step]. eapply IH; [apply step_path; eauto|exact U|]. cbn [y_paths]. rewrite app_length. cbn. replace (length (y_paths y) + 1)%nat with (Datatypes.S (length (y_paths y))) by lia. exact P4.
  - destruct P as (P1 & -> & P3). apply Go; [reflexivity| |exact P3]. eapply step_primary; eauto.
Qed.
Lemma si_new : forall fast ss wa m spur, 0 < m -> SI 0 (fun _ => None) sp_none (sys_new fast ss wa m spur).
Proof.
  intros fast ss wa m spur M. destruct (inv_new fast) as (I1 & I2 & _). constructor; cbn; auto. intros [|[|i]] c H; try discriminate. injection H as <-.
  unfold path_inv. splits; [apply good_new; exact M|intros x []|reflexivity].
Qed.
