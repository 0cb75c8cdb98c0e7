From Coq Require Import NArith List Bool Lia.
From Verif Require Import Base Lib XsModel XsSpec XsProofs XsProofs3.
Import ListNotations.
Open Scope N_scope.

(** *** A session goes only when it is over or given up. *)
Lemma read_closed k s its : match x_read k s its with DFrame _ _ s' | DNothing _ s' | DError s' => x_closed s' = x_closed s end.
Proof. induction its as [|i r IH]; cbn [x_read]; [reflexivity|]. destruct i, k; try reflexivity; destruct (x_fin s && x_none r); try reflexivity; exact IH. Qed.
Lemma read_udp_closed fuel : forall s s' ev, x_read_udp fuel s = (Some s', ev) -> x_closed s' = x_closed s.
Proof.
  induction fuel as [|fuel IH]; intros s s' ev E; cbn [x_read_udp] in E; [injection E as <- _; reflexivity|].
  pose proof (read_closed XConnectUdp s (x_items s)) as R. destruct (x_read XConnectUdp s (x_items s)) as [i f s1|f s1|s1]; [| |discriminate E].
  - destruct i; try (destruct f; [injection E as <- _; exact R|rewrite <- R; exact (IH _ _ _ E)]).
    destruct f; [injection E as <- _; exact R|]. destruct (x_read_udp fuel s1) as [o e] eqn:E1. injection E as -> _. rewrite <- R. exact (IH _ _ _ E1).
  - destruct f; injection E as <- _; exact R.
Qed.
Lemma read_control_closed k s s' ev : x_read_control k s = (Some s', ev) -> x_closed s' = x_closed s.
Proof.
  destruct k; cbn [x_read_control]; [|apply read_udp_closed]. unfold x_read_wt. pose proof (read_closed XWebTransport s (x_items s)) as R.
  destruct (x_read XWebTransport s (x_items s)) as [i f s1|f s1|s1]; [| |discriminate].
  - destruct i; [intros E; injection E as <- _; exact R|..]; destruct f; intros E; injection E as <- _; exact R.
  - destruct f; intros E; injection E as <- _; exact R.
Qed.
Lemma step_gone c o c' ev a : x_step c o = (c', ev, a) ->
  (forall s', k_sess c' = Some s' -> x_closed s' = true -> (exists s, k_sess c = Some s /\ x_closed s = true) \/ exists e m ok d, o = OClose e m ok d) /\
  (k_sess c' = None -> k_sess c = None \/ (exists s, k_sess c = Some s /\ (x_closing (x_phase s) = true \/ x_closed s = true)) \/ (exists r, In (XEnd r) ev) \/
     (exists e m ok d, o = OClose e m ok d) \/ exists e, o = OCancel e).
Proof.
  unfold x_step. destruct (k_sess c) as [s|] eqn:S.
  2: { intros E. split; [|auto]. intros s' H. destruct o; injection E as <- _ _; cbn [k_sess] in H; congruence. }
  assert (Same : forall c1 s1, k_sess c1 = Some s1 -> x_closed s1 = x_closed s -> forall ev1,
    (forall s', k_sess c1 = Some s' -> x_closed s' = true -> (exists s0, Some s = Some s0 /\ x_closed s0 = true) \/ exists e m ok d, o = OClose e m ok d) /\
    (k_sess c1 = None -> Some s = None \/ (exists s0, Some s = Some s0 /\ (x_closing (x_phase s0) = true \/ x_closed s0 = true)) \/ (exists r, In (XEnd r) ev1) \/ (exists e m ok d, o = OClose e m ok d) \/ exists e, o = OCancel e)).
  { intros c1 s1 H1 H2 ev1. split; [|congruence]. intros s' H Hc. left. exists s. split; [reflexivity|]. congruence. }
  assert (Gone : forall c1 ev1, k_sess c1 = None -> (x_closing (x_phase s) = true \/ x_closed s = true \/ (exists r, In (XEnd r) ev1) \/ (exists e m ok d, o = OClose e m ok d) \/ exists e, o = OCancel e) ->
    (forall s', k_sess c1 = Some s' -> x_closed s' = true -> (exists s0, Some s = Some s0 /\ x_closed s0 = true) \/ exists e m ok d, o = OClose e m ok d) /\
    (k_sess c1 = None -> Some s = None \/ (exists s0, Some s = Some s0 /\ (x_closing (x_phase s0) = true \/ x_closed s0 = true)) \/ (exists r, In (XEnd r) ev1) \/ (exists e m ok d, o = OClose e m ok d) \/ exists e, o = OCancel e)).
  { intros c1 ev1 H1 H2. split; [congruence|]. intros _. right. destruct H2 as [H2|[H2|[H2|[H2|H2]]]]; [left; exists s; auto|left; exists s; auto|auto..]. }
  assert (Drop : forall s1 t c1 ev1, x_drop c s1 t = (c1, ev1) -> (forall e, t <> CResetApp e) -> k_sess c1 = None /\ (x_closing (x_phase s1) = true \/ exists r, In (XEnd r) ev1)).
  { intros s1 t c1 ev1 D Ht. destruct (drop_none _ _ _ _ _ D) as [D1 _]. split; [exact D1|]. unfold x_drop in D. destruct (x_cancel c s1) as [c2 e2]. injection D as _ <-.
    unfold x_close. destruct (x_closing (x_phase s1)); [auto|]. right. destruct t; [destruct (Ht code eq_refl)|eexists; apply in_or_app; right; left; reflexivity..]. }
  destruct o; intros E.
  - apply receive_cases in E as [(t & _ & D)|(s1 & ev1 & fatal & H & E)].
    { destruct (Drop _ _ _ _ D ltac:(discriminate)) as [D1 D2]. apply Gone; [exact D1|tauto]. }
    destruct (fed_same s h its fin) as [F _]. assert (Fc : x_closed (x_fed s h its fin) = x_closed s) by (unfold x_fed; destruct (x_fin s); reflexivity). set (s0 := x_fed s h its fin) in *.
    assert (H' : x_closed s1 = x_closed s /\ (x_closing (x_phase s1) = true -> x_closing (x_phase s) = true \/ exists r, In (XEnd r) ev1)).
    { apply headers_spec in H as [[-> ->]|(Pn & h0 & _ & [(-> & r & ->)|(st & _ & _ & _ & -> & ->)])]; cbn [x_set x_sets x_closed x_phase x_closing]; (split; [exact Fc|]).
      - rewrite F. auto.
      - intros _. right. exists r. left. reflexivity.
      - discriminate. }
    destruct H' as [H1 H2]. destruct E as [(_ & -> & -> & _)|[(ev2 & R & t & ev3 & D & ->)|(s2 & ev2 & R & E)]].
    + apply (Same _ s1); [reflexivity|exact H1].
    + destruct (Drop _ _ _ _ D ltac:(discriminate)) as [D1 [D2|(r & D2)]].
      * apply Gone; [exact D1|]. destruct (H2 D2) as [H3|(r & H3)]; [auto|]. right; right; left. exists r. apply in_or_app. auto.
      * apply Gone; [exact D1|]. right; right; left. exists r. rewrite !in_app_iff. auto.
    + pose proof (read_control_closed _ _ _ _ R) as Rc. apply read_control_spec in R as [_ R]. destruct E as [(P & -> & ->)|(_ & -> & ->)].
      * apply Gone; [reflexivity|]. destruct R as [[R _]|(_ & d & r & -> & _)].
        -- rewrite P in R. rewrite <- R in H2. destruct (H2 eq_refl) as [H3|(r & H3)]; [auto|]. right; right; left. exists r. apply in_or_app. auto.
        -- right; right; left. exists r. rewrite !in_app_iff. right; left; right. left; reflexivity.
      * apply (Same _ s2); [reflexivity|congruence].
  - destruct (x_drop c s _) as [c1 e1] eqn:D. injection E as <- <- _. destruct (Drop _ _ _ _ D ltac:(discriminate)) as [D1 D2]. apply Gone; [exact D1|tauto].
  - destruct (x_drop c s _) as [c1 e1] eqn:D. injection E as <- <- _. destruct (Drop _ _ _ _ D ltac:(discriminate)) as [D1 D2]. apply Gone; [exact D1|tauto].
  - destruct (x_drop c s _) as [c1 e1] eqn:D. injection E as <- <- _. destruct (drop_none _ _ _ _ _ D) as [D1 _]. apply Gone; [exact D1|]. do 4 right. eauto.
  - assert (Hc : exists e m o1 d, OClose error message ok done = OClose e m o1 d) by eauto. split; [intros; right; exact Hc|intros; do 3 right; left; exact Hc].
  - destruct (x_closed s && done || x_is_done (x_phase s)) eqn:B.
    + pose proof (cancel_none c s) as [N _]. destruct (x_cancel c s) as [c1 e1]. injection E as <- <- _. apply Gone; [exact N|]. apply orb_prop in B as [B|B]; [apply andb_prop in B as [B _]; auto|]. left. destruct (x_phase s); try discriminate B. reflexivity.
    + injection E as <- <- _. exact (Same _ s S eq_refl _).
  - assert (Z : c' = c) by (destruct (x_is_active _); injection E as <- _ _; reflexivity). rewrite Z. exact (Same _ s S eq_refl _).
  - injection E as <- <- _. exact (Same _ s S eq_refl _).
  - destruct (k_kind c); [|injection E as <- <- _; exact (Same _ s S eq_refl _)]. destruct (x_add_stream _ _ _) as [s1 e1] eqn:Ad. injection E as <- <- _. eapply (Same _ s1); [reflexivity|].
    unfold x_add_stream in Ad; destruct (x_phase s); cbn in Ad; injection Ad as <- _; reflexivity.
  - destruct (negb _); [injection E as <- <- _; exact (Same _ s S eq_refl _)|]. destruct (k_kind c); [|injection E as <- <- _; exact (Same _ s S eq_refl _)].
    destruct (x_add_stream _ _ _) as [s1 e1] eqn:Ad. injection E as <- <- _. eapply (Same _ s1); [reflexivity|]. unfold x_add_stream in Ad; destruct (x_phase s); cbn in Ad; injection Ad as <- _; reflexivity.
  - injection E as <- <- _. eapply Same; reflexivity.
  - injection E as <- <- _. eapply Same; reflexivity.
  - destruct (k_kind c); injection E as <- <- _; [eapply Same; reflexivity|exact (Same _ s S eq_refl _)].
  - destruct (k_kind c); [destruct (xmem _ _)|]; injection E as <- <- _; [exact (Same _ s S eq_refl _)|eapply Same; reflexivity|exact (Same _ s S eq_refl _)].
  - injection E as <- <- _. exact (Same _ s S eq_refl _).
Qed.
Lemma reach_gone server k log c : reach server k log c ->
  (forall s, k_sess c = Some s -> x_closed s = true -> over log) /\ (k_sess c = None -> over log \/ exists e, In (OCancel e) (asked log)).
Proof.
  intros R0. pose proof R0 as RR. induction R0 as [|log c o c' ev a R IH S].
  - destruct server; (split; [intros s E; injection E as <-; discriminate|discriminate]).
  - destruct (IH R) as [I1 I2]. destruct (step_gone _ _ _ _ _ S) as [S1 S2]. rewrite asked_app. split.
    + intros s E P. apply over_snoc. destruct (S1 _ E P) as [(s0 & E0 & P0)|H]; [left; exact (I1 _ E0 P0)|]. right. right. exact H.
    + intros N. rewrite over_snoc. destruct (S2 N) as [H|[(s0 & E0 & [P0|P0])|[H|[H|(e & ->)]]]].
      * destruct (I2 H) as [H1|(e & H1)]; [auto|]. right. exists e. apply in_or_app. auto.
      * left. left. apply (reach_over _ _ _ _ R _ E0). exact P0.
      * left. left. exact (I1 _ E0 P0).
      * left. right. left. exact H.
      * left. right. right. exact H.
      * right. exists e. apply in_or_app. right. left. reflexivity.
Qed.
(** An open session that is not over and was not given up is active. *)
Lemma reach_active server k log c : reach server k log c -> open_since server (told log) -> ~ over log -> (forall e, ~ In (OCancel e) (asked log)) ->
  exists s, k_sess c = Some s /\ x_phase s = PActive.
Proof.
  intros R O NO NC. destruct (reach_gone _ _ _ _ R) as [_ G]. destruct (k_sess c) as [s|] eqn:S; [|destruct (G eq_refl) as [H|(e & H)]; [destruct (NO H)|destruct (NC e H)]].
  exists s. split; [reflexivity|]. destruct (reach_order false server k log c ltac:(discriminate) R) as [_ [A _]]. rewrite S in A. rewrite marks_spec in A. cbn [fst snd orb] in A.
  destruct (x_phase s) eqn:P; [|reflexivity|exfalso; apply NO, (reach_over _ _ _ _ R _ S); rewrite P; reflexivity..].
  exfalso. cbn [ap] in A. injection A as A _. apply orb_false_iff in A as [A1 A2]. destruct O as [O|(st & O)]; [congruence|].
  assert (B : existsb is_start (told log) = true) by (apply existsb_exists; exists (XStart st); auto). congruence.
Qed.
Lemma run_cons_eq c o os : x_run c (o :: os) = let '(c', ev, a) := x_step c o in let '(c'', log) := x_run c' os in (c'', mkXL o ev a :: log).
Proof. reflexivity. Qed.
(** CONNECT-UDP has neither streams nor groups. *)
Lemma step_udp c o c' ev a : k_kind c = XConnectUdp -> (forall s, k_sess c = Some s -> x_pending s = []) -> x_step c o = (c', ev, a) ->
  (forall s, k_sess c' = Some s -> x_pending s = []) /\ announced ev = [] /\ forall g, ~ (o = OGroup g /\ a = AOk).
Proof.
  intros K Pn E. destruct (k_sess c) as [s|] eqn:S.
  2: { unfold x_step in E. rewrite S in E. destruct o; injection E as <- <- <-; cbn [k_sess]; rewrite ?S; (split; [intros s' H; discriminate H|split; [reflexivity|intros g [H1 H2]; discriminate]]). }
  specialize (Pn s eq_refl). assert (Dp : plain o \/ ~ plain o) by (destruct o; cbn; auto). destruct Dp as [Pl|Pl].
  - split; [|split].
    + intros s' S'. destruct (step_plain _ _ _ _ _ _ Pl S E) as [(s1 & S1 & _ & _ & _ & _ & _ & _ & Pc)|(s2 & _ & _ & -> & _)]; [|discriminate S']. rewrite S1 in S'. injection S' as <-.
      destruct Pc as [(P1 & _)|(_ & _ & _ & P1)]; congruence.
    + destruct (step_plain _ _ _ _ _ _ Pl S E) as [(s1 & _ & _ & _ & _ & _ & _ & _ & Pc)|(s2 & _ & _ & _ & _ & An)].
      * destruct Pc as [(_ & P1 & _)|(_ & P1 & _)]; congruence.
      * destruct An as [An|[_ An]]; congruence.
    + intros g [-> _]. destruct Pl.
  - unfold x_step in E. rewrite S in E. destruct o; cbn in Pl; try tauto; rewrite ?K in E; try (destruct (negb _)); injection E as <- <- <-; cbn [k_sess]; rewrite ?S; (split; [intros s' H; injection H as <-; exact Pn|split; [reflexivity|intros g [H1 H2]; discriminate]]).
Qed.
Lemma reach_udp server log c : reach server XConnectUdp log c -> (forall s, k_sess c = Some s -> x_pending s = []) /\ announced (told log) = [] /\ forall g ev, ~ In (mkXL (OGroup g) ev AOk) log.
Proof.
  induction 1 as [|log c o c' ev a R (I1 & I2 & I3) S].
  - splits; [destruct server; intros s E; injection E as <-; reflexivity|reflexivity|intros g ev []].
  - destruct (reach_kind _ _ _ _ R) as [Kk _]. destruct (step_udp _ _ _ _ _ Kk I1 S) as (S1 & S2 & S3). split; [exact S1|]. split; [rewrite told_app, told_one, announced_app, I2, S2; reflexivity|].
    intros g ev' H. apply in_app_or in H as [H|[H|[]]]; [exact (I3 _ _ H)|]. injection H as -> -> ->. exact (S3 g (conj eq_refl eq_refl)).
Qed.
Lemma announced_In evs id b : In (XNewStream id b) evs -> In id (announced evs).
Proof. induction evs as [|e evs IH]; [intros []|]. intros [->|H]; [left; reflexivity|]. destruct e; cbn; auto. Qed.
Lemma udp_no_streams server log c : reach server XConnectUdp log c -> forall id b, ~ In (XNewStream id b) (told log).
Proof. intros R id b H. apply announced_In in H. destruct (reach_udp _ _ _ R) as (_ & A & _). rewrite A in H. destruct H. Qed.
Lemma udp_no_groups server log c : reach server XConnectUdp log c -> forall g ev, ~ In (mkXL (OGroup g) ev AOk) log.
Proof. intros R. exact (proj2 (proj2 (reach_udp _ _ _ R))). Qed.
