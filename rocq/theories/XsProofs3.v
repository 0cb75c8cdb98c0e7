From Coq Require Import NArith List Bool Lia.
From Verif Require Import Base Lib XsModel XsSpec XsProofs.
Import ListNotations.
Open Scope N_scope.

(** *** What the other steps leave alone. *)
Lemma announced_app a b : announced (a ++ b) = announced a ++ announced b.
Proof. induction a as [|e a IH]; [reflexivity|]. destruct e; cbn; rewrite ?IH; reflexivity. Qed.
Lemma announced_late l : Forall late l -> announced l = [].
Proof. induction 1 as [|e l L _ IH]; [reflexivity|]. destruct L as [e Q|r]; [destruct Q|]; exact IH. Qed.
Lemma announced_dgrams l : dgrams l -> announced l = [].
Proof. induction 1 as [|e l (d & ->) _ IH]; [reflexivity|]. exact IH. Qed.
Lemma announced_news l : announced (map (fun id => XNewStream id true) l) = l.
Proof. induction l as [|i l IH]; cbn; [reflexivity|]. rewrite IH. reflexivity. Qed.
Lemma opened_app a b : opened (a ++ b) = opened a ++ opened b.
Proof. induction a as [|e a IH]; [reflexivity|]. destruct e; cbn; rewrite ?IH; reflexivity. Qed.
Definition plain (o : xop) : Prop := match o with ORemote _ | OLocal _ | ORecvGone _ | OSendGone _ | ODrain | OGroup _ => False | _ => True end.
Definition pend_cond (s s' : xsess) (ev : list xevent) : Prop :=
  (x_pending s' = x_pending s /\ announced ev = [] /\ (x_phase s' = x_phase s \/ x_closing (x_phase s') = true)) \/
  (x_phase s = PNegotiating /\ announced ev = x_pending s /\ x_phase s' <> PNegotiating /\ x_pending s' = []).
Lemma read_announced k s o ev : x_read_control k s = (o, ev) -> announced ev = [].
Proof.
  intros E. apply read_control_spec in E. assert (D : forall d, match k with XWebTransport => d = [] | XConnectUdp => dgrams d end -> announced d = []) by (destruct k; [intros d ->; reflexivity|apply announced_dgrams]).
  destruct o as [s'|]; [|exact (D _ E)]. destruct E as [_ [[_ E]|(_ & d & r & -> & E)]]; [exact (D _ E)|]. rewrite announced_app, (D _ E). reflexivity.
Qed.
Lemma step_plain c o c' ev a s : plain o -> k_sess c = Some s -> x_step c o = (c', ev, a) ->
  (exists s', k_sess c' = Some s' /\ k_recv c' = k_recv c /\ k_send c' = k_send c /\ x_send s' = x_send s /\ x_recv s' = x_recv s /\ x_groups s' = x_groups s /\ x_draining s' = x_draining s /\ pend_cond s s' ev) \/
  (exists s2, x_recv s2 = x_recv s /\ x_send s2 = x_send s /\ c' = fst (x_cancel c s2) /\ incl (snd (x_cancel c s2)) ev /\ (announced ev = [] \/ (x_phase s = PNegotiating /\ announced ev = x_pending s))).
Proof.
  intros Pl S E. unfold x_step in E. rewrite S in E.
  assert (Dr : forall s1 t c1 ev1, x_drop c s1 t = (c1, ev1) -> c1 = fst (x_cancel c s1) /\ incl (snd (x_cancel c s1)) ev1 /\ announced ev1 = []).
  { intros s1 t c1 ev1 D. pose proof (drop_none _ _ _ _ _ D) as (_ & _ & _ & L). unfold x_drop in D. destruct (x_cancel c s1) as [c2 e2]. injection D as <- <-. cbn [fst snd]. split; [reflexivity|]. split; [apply incl_appl, incl_refl|apply announced_late; exact L]. }
  assert (Same : forall ev1, announced ev1 = [] -> pend_cond s s ev1) by (intros ev1 H; left; auto).
  destruct o; try (destruct Pl; fail).
  - apply receive_cases in E as [(t & _ & D)|(s1 & ev1 & fatal & H & E)].
    { destruct (Dr _ _ _ _ D) as (-> & D2 & D3). right. exists s. splits; auto. }
    destruct (fed_same s h its fin) as [F (F1 & F2 & F3 & F4 & F5)]. set (s0 := x_fed s h its fin) in *.
    assert (H' : x_send s1 = x_send s /\ x_recv s1 = x_recv s /\ x_groups s1 = x_groups s /\ x_draining s1 = x_draining s /\ pend_cond s s1 ev1).
    { apply headers_spec in H as [[-> ->]|(Pn & h0 & _ & [(-> & r & ->)|(st & _ & _ & _ & -> & ->)])]; cbn [x_set x_sets x_send x_recv x_groups x_draining x_pending x_phase] in *; splits; auto.
      - left. splits; auto.
      - left. splits; auto.
      - right. rewrite F in Pn. cbn [announced x_set x_sets x_phase]. rewrite announced_news, F3. splits; auto. discriminate. }
    destruct H' as (H1 & H2 & H3 & H4 & H5). destruct E as [(_ & -> & -> & _)|[(ev2 & R & t & ev3 & D & ->)|(s2 & ev2 & R & E)]].
    + left. exists s1. splits; auto.
    + right. destruct (Dr _ _ _ _ D) as (-> & D2 & D3). exists s1. splits; auto.
      * apply incl_appr, incl_appr. exact D2.
      * rewrite !announced_app, (read_announced _ _ _ _ R), D3, !app_nil_r. destruct H5 as [(_ & H5 & _)|(H5 & H6 & _)]; auto.
    + pose proof (read_announced _ _ _ _ R) as An. apply read_control_spec in R as [(R1 & R2 & R3 & R4 & R5) R]. destruct E as [(_ & -> & ->)|(_ & -> & ->)].
      * right. exists s2. splits; try congruence; [apply incl_appr, incl_appr, incl_refl|]. rewrite !announced_app, An, (announced_late _ (late_of_quiet _ (cancel_quiet c s2))), !app_nil_r. destruct H5 as [(_ & H5 & _)|(H5 & H6 & _)]; auto.
      * left. exists s2. splits; try congruence; try reflexivity. unfold pend_cond. rewrite announced_app, An, app_nil_r, R3.
        assert (Q : x_phase s2 = x_phase s1 \/ x_closing (x_phase s2) = true) by (destruct R as [[R _]|(R & _)]; auto).
        destruct H5 as [(H5 & H6 & H7)|(H5 & H6 & H7 & H8)].
        -- left. split; [exact H5|]. split; [exact H6|]. destruct Q as [Q|Q]; [rewrite Q; exact H7|right; exact Q].
        -- right. split; [exact H5|]. split; [exact H6|]. split; [|exact H8]. destruct Q as [Q|Q]; [rewrite Q; exact H7|]. intros Z. rewrite Z in Q. discriminate Q.
  - destruct (x_drop c s _) as [c1 e1] eqn:D. injection E as <- <- _. destruct (Dr _ _ _ _ D) as (-> & D2 & D3). right. exists s. splits; auto.
  - destruct (x_drop c s _) as [c1 e1] eqn:D. injection E as <- <- _. destruct (Dr _ _ _ _ D) as (-> & D2 & D3). right. exists s. splits; auto.
  - destruct (x_drop c s _) as [c1 e1] eqn:D. injection E as <- <- _. destruct (Dr _ _ _ _ D) as (-> & D2 & D3). right. exists s. splits; auto.
  - unfold x_close_session in E. destruct ok; cbn [negb andb] in E; [destruct done|].
    + right. match type of E with context [x_cancel ?x ?y] => exists y; pose proof (cancel_quiet x y) as Q; destruct (x_cancel x y) as [c1 e1] eqn:D end. injection E as <- <- _. cbn [fst snd x_recv x_send] in *. splits; auto; [apply incl_refl|]. left. apply announced_late, late_of_quiet. exact Q.
    + injection E as <- <- _. left. eexists. split; [reflexivity|]. splits; auto. left. splits; auto.
    + injection E as <- <- _. left. eexists. split; [reflexivity|]. splits; auto. left. splits; auto.
  - destruct (_ || _).
    + right. exists s. pose proof (cancel_quiet c s) as Q. destruct (x_cancel c s) as [c1 e1] eqn:D. injection E as <- <- _. cbn [fst snd] in *. splits; auto; [apply incl_refl|]. left. apply announced_late, late_of_quiet. exact Q.
    + injection E as <- <- _. left. exists s. splits; auto.
  - left. exists s. assert (Z : announced ev = [] /\ c' = c).
    { destruct (x_is_active _); injection E as <- <- _; [|auto]. split; [|reflexivity]. destruct (k_kind c); [reflexivity|]. apply announced_dgrams, deliver_dgrams. }
    destruct Z as [Z ->]. splits; auto.
  - injection E as <- <- _. left. exists s. splits; auto.
  - injection E as <- <- _. left. exists s. splits; auto.
Qed.
(** *** Announcements. *)
Definition ann_ok (c : xconn) (A R : list N) : Prop :=
  NoDup A /\ incl A R /\
  match k_sess c with
  | Some s => match x_phase s with
              | PNegotiating => A = [] /\ NoDup (x_pending s) /\ forall id, In id (x_pending s) <-> In id R
              | PActive => incl R A
              | _ => True
              end
  | None => True
  end.
Lemma xadd_NoDup x l : NoDup l -> NoDup (xadd x l).
Proof. unfold xadd. destruct (xmem x l) eqn:E; [auto|]. intros H. apply nodup_snoc; [exact H|]. intros Hi. apply xmem_In in Hi. congruence. Qed.
Lemma mine_remote server id : N.testbit id 0 = negb server -> id_mine server id = false.
Proof. unfold id_mine. intros ->. destruct server; reflexivity. Qed.
Lemma mine_local server id : N.testbit id 0 = server -> id_mine server id = true.
Proof. unfold id_mine. intros ->. destruct server; reflexivity. Qed.
Lemma step_ann c o c' ev a A R : k_kind c = XWebTransport -> named (k_server c) o -> NoDup (R ++ opened [o]) -> ann_ok c A R -> x_step c o = (c', ev, a) -> ann_ok c' (A ++ announced ev) (R ++ opened [o]).
Proof.
  intros K Nm ND (I1 & I2 & I3) E. destruct (k_sess c) as [s|] eqn:S.
  2: { assert (Z : ev = [] /\ k_sess c' = None) by (unfold x_step in E; rewrite S in E; destruct o; injection E as <- <- _; rewrite ?S; auto). destruct Z as [-> Z]. cbn [announced]. rewrite app_nil_r.
       split; [exact I1|]. split; [apply incl_appl; exact I2|]. rewrite Z. exact I. }
  assert (W : forall c1 ev1, k_sess c1 = None -> (announced ev1 = [] \/ (x_phase s = PNegotiating /\ announced ev1 = x_pending s)) -> ann_ok c1 (A ++ announced ev1) (R ++ opened [o])).
  { intros c1 ev1 Hn [Ha|[Hp Ha]]; rewrite Ha.
    - rewrite app_nil_r. split; [exact I1|]. split; [apply incl_appl; exact I2|]. rewrite Hn. exact I.
    - rewrite Hp in I3. destruct I3 as (-> & J1 & J2). cbn [app]. split; [exact J1|]. split; [intros id Hi; apply in_or_app; left; apply J2; exact Hi|]. rewrite Hn. exact I. }
  assert (Dp : plain o \/ ~ plain o) by (destruct o; cbn; auto). destruct Dp as [Pl|Pl].
  - assert (Ro : opened [o] = []) by (destruct o; try reflexivity; destruct Pl). rewrite Ro, app_nil_r in *.
    destruct (step_plain _ _ _ _ _ _ Pl S E) as [(s' & S' & _ & _ & _ & _ & _ & _ & Pc)|(s2 & _ & _ & -> & _ & An)]; [|specialize (W _ _ (proj1 (cancel_none c s2)) An); exact W].
    destruct Pc as [(P1 & -> & P2)|(P1 & -> & P2 & _)].
    + rewrite app_nil_r. split; [exact I1|]. split; [exact I2|]. rewrite S'. destruct P2 as [P2|P2]; [rewrite P2, P1; exact I3|]. destruct (x_phase s'); try discriminate P2; exact I.
    + rewrite P1 in I3. destruct I3 as (-> & J1 & J2). cbn [app]. split; [exact J1|]. split; [intros id Hi; apply J2; exact Hi|]. rewrite S'. destruct (x_phase s'); [congruence| |exact I|exact I]. intros id Hi. apply J2. exact Hi.
  - assert (Keep : forall c1 s1, opened [o] = [] -> k_sess c1 = Some s1 -> x_phase s1 = x_phase s -> x_pending s1 = x_pending s -> ann_ok c1 (A ++ announced []) (R ++ opened [o])).
    { intros c1 s1 Ro H1 H2 H3. rewrite Ro. cbn [announced]. rewrite !app_nil_r. split; [exact I1|]. split; [exact I2|]. rewrite H1, H2, H3. exact I3. }
    unfold x_step in E. rewrite S in E. destruct o; cbn in Pl; try tauto.
    + rewrite K in E. cbn [named] in Nm. apply mine_remote in Nm. cbn [opened] in *. unfold x_add_stream in E. destruct (x_phase s) eqn:P; cbn [x_closing] in E; injection E as <- <- _.
      * destruct I3 as (-> & J1 & J2). cbn [announced app]. split; [constructor|]. split; [intros x []|]. cbn [k_sess x_sets x_phase x_pending]. rewrite P. split; [reflexivity|]. split; [apply xadd_NoDup; exact J1|].
        intros x. rewrite xadd_In, in_app_iff, J2. cbn. intuition.
      * rewrite Nm. cbn [announced]. split; [|split].
        -- apply nodup_snoc; [exact I1|]. intros H. apply I2 in H. apply NoDup_remove in ND as [_ ND]. rewrite app_nil_r in ND. exact (ND H).
        -- apply incl_app; [apply incl_appl; exact I2|apply incl_appr, incl_refl].
        -- cbn [k_sess x_sets x_phase]. rewrite P. apply incl_app; [apply incl_appl; exact I3|apply incl_appr, incl_refl].
      * cbn [announced]. rewrite app_nil_r. split; [exact I1|]. split; [apply incl_appl; exact I2|]. cbn [k_sess]. rewrite P. exact I.
      * cbn [announced]. rewrite app_nil_r. split; [exact I1|]. split; [apply incl_appl; exact I2|]. cbn [k_sess]. rewrite P. exact I.
    + cbn [named] in Nm. apply mine_local in Nm. destruct (x_phase s) eqn:P; cbn [x_is_active negb] in E; try (injection E as <- <- _; apply (Keep _ s eq_refl S P eq_refl)).
      rewrite K in E. unfold x_add_stream in E. rewrite P in E. cbn [x_closing] in E. rewrite Nm in E. injection E as <- <- _. eapply Keep; [reflexivity|reflexivity|exact P|reflexivity].
    + injection E as <- <- _. eapply Keep; reflexivity.
    + injection E as <- <- _. eapply Keep; reflexivity.
    + rewrite K in E. injection E as <- <- _. eapply Keep; reflexivity.
    + rewrite K in E. destruct (xmem _ _); injection E as <- <- _; [apply (Keep _ s eq_refl S eq_refl eq_refl)|eapply Keep; reflexivity].
Qed.
Lemma NoDup_app_l {A} (a b : list A) : NoDup (a ++ b) -> NoDup a.
Proof. induction a as [|x a IH]; intros H; [constructor|]. inversion H as [|y l H1 H2]; subst. constructor; [intros Hi; apply H1, in_or_app; auto|exact (IH H2)]. Qed.
Lemma reach_ann server log c : reach server XWebTransport log c -> Forall (named server) (asked log) -> NoDup (opened (asked log)) -> ann_ok c (announced (told log)) (opened (asked log)).
Proof.
  induction 1 as [|log c o c' ev a R IH S]; intros Nm ND.
  - split; [constructor|]. split; [intros x []|]. destruct server; cbn; [intros x []|]. split; [reflexivity|]. split; [constructor|]. tauto.
  - rewrite told_app, told_one, asked_app, announced_app, opened_app in *. cbn [asked map l_op] in *. apply Forall_app in Nm as [Nm1 Nm2]. inversion Nm2 as [|x y Nm3 _]; subst.
    destruct (reach_kind _ _ _ _ R) as [Kk Ks]. specialize (IH Nm1 (NoDup_app_l _ _ ND)). eapply step_ann; eauto. rewrite Ks. exact Nm3.
Qed.
(** *** The streams of a session when it goes. *)
Lemma no_late_prefix log x : no_late (log ++ [x]) -> no_late log.
Proof. intros H l1 id ev a l2 ->. eapply H. rewrite <- app_assoc. reflexivity. Qed.
Lemma filter_none {A} (f : A -> bool) l : (forall x, In x l -> f x = false) -> filter f l = [].
Proof. induction l as [|x l IH]; intros H; [reflexivity|]. cbn. rewrite (H x (or_introl eq_refl)). apply IH. intros y Hy. apply H. right. exact Hy. Qed.
Definition tab_ok (c : xconn) : Prop := match k_sess c with Some s => incl (k_recv c) (x_recv s) /\ incl (k_send c) (x_send s) | None => k_recv c = [] /\ k_send c = [] end.
Lemma step_tab c o c' ev a : (forall id s, o = ORemote id -> k_sess c = Some s -> x_closing (x_phase s) = false) -> named (k_server c) o -> tab_ok c -> x_step c o = (c', ev, a) -> tab_ok c'.
Proof.
  intros NL Nm I E. unfold tab_ok in I. destruct (k_sess c) as [s|] eqn:S.
  2: { destruct I as [I1 I2]. unfold x_step in E. rewrite S in E. unfold tab_ok. destruct o; injection E as <- _ _; cbn [k_sess k_recv k_send]; rewrite ?S, ?I1, ?I2; auto. }
  destruct I as [I1 I2]. assert (Dp : plain o \/ ~ plain o) by (destruct o; cbn; auto). destruct Dp as [Pl|Pl].
  - destruct (step_plain _ _ _ _ _ _ Pl S E) as [(s' & S' & P1 & P2 & P3 & P4 & _)|(s2 & P1 & P2 & -> & _)].
    + unfold tab_ok. rewrite S', P1, P2, P3, P4. auto.
    + unfold tab_ok. cbn [x_cancel fst k_sess k_recv k_send]. rewrite P1, P2. split; apply filter_none; intros x Hx; apply negb_false_iff, xmem_In; auto.
  - unfold x_step in E. rewrite S in E. unfold tab_ok. destruct o; cbn in Pl; try tauto.
    + destruct (k_kind c); [|injection E as <- _ _; rewrite S; auto]. specialize (NL id s eq_refl eq_refl). cbn [named] in Nm. apply mine_remote in Nm.
      unfold x_add_stream in E. rewrite NL, Nm in E. cbn [negb orb] in E. rewrite orb_false_r in E.
      assert (X : forall a b, incl a b -> incl (xadd id a) (xadd id b)) by (intros l1 l2 H x; rewrite !xadd_In; intros [->|Hx]; auto).
      destruct (x_phase s); injection E as <- _ _; cbn [k_sess k_recv k_send x_sets x_recv x_send]; rewrite orb_true_r; destruct (id_bidi id); auto.
    + destruct (x_phase s) eqn:P; cbn [x_is_active negb] in E; try (injection E as <- _ _; rewrite S; auto).
      destruct (k_kind c); [|injection E as <- _ _; rewrite S; auto]. cbn [named] in Nm. apply mine_local in Nm.
      unfold x_add_stream in E. rewrite P, Nm in E. cbn [x_closing negb] in E. rewrite orb_true_r, orb_false_r in E.
      assert (X : forall a b, incl a b -> incl (xadd id a) (xadd id b)) by (intros l1 l2 H x; rewrite !xadd_In; intros [->|Hx]; auto).
      injection E as <- _ _. cbn [k_sess k_recv k_send x_sets x_recv x_send]. destruct (id_bidi id); auto.
    + injection E as <- _ _. cbn [k_sess k_recv k_send x_sets x_recv x_send]. split; [|exact I2]. intros x. rewrite !xdel_In. intros [H1 H2]; auto.
    + injection E as <- _ _. cbn [k_sess k_recv k_send x_sets x_recv x_send]. split; [exact I1|]. intros x. rewrite !xdel_In. intros [H1 H2]; auto.
    + destruct (k_kind c); injection E as <- _ _; [cbn [k_put k_sess k_recv k_send x_recv x_send]|rewrite S]; auto.
    + destruct (k_kind c); [|injection E as <- _ _; rewrite S; auto]. destruct (xmem _ _); injection E as <- _ _; [rewrite S|cbn [k_put k_sess k_recv k_send x_recv x_send]]; auto.
Qed.
Lemma reach_tab server k log c : reach server k log c -> Forall (named server) (asked log) -> no_late log -> tab_ok c.
Proof.
  intros R0. pose proof R0 as R1. induction R0 as [|log c o c' ev a R IH S]; intros Nm NL.
  - destruct server; cbn; split; apply incl_refl.
  - rewrite asked_app in Nm. apply Forall_app in Nm as [Nm1 Nm2]. inversion Nm2 as [|x y Nm3 _]; subst. cbn [l_op] in Nm3.
    eapply step_tab; [| |exact (IH R Nm1 (no_late_prefix _ _ NL))|exact S].
    + intros id s -> E. destruct (x_closing (x_phase s)) eqn:P; [|reflexivity]. exfalso. apply (reach_over _ _ _ _ R _ E) in P. exact (NL log id ev a [] eq_refl P).
    + destruct (reach_kind _ _ _ _ R) as [_ ->]. exact Nm3.
Qed.
(** *** Each stream is told of its end. *)
Definition told_recv (c : xconn) (log : list xlog) (id : N) : Prop := In id (k_recv c) \/ In (ORecvGone id) (asked log) \/ In (XRecvClosed id) (told log).
Definition told_send (c : xconn) (log : list xlog) (id : N) : Prop := In id (k_send c) \/ In (OSendGone id) (asked log) \/ In (XSendClosed id) (told log).
Lemma cancel_told c s id : (In id (k_recv c) -> In id (k_recv (fst (x_cancel c s))) \/ In (XRecvClosed id) (snd (x_cancel c s))) /\
  (In id (k_send c) -> In id (k_send (fst (x_cancel c s))) \/ In (XSendClosed id) (snd (x_cancel c s))).
Proof.
  unfold x_cancel. cbn [fst snd k_recv k_send]. split; intros H.
  - destruct (xmem id (x_recv s)) eqn:M; [right|left; apply filter_In; rewrite M; auto]. apply in_or_app. left. apply in_map, filter_In. split; [apply xmem_In; exact M|apply xmem_In; exact H].
  - destruct (xmem id (x_send s)) eqn:M; [right|left; apply filter_In; rewrite M; auto]. apply in_or_app. right. apply in_map, filter_In. split; [apply xmem_In; exact M|apply xmem_In; exact H].
Qed.
Lemma step_tables c o c' ev a : x_step c o = (c', ev, a) ->
  (forall id, In id (k_recv c) -> In id (k_recv c') \/ o = ORecvGone id \/ In (XRecvClosed id) ev) /\
  (forall id, In id (k_send c) -> In id (k_send c') \/ o = OSendGone id \/ In (XSendClosed id) ev) /\
  (forall id, o = ORemote id -> a = AFlag true -> In id (k_recv c') /\ (id_bidi id = true -> In id (k_send c'))) /\
  (forall id, o = OLocal id -> a = AOk -> In id (k_send c') /\ (id_bidi id = true -> In id (k_recv c'))).
Proof.
  intros E. destruct (k_sess c) as [s|] eqn:S.
  2: { unfold x_step in E. rewrite S in E. destruct o; injection E as <- <- <-; cbn [k_recv k_send]; splits; intros; try discriminate; auto.
       all: destruct (N.eq_dec id0 id) as [->|N]; [auto|left; apply xdel_In; auto]. }
  assert (Dp : plain o \/ ~ plain o) by (destruct o; cbn; auto). destruct Dp as [Pl|Pl].
  - assert (X : (forall id, o <> ORemote id) /\ forall id, o <> OLocal id) by (split; intros id ->; exact Pl). destruct X as [X1 X2].
    destruct (step_plain _ _ _ _ _ _ Pl S E) as [(s' & S' & P1 & P2 & _)|(s2 & P1 & P2 & -> & P3 & _)].
    + rewrite P1, P2. splits; auto; intros id H; [destruct (X1 id H)|destruct (X2 id H)].
    + splits; intros id H.
      * destruct (cancel_told c s2 id) as [C _]. destruct (C H) as [C1|C1]; auto.
      * destruct (cancel_told c s2 id) as [_ C]. destruct (C H) as [C1|C1]; auto.
      * destruct (X1 id H).
      * destruct (X2 id H).
  - unfold x_step in E. rewrite S in E.
    assert (Ad : forall x y l, In x l -> In x (xadd y l)) by (intros; apply xadd_In; auto). assert (Ad2 : forall y l, In y (xadd y l)) by (intros; apply xadd_In; auto).
    destruct o; cbn in Pl; try tauto.
    + destruct (k_kind c); [|injection E as <- <- <-; splits; intros; try discriminate; auto].
      destruct (x_add_stream _ _ _) as [s' ev']. injection E as <- <- <-. cbn [k_recv k_send]. splits; intros id0 H; try discriminate; auto.
      * destruct (id_bidi id); auto.
      * injection H as <-. intros _. split; [auto|]. intros ->. auto.
    + destruct (negb _); [injection E as <- <- <-; splits; intros; try discriminate; auto|]. destruct (k_kind c); [|injection E as <- <- <-; splits; intros; try discriminate; auto].
      destruct (x_add_stream _ _ _) as [s' ev']. injection E as <- <- <-. cbn [k_recv k_send]. splits; intros id0 H; try discriminate; auto.
      * destruct (id_bidi id); auto.
      * injection H as <-. intros _. split; [auto|]. intros ->. auto.
    + injection E as <- <- <-. cbn [k_recv k_send]. splits; intros id0 H; try discriminate; auto. destruct (N.eq_dec id0 id) as [->|N]; [auto|left; apply xdel_In; auto].
    + injection E as <- <- <-. cbn [k_recv k_send]. splits; intros id0 H; try discriminate; auto. destruct (N.eq_dec id0 id) as [->|N]; [auto|left; apply xdel_In; auto].
    + destruct (k_kind c); injection E as <- <- <-; splits; intros; try discriminate; auto.
    + destruct (k_kind c); [|injection E as <- <- <-; splits; intros; try discriminate; auto]. destruct (xmem _ _); injection E as <- <- <-; splits; intros; try discriminate; auto.
Qed.
Lemma reach_told server k log c : reach server k log c -> forall id, (has_recv log id -> told_recv c log id) /\ (has_send log id -> told_send c log id).
Proof.
  induction 1 as [|log c o c' ev a R IH S]; intros id.
  - split; intros [(e & [])|(e & [] & _)] || (intros [(e & [] & _)|(e & [])]) || idtac; intros H; destruct H as [(e & H)|(e & H)]; destruct H; contradiction.
  - destruct (step_tables _ _ _ _ _ S) as (S1 & S2 & S3 & S4). destruct (IH id) as [IH1 IH2]. unfold told_recv, told_send. rewrite told_app, told_one, asked_app. cbn [asked map l_op].
    split; intros H.
    + assert (C : has_recv log id \/ In id (k_recv c')).
      { destruct H as [(e & H)|(e & H & B)]; apply in_app_or in H as [H|[H|[]]]; [left; left; eauto| |left; right; eauto|]; injection H as -> -> ->.
        - right. apply (S3 id eq_refl eq_refl).
        - right. apply (S4 id eq_refl eq_refl). unfold id_bidi. rewrite B. reflexivity. }
      destruct C as [C|C]; [|auto]. destruct (IH1 C) as [D|[D|D]]; [|right; left; apply in_or_app; auto|right; right; apply in_or_app; auto].
      destruct (S1 _ D) as [F|[->|F]]; [auto|right; left; apply in_or_app; right; left; reflexivity|right; right; apply in_or_app; auto].
    + assert (C : has_send log id \/ In id (k_send c')).
      { destruct H as [(e & H)|(e & H & B)]; apply in_app_or in H as [H|[H|[]]]; [left; left; eauto| |left; right; eauto|]; injection H as -> -> ->.
        - right. apply (S4 id eq_refl eq_refl).
        - right. apply (S3 id eq_refl eq_refl). unfold id_bidi. rewrite B. reflexivity. }
      destruct C as [C|C]; [|auto]. destruct (IH2 C) as [D|[D|D]]; [|right; left; apply in_or_app; auto|right; right; apply in_or_app; auto].
      destruct (S2 _ D) as [F|[->|F]]; [auto|right; left; apply in_or_app; right; left; reflexivity|right; right; apply in_or_app; auto].
Qed.
(** *** Draining and send groups. *)
Lemma step_flags c o c' ev a : x_step c o = (c', ev, a) -> forall s', k_sess c' = Some s' -> exists s, k_sess c = Some s /\
  (x_draining s' = x_draining s || match o, a with ODrain, AFlag _ => true | _, _ => false end) /\
  (forall g, In g (x_groups s') <-> In g (x_groups s) \/ (o = OGroup g /\ a = AOk)).
Proof.
  intros E s' S'. destruct (k_sess c) as [s|] eqn:S.
  2: { unfold x_step in E. rewrite S in E. destruct o; injection E as <- _ _; cbn [k_sess] in S'; congruence. }
  exists s. split; [reflexivity|]. assert (Dp : plain o \/ ~ plain o) by (destruct o; cbn; auto). destruct Dp as [Pl|Pl].
  - destruct (step_plain _ _ _ _ _ _ Pl S E) as [(s1 & S1 & _ & _ & _ & _ & G & D & _)|(s2 & _ & _ & -> & _)]; [|discriminate S'].
    rewrite S1 in S'. injection S' as <-. rewrite G, D. split; [destruct o; rewrite ?orb_false_r; try reflexivity; destruct Pl|]. intros g. split; [auto|]. intros [H|[-> _]]; [exact H|destruct Pl].
  - assert (Keep : forall s1, x_draining s1 = x_draining s -> x_groups s1 = x_groups s -> (match o with ODrain | OGroup _ => False | _ => True end) ->
      x_draining s1 = x_draining s || match o, a with ODrain, AFlag _ => true | _, _ => false end /\ forall g, In g (x_groups s1) <-> In g (x_groups s) \/ (o = OGroup g /\ a = AOk)).
    { intros s1 -> -> Ho. split; [destruct o; try destruct Ho; rewrite ?orb_false_r; reflexivity|]. intros g. split; [auto|]. intros [H|[-> _]]; [exact H|destruct Ho]. }
    unfold x_step in E. rewrite S in E. destruct o; cbn in Pl; try tauto.
    + destruct (k_kind c); [|injection E as <- _ <-; rewrite S in S'; injection S' as <-; apply Keep; auto]. destruct (x_add_stream _ _ _) as [s1 ev1] eqn:Ad. injection E as <- _ _. injection S' as <-.
      apply Keep; auto; unfold x_add_stream in Ad; destruct (x_phase s); cbn in Ad; injection Ad as <- _; reflexivity.
    + destruct (negb _); [injection E as <- _ <-; rewrite S in S'; injection S' as <-; apply Keep; auto|].
      destruct (k_kind c); [|injection E as <- _ <-; rewrite S in S'; injection S' as <-; apply Keep; auto]. destruct (x_add_stream _ _ _) as [s1 ev1] eqn:Ad. injection E as <- _ _. injection S' as <-.
      apply Keep; auto; unfold x_add_stream in Ad; destruct (x_phase s); cbn in Ad; injection Ad as <- _; reflexivity.
    + injection E as <- _ _. injection S' as <-. apply Keep; auto.
    + injection E as <- _ _. injection S' as <-. apply Keep; auto.
    + destruct (k_kind c); injection E as <- _ <-; [injection S' as <-|rewrite S in S'; injection S' as <-]; cbn [x_draining x_groups]; rewrite ?orb_true_r, ?orb_false_r; (split; [reflexivity|]); intros g; (split; [auto|]); intros [H|[H _]]; [exact H|discriminate|exact H|discriminate].
    + destruct (k_kind c); [destruct (xmem id (x_groups s)) eqn:M|]; injection E as <- _ <-; [rewrite S in S'; injection S' as <-|injection S' as <-|rewrite S in S'; injection S' as <-]; cbn [x_draining x_groups]; rewrite ?orb_false_r; (split; [reflexivity|]); intros g.
      * split; [auto|]. intros [H|[_ H]]; [exact H|discriminate].
      * rewrite in_app_iff. cbn. split; [intros [H|[->|[]]]; auto|]. intros [H|[H _]]; [auto|injection H as ->; auto].
      * split; [auto|]. intros [H|[_ H]]; [exact H|discriminate].
Qed.
Lemma reach_flags server k log c : reach server k log c -> forall s, k_sess c = Some s ->
  (x_draining s = true <-> exists ev b, In (mkXL ODrain ev (AFlag b)) log) /\
  (forall g, In g (x_groups s) <-> exists ev, In (mkXL (OGroup g) ev AOk) log).
Proof.
  induction 1 as [|log c o c' ev a R IH S]; intros s E.
  - destruct server; injection E as <-; cbn; (split; [split; [discriminate|intros (e & b & [])]|intros g; split; [intros []|intros (e & [])]]).
  - destruct (step_flags _ _ _ _ _ S _ E) as (s0 & E0 & D & G). destruct (IH _ E0) as [I1 I2]. split.
    + rewrite D, orb_true_iff, I1. split.
      * intros [(e & b & H)|H]; [exists e, b; apply in_or_app; auto|]. destruct o; try discriminate H. destruct a; try discriminate H. exists ev, b. apply in_or_app. right; left; reflexivity.
      * intros (e & b & H). apply in_app_or in H as [H|[H|[]]]; [eauto|]. injection H as -> -> ->. auto.
    + intros g. rewrite G, I2. split.
      * intros [(e & H)|(-> & ->)]; [exists e; apply in_or_app; auto|exists ev; apply in_or_app; right; left; reflexivity].
      * intros (e & H). apply in_app_or in H as [H|[H|[]]]; [eauto|]. injection H as -> -> ->. auto.
Qed.
