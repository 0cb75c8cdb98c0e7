From Coq Require Import NArith List Bool Lia.
From Verif Require Import Base Lib XsModel XsSpec XsProofs.
Import ListNotations.
Open Scope N_scope.

(** *** One end for each session, if the peer ends it in one piece. *)
Lemma ends_app a b : ends (a ++ b) = (ends a + ends b)%nat.
Proof. unfold ends. rewrite filter_app, app_length. reflexivity. Qed.
Lemma ends_quiet l : Forall quiet l -> ends l = 0%nat.
Proof. unfold ends. induction 1 as [|e l Q _ IH]; [reflexivity|]. destruct Q; exact IH. Qed.
Lemma ends_dgrams l : dgrams l -> ends l = 0%nat.
Proof. unfold ends. induction 1 as [|e l (d & ->) _ IH]; [reflexivity|]. exact IH. Qed.
Lemma ends_news l : ends (map (fun id => XNewStream id true) l) = 0%nat.
Proof. unfold ends. induction l as [|i l IH]; [reflexivity|exact IH]. Qed.
Lemma ends_drop c s t c' ev : x_drop c s t = (c', ev) -> ends ev = ends (x_close s t).
Proof.
  unfold x_drop. pose proof (cancel_quiet c s) as Q. destruct (x_cancel c s) as [c1 e1]. cbn [snd] in Q. intros E. injection E as <- <-. rewrite ends_app, (ends_quiet _ Q). reflexivity.
Qed.
Lemma ends_close s t : (forall e, t <> CResetApp e) -> ends (x_close s t) = if x_closing (x_phase s) then 0%nat else 1%nat.
Proof. unfold x_close. destruct (x_closing (x_phase s)); [reflexivity|]. destruct t; try reflexivity. intros H. destruct (H code eq_refl). Qed.
(** The reader of a WebTransport session, on a body without CLOSE_SESSION and on one that ends with it. *)
Lemma read_wt_plain s : no_close (x_items s) -> x_over s = false ->
  match x_read XWebTransport s (x_items s) with
  | DFrame _ _ _ => False
  | DNothing f s' => f = x_fin s /\ x_items s' = [] /\ x_fin s' = x_fin s /\ x_over s' = x_fin s
  | DError _ => True
  end.
Proof.
  intros N V. assert (G : forall its, no_close its -> match x_read XWebTransport s its with
    | DFrame _ _ _ => False | DNothing f s' => f = x_fin s /\ x_items s' = [] /\ x_fin s' = x_fin s /\ x_over s' = x_fin s | DError _ => True end); [|exact (G _ N)].
  induction its as [|i r IH]; intros Nc; cbn [x_read].
  - rewrite V. cbn. rewrite andb_true_r. auto.
  - assert (Nr : no_close r) by (intros e m H; apply (Nc e m); right; exact H). specialize (IH Nr).
    destruct i; [destruct (Nc _ _ (or_introl eq_refl))| | |exact I]; (destruct (x_fin s && x_none r) eqn:F; [|exact IH]; apply andb_true_iff in F as [-> _]; cbn; auto).
Qed.
Lemma read_wt_last s e m r : x_items s = r ++ [IClose e m] -> no_close r -> x_fin s = true ->
  match x_read XWebTransport s (x_items s) with DFrame i f s' => i = IClose e m /\ f = true | DNothing _ _ => False | DError _ => True end.
Proof.
  intros -> N F. induction r as [|i r IH]; cbn [app x_read]; [rewrite F; cbn; auto|].
  assert (Nr : no_close r) by (intros e' m' H; apply (N e' m'); right; exact H). specialize (IH Nr).
  assert (X : x_none (r ++ [IClose e m]) = false) by (destruct r; reflexivity). rewrite X, andb_false_r.
  destruct i; [destruct (N _ _ (or_introl eq_refl))|exact IH|exact IH|exact I].
Qed.
(** The reader of a CONNECT-UDP session leaves nothing. *)
Lemma read_udp_src its : forall s, match x_read XConnectUdp s its with
  | DFrame i f s' => x_fin s' = x_fin s /\ (length (x_items s') < length its)%nat /\ (f = true -> x_fin s = true) /\ (f = false -> x_over s' = x_over s) /\ (f = false -> x_fin s = true -> x_items s' <> [])
  | DNothing f s' => x_items s' = [] /\ x_fin s' = x_fin s /\ (x_over s = false -> f = x_fin s)
  | DError _ => True end.
Proof.
  induction its as [|i r IH]; intros s; cbn [x_read].
  - cbn. splits; auto. intros ->. apply andb_true_r.
  - specialize (IH s). set (f := x_fin s && x_none r).
    assert (Skip : match (if f then DNothing true (x_src s [] true true) else x_read XConnectUdp s r) with
      | DFrame i f s' => x_fin s' = x_fin s /\ (length (x_items s') < length (i :: r))%nat /\ (f = true -> x_fin s = true) /\ (f = false -> x_over s' = x_over s) /\ (f = false -> x_fin s = true -> x_items s' <> [])
      | DNothing f s' => x_items s' = [] /\ x_fin s' = x_fin s /\ (x_over s = false -> f = x_fin s) | DError _ => True end).
    { destruct f eqn:F; [unfold f in F; apply andb_true_iff in F as [-> _]; cbn; auto|]. destruct (x_read XConnectUdp s r); [cbn [length] in *|exact IH|exact I]. splits; try tauto. destruct IH as (_ & IH & _). lia. }
    destruct i; try exact Skip; [|exact I]. cbn [x_src x_fin x_items x_over length].
    split; [reflexivity|]. split; [lia|]. split; [unfold f; intros H; apply andb_true_iff in H; tauto|]. split; [intros ->; apply orb_false_r|].
    unfold f. intros H F E. rewrite F in H. subst r. discriminate H.
Qed.
Lemma read_udp_end fuel : forall s o ev, (length (x_items s) < fuel)%nat -> x_over s = false -> x_read_udp fuel s = (o, ev) ->
  match o with
  | None => ends ev = 0%nat
  | Some s' => if x_fin s then x_phase s' = PDone /\ ends ev = 1%nat else x_phase s' = x_phase s /\ ends ev = 0%nat /\ x_items s' = [] /\ x_fin s' = false
  end.
Proof.
  induction fuel as [|fuel IH]; intros s o ev L V E; [lia|]. cbn [x_read_udp] in E.
  pose proof (read_udp_src (x_items s) s) as P. pose proof (read_phase XConnectUdp (x_items s) s) as Q. destruct (x_read XConnectUdp s (x_items s)) as [i f s'|f s'|s'].
  - destruct P as (P1 & P2 & P3 & P4 & P5). destruct Q as (Q & _).
    assert (Go : forall o ev, f = false -> x_read_udp fuel s' = (o, ev) -> match o with None => ends ev = 0%nat
      | Some s2 => if x_fin s then x_phase s2 = PDone /\ ends ev = 1%nat else x_phase s2 = x_phase s /\ ends ev = 0%nat /\ x_items s2 = [] /\ x_fin s2 = false end).
    { intros o' ev' F E'. specialize (IH s' o' ev' ltac:(lia) ltac:(rewrite (P4 F); exact V) E'). rewrite P1, Q in IH. exact IH. }
    destruct i as [e m|d| |].
    all: try (destruct f; [injection E as <- <-; rewrite (P3 eq_refl); split; reflexivity|exact (Go _ _ eq_refl E)]).
    destruct f; [injection E as <- <-; rewrite (P3 eq_refl); split; [reflexivity|]; rewrite ends_app, (ends_dgrams _ (deliver_dgrams d)); reflexivity|].
    destruct (x_read_udp fuel s') as [o' ev'] eqn:E'. injection E as <- <-. specialize (Go _ _ eq_refl eq_refl). pose proof (ends_dgrams _ (deliver_dgrams d)) as D.
    destruct o' as [s2|]; rewrite ends_app, D; exact Go.
  - destruct P as (P1 & P2 & P3). specialize (P3 V). subst f. destruct Q as (Q & _). destruct (x_fin s); injection E as <- <-; [split; reflexivity|]. auto.
  - injection E as <- <-. reflexivity.
Qed.
(** One read, in a session still going. *)
Lemma read_tidy k s o ev : x_over s = false -> (no_close (x_items s) \/ exists r e m, x_items s = r ++ [IClose e m] /\ no_close r /\ x_fin s = true) ->
  x_read_control k s = (o, ev) ->
  match o with
  | None => ends ev = 0%nat
  | Some s' => if x_fin s then x_phase s' = PDone /\ ends ev = 1%nat else x_phase s' = x_phase s /\ ends ev = 0%nat /\ x_items s' = [] /\ x_fin s' = false
  end.
Proof.
  intros V T E. destruct k; cbn [x_read_control] in E; [|exact (read_udp_end _ _ _ _ (Nat.lt_succ_diag_r _) V E)].
  unfold x_read_wt in E. destruct T as [N|(r & e & m & Hi & N & F)].
  - pose proof (read_wt_plain s N V) as P. pose proof (read_phase XWebTransport (x_items s) s) as Q. destruct (x_read XWebTransport s (x_items s)) as [i f s'|f s'|s']; [destruct P| |injection E as <- <-; reflexivity].
    destruct P as (-> & P1 & P2 & P3). destruct Q as (Q & _). destruct (x_fin s); injection E as <- <-; [split; reflexivity|auto].
  - pose proof (read_wt_last s e m r Hi N F) as P. destruct (x_read XWebTransport s (x_items s)) as [i f s'|f s'|s']; [|destruct P|injection E as <- <-; reflexivity].
    destruct P as [-> ->]. injection E as <- <-. rewrite F. split; reflexivity.
Qed.
Definition going (c : xconn) (n : nat) : Prop :=
  match k_sess c with
  | Some s => x_closing (x_phase s) = false /\ x_items s = [] /\ x_fin s = false /\ x_over s = false /\ x_closed s = false /\ n = 0%nat
  | None => n = 1%nat
  end.
Lemma read_keeps k its : forall s, match x_read k s its with DFrame _ f s' | DNothing f s' => x_closed s' = x_closed s /\ (f = false -> x_over s' = x_over s) | DError _ => True end.
Proof.
  induction its as [|i r IH]; intros s; cbn [x_read]; [cbn; split; [reflexivity|intros ->; apply orb_false_r]|].
  destruct i, k; try exact I; try (cbn; split; [reflexivity|intros ->; apply orb_false_r]); destruct (x_fin s && x_none r); try apply IH; cbn; (split; [reflexivity|discriminate]).
Qed.
Lemma control_keeps k s s' ev : x_read_control k s = (Some s', ev) -> x_closed s' = x_closed s /\ (x_phase s' <> PDone -> x_phase s' <> PFinPending -> x_over s' = x_over s).
Proof.
  destruct k; cbn [x_read_control].
  - unfold x_read_wt. pose proof (read_keeps XWebTransport (x_items s) s) as K. destruct (x_read XWebTransport s (x_items s)) as [i f s1|f s1|s1]; intros E; [| |discriminate].
    + destruct K as [K1 K2]. destruct i.
      1: destruct f; injection E as <- _; (split; [exact K1|]); intros H1 H2; [destruct (H1 eq_refl)|destruct (H2 eq_refl)].
      all: destruct f; injection E as <- _; (split; [exact K1|]); [intros H; destruct (H eq_refl)|auto].
    + destruct K as [K1 K2]. destruct f; injection E as <- _; (split; [exact K1|]); [intros H; destruct (H eq_refl)|auto].
  - generalize (S (length (x_items s))) as fuel. intros fuel. revert s ev. induction fuel as [|fuel IH]; intros s ev E; cbn [x_read_udp] in E; [injection E as <- _; auto|].
    pose proof (read_keeps XConnectUdp (x_items s) s) as K. destruct (x_read XConnectUdp s (x_items s)) as [i f s1|f s1|s1]; [| |discriminate].
    + destruct K as [K1 K2]. destruct i as [e m|d| |].
      all: try (destruct f; [injection E as <- _; (split; [exact K1|]); intros H; destruct (H eq_refl)|]; destruct (IH _ _ E) as [I1 I2]; rewrite K1 in I1; rewrite (K2 eq_refl) in I2; auto; fail).
      destruct f; [injection E as <- _; (split; [exact K1|]); intros H; destruct (H eq_refl)|]. destruct (x_read_udp fuel s1) as [o' ev'] eqn:E'. injection E as -> _.
      destruct (IH _ _ E') as [I1 I2]; rewrite K1 in I1; rewrite (K2 eq_refl) in I2; auto.
    + destruct K as [K1 K2]. destruct f; injection E as <- _; (split; [exact K1|]); [intros H; destruct (H eq_refl)|auto].
Qed.
Lemma headers_src s h s' ev fatal : x_headers s h = (s', ev, fatal) -> x_items s' = x_items s /\ x_fin s' = x_fin s /\ x_over s' = x_over s /\ x_closed s' = x_closed s.
Proof. intros E. apply headers_spec in E as [[-> _]|(_ & h0 & _ & [(-> & _)|(st & _ & _ & _ & -> & _)])]; auto. Qed.
Lemma step_tidy c o c' ev a n : tidy o -> going c n -> x_step c o = (c', ev, a) -> going c' (n + ends ev).
Proof.
  intros T G E. unfold going in G. unfold x_step in E. destruct (k_sess c) as [s|] eqn:S.
  2: { subst n. destruct o; injection E as <- <- _; unfold going; cbn [k_sess ends filter is_end length]; rewrite ?S; reflexivity. }
  destruct G as (P & Gi & Gf & Go & Gc & ->). cbn [Nat.add].
  assert (Dr : forall t c1 ev1, (forall e, t <> CResetApp e) -> x_drop c s t = (c1, ev1) -> going c1 (ends ev1)).
  { intros t c1 ev1 Ht D. rewrite (ends_drop _ _ _ _ _ D), (ends_close _ _ Ht), P. apply drop_none in D as (D & _). unfold going. rewrite D. reflexivity. }
  assert (Same : forall c1, k_sess c1 = Some s -> going c1 0) by (intros c1 H; unfold going; rewrite H; splits; auto).
  assert (Same2 : forall c1 s1, k_sess c1 = Some s1 -> x_phase s1 = x_phase s -> x_items s1 = x_items s -> x_fin s1 = x_fin s -> x_over s1 = x_over s -> x_closed s1 = x_closed s -> going c1 0).
  { intros c1 s1 H H1 H2 H3 H4 H5. unfold going. rewrite H, H1, H2, H3, H4, H5. splits; auto. }
  destruct o; cbn [tidy] in T; try (destruct T; fail).
  - destruct T as (T1 & T2 & T3). apply receive_cases in E as [(t & _ & D)|(s1 & ev1 & fatal & H & E)]; [(eapply Dr; [|exact D]; intros; discriminate)|].
    rewrite Gf in H. pose proof (headers_src _ _ _ _ _ H) as (Hi & Hf & Ho & Hc). unfold x_fed in *. rewrite Gf, Gi in *. cbn [x_src x_items x_fin x_over x_closed app] in Hi, Hf, Ho, Hc. rewrite Gc in Hc.
    set (hf := match x_phase s, h with PNegotiating, Some h0 => h_fin h0 | _, _ => false end) in *. set (body := match x_phase s, h with PNegotiating, None => false | PNegotiating, Some h0 => negb (h_interim h0) | _, _ => true end) in *.
    assert (Tr : no_close (x_items s1) \/ exists r e m, x_items s1 = r ++ [IClose e m] /\ no_close r /\ x_fin s1 = true).
    { rewrite Hi, Hf. destruct (hf || negb body) eqn:B; [left; intros e m []|]. apply orb_false_iff in B as [-> _]. rewrite orb_false_r. exact T1. }
    (* the headers open or leave the session, or end it *)
    assert (C : (x_phase s1 = PDone /\ ends ev1 = 1%nat /\ (hf = true \/ fin = false /\ no_close its) /\ fatal = false) \/
                (x_closing (x_phase s1) = false /\ ends ev1 = 0%nat /\ fatal = false /\ hf = false)).
    { pose proof H as H0. apply headers_spec in H0 as [[-> ->]|(Pn & h0 & Eh & [(-> & r & ->)|(st & B1 & B2 & B3 & -> & ->)])].
      - right. split; [exact P|]. split; [reflexivity|].
        unfold x_headers in H. cbn [x_src x_phase] in H. unfold hf. destruct (x_phase s) eqn:Ps; try (injection H as <-; split; reflexivity). destruct h as [h|]; [|injection H as <-; split; reflexivity].
        destruct (h_interim h); [destruct (h_fin h); [discriminate H|injection H as <-; split; reflexivity]|]. pose proof (T3 _ eq_refl) as N. destruct (h_status h) as [st|]; [|congruence].
        destruct (_ && _); [destruct (h_fin h); discriminate H|discriminate H].
      - left. split; [reflexivity|]. split; [reflexivity|]. cbn [x_src x_phase] in Pn. unfold x_headers in H. cbn [x_src x_phase] in H. unfold hf. rewrite Pn, Eh in *. destruct (h_interim h0) eqn:Ei.
        + destruct (h_fin h0); [|discriminate H]. injection H as _ <-. auto.
        + destruct (h_status h0) as [st|] eqn:Es; [|destruct (T3 _ eq_refl Es)].
          destruct ((200 <=? st) && (st <? 300)) eqn:B.
          * destruct (h_fin h0); [|discriminate H]. injection H as _ <-. auto.
          * injection H as _ <-. split; [|reflexivity]. right. destruct (T2 ltac:(exists (h_fin h0), st; destruct h0 as [i b t]; cbn in *; subst; split; [reflexivity|]; apply andb_false_iff in B as [B%N.leb_gt|B%N.ltb_ge]; lia)) as [U1 U2]. auto.
      - right. cbn [x_set x_sets x_phase]. split; [reflexivity|]. split; [cbn; exact (ends_news _)|]. cbn [x_src x_phase] in Pn. unfold x_headers in H. cbn [x_src x_phase] in H. unfold hf. rewrite Pn, Eh, ?B1, ?B2 in *.
        destruct ((200 <=? st) && (st <? 300)) eqn:B; [|discriminate H]. destruct (h_fin h0); [discriminate H|]. cbn in H. injection H as <-. auto. }
    assert (Hov : hf = false -> x_over s1 = false) by (intros F; rewrite Ho; exact F).
    destruct C as [(C1 & C2 & C3 & ->)|(C1 & C2 & -> & C3)].
    + (* ended by its headers: nothing more is read *)
      assert (N0 : forall o2 ev2, x_read_control (k_kind c) s1 = (o2, ev2) -> ends ev2 = 0%nat /\ (forall s2, o2 = Some s2 -> x_phase s2 = PDone)).
      { intros o2 ev2 R. destruct C3 as [F|[F F2]].
        - pose proof R as R'. rewrite F in Hi, Hf, Ho. cbn [orb] in Hi. rewrite orb_true_r in Hf.
          destruct (k_kind c); cbn [x_read_control] in R; [unfold x_read_wt in R|rewrite Hi in R; cbn [length x_read_udp] in R]; rewrite Hi in R; cbn [x_read] in R; rewrite Hf, Ho in R; cbn in R; injection R as <- <-; (split; [reflexivity|intros s2 X; injection X as <-; exact C1]).
        - destruct hf eqn:Ehf; [|].
          + pose proof R as R'. cbn [orb] in Hi. rewrite orb_true_r in Hf.
            destruct (k_kind c); cbn [x_read_control] in R; [unfold x_read_wt in R|rewrite Hi in R; cbn [length x_read_udp] in R]; rewrite Hi in R; cbn [x_read] in R; rewrite Hf, Ho in R; cbn in R; injection R as <- <-; (split; [reflexivity|intros s2 X; injection X as <-; exact C1]).
          + pose proof (read_tidy _ _ _ _ (Hov eq_refl) Tr R) as Y. rewrite Hf, F in Y. cbn [orb] in Y. destruct o2 as [s2|]; [|split; [exact Y|discriminate]].
            destruct Y as (Y1 & Y2 & _). split; [exact Y2|]. intros s3 X. injection X as <-. rewrite Y1. exact C1. }
      destruct E as [(X & _)|[(ev2 & R & t & ev3 & D & ->)|(s2 & ev2 & R & E)]]; [discriminate X| |]; destruct (N0 _ _ R) as [N1 N2].
      * rewrite !ends_app, C2, N1, (ends_drop _ _ _ _ _ D), ends_close, C1 by discriminate. apply drop_none in D as (D & _). unfold going. rewrite D. reflexivity.
      * pose proof (N2 _ eq_refl) as Pd. destruct E as [(_ & -> & ->)|(X & _)]; [|congruence]. rewrite !ends_app, C2, N1, (ends_quiet _ (cancel_quiet c s2)). reflexivity.
    + pose proof (Hov C3) as V1. rewrite C3, orb_false_r in Hf. destruct E as [(X & _)|[(ev2 & R & t & ev3 & D & ->)|(s2 & ev2 & R & E)]]; [discriminate X| |]; pose proof (read_tidy _ _ _ _ V1 Tr R) as Y.
      * rewrite !ends_app, C2, Y, (ends_drop _ _ _ _ _ D), ends_close, C1 by discriminate. apply drop_none in D as (D & _). unfold going. rewrite D. reflexivity.
      * rewrite Hf in Y. destruct fin.
        -- destruct Y as [Y1 Y2]. destruct E as [(_ & -> & ->)|(X & _)]; [|congruence]. rewrite !ends_app, C2, Y2, (ends_quiet _ (cancel_quiet c s2)). reflexivity.
        -- destruct Y as (Y1 & Y2 & Y3 & Y4). destruct E as [(X & _)|(_ & -> & ->)]; [rewrite Y1 in X; rewrite X in C1; discriminate C1|]. rewrite !ends_app, C2, Y2.
           pose proof (control_keeps _ _ _ _ R) as [Kc Ko]. unfold going. cbn [k_put k_sess]. rewrite Y1, Y3, Y4, Kc, Ko; [splits; auto|rewrite Y1..]; intros Q; rewrite Q in C1; discriminate C1.
  - destruct (x_drop c s _) as [c1 e1] eqn:D. injection E as <- <- _. (eapply Dr; [|exact D]; intros; discriminate).
  - destruct (x_drop c s _) as [c1 e1] eqn:D. injection E as <- <- _. (eapply Dr; [|exact D]; intros; discriminate).
  - rewrite Gc in E. cbn [andb orb] in E. destruct (x_phase s); cbn in P; try discriminate P; cbn in E; injection E as <- <- _; exact (Same _ S).
  - assert (Z : ends ev = 0%nat /\ c' = c).
    { destruct (x_is_active _); injection E as <- <- _; [|auto]. split; [|reflexivity]. destruct (k_kind c); [reflexivity|]. apply ends_dgrams, deliver_dgrams. }
    destruct Z as [-> ->]. exact (Same _ S).
  - injection E as <- <- _. exact (Same _ S).
  - destruct (k_kind c); [|injection E as <- <- _; exact (Same _ S)]. destruct (x_add_stream _ _ _) as [s' ev'] eqn:Ad. pose proof (add_phase _ _ _ _ _ Ad) as [P' A']. injection E as <- <- _.
    assert (Z : ends ev' = 0%nat) by (destruct A' as [->|(_ & _ & ->)]; reflexivity). rewrite Z. eapply Same2; [reflexivity|exact P'|..]; unfold x_add_stream in Ad; destruct (x_phase s); cbn in Ad; injection Ad as <- _; reflexivity.
  - destruct (negb _); [injection E as <- <- _; exact (Same _ S)|]. destruct (k_kind c); [|injection E as <- <- _; exact (Same _ S)]. destruct (x_add_stream _ _ _) as [s' ev'] eqn:Ad. pose proof (add_phase _ _ _ _ _ Ad) as [P' A']. injection E as <- <- _.
    assert (Z : ends ev' = 0%nat) by (destruct A' as [->|(_ & _ & ->)]; reflexivity). rewrite Z. eapply Same2; [reflexivity|exact P'|..]; unfold x_add_stream in Ad; destruct (x_phase s); cbn in Ad; injection Ad as <- _; reflexivity.
  - injection E as <- <- _. eapply Same2; reflexivity.
  - injection E as <- <- _. eapply Same2; reflexivity.
  - destruct (k_kind c); injection E as <- <- _; [eapply Same2; reflexivity|exact (Same _ S)].
  - destruct (k_kind c); [|injection E as <- <- _; exact (Same _ S)]. destruct (xmem _ _); injection E as <- <- _; [exact (Same _ S)|eapply Same2; reflexivity].
  - injection E as <- <- _. exact (Same _ S).
Qed.
Lemma reach_tidy server k log c : reach server k log c -> Forall tidy (asked log) -> going c (ends (told log)).
Proof.
  induction 1 as [|log c o c' ev a R IH S]; intros T.
  - destruct server; cbn; splits; auto.
  - rewrite asked_app in T. apply Forall_app in T as [T1 T2]. cbn in T2. inversion T2 as [|x y T3 _]; subst. rewrite told_app, told_one, ends_app. exact (step_tidy _ _ _ _ _ _ T3 (IH T1) S).
Qed.
