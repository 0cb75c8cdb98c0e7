(** C50: what callers can rely on when several streams want to send. *)
From Verif Require Import Base Lib SchModel SchSpec SchProofs SchProofs2 SchProofs3 SchProofs4.
From Coq Require Import ZArith Permutation.
Open Scope N_scope.
Open Scope list_scope.
Import ListNotations.

(** No call panics, and settings and results are those of the calls made. *)
Theorem settings_follow_calls : forall W (k : writer W) os, takes_room k ->
  exists s rs, run k os s_new = Some (s, rs) /\ history os [] (streams s) rs.
Proof. intros W k os TR. destruct (run_ok W k os s_new TR inv_new) as (s & rs & E & _ & H). eauto. Qed.
Print Assumptions settings_follow_calls.

Lemma reached : forall W (k : writer W) os s rs, takes_room k -> run k os s_new = Some (s, rs) -> inv s.
Proof. intros W k os s rs TR E. destruct (run_ok W k os s_new TR inv_new) as (s' & rs' & E' & I & _). rewrite E in E'. inv E'. auto. Qed.
(** The queues hold every fair stream once, and nothing else. *)
Theorem queues_hold_fair_streams : forall W (k : writer W) os s rs, takes_room k -> run k os s_new = Some (s, rs) ->
  Permutation (queued s) (map m_id (filter m_fair (streams s))).
Proof.
  intros W k os s rs TR E. pose proof (reached _ _ _ _ _ TR E) as I.
  assert (queued s = concat (map vec (bks (groups s)))) as ->.
  { unfold queued, bks. induction (groups s) as [|e gs IH]; auto. cbn. rewrite map_app, concat_app, IH. auto. }
  apply NoDup_Permutation; [apply inv_disj; auto | apply nodup_filter_ids; apply I|]. intros x. split.
  - intros J. apply in_concat in J. destruct J as (v & Iv & Ix). apply in_map_iff in Iv. destruct Iv as (g & <- & Ig). destruct (bks_place s g x I Ig Ix) as (h & o & P & _).
    apply place_in in P; [|apply I]. destruct P as (t & It & <- & F & _). apply in_map, filter_In. auto.
  - intros J. apply in_map_iff in J. destruct J as (t & <- & J). apply filter_In in J. destruct J as (It & F).
    destruct (place_bks s (m_id t) (gid t) (m_order t) I) as (Ig & Ix); [apply place_in; [apply I | exists t; auto]|]. apply (in_vecs _ _ _ Ig Ix).
Qed.
Print Assumptions queues_hold_fair_streams.

(** Streams with the same group and the same send order take turns: over any number of packets their offers go round
    and round one listing of them. *)
Theorem equals_take_turns : forall W (k : writer W) os s rs calls s' rs', takes_room k -> run k os s_new = Some (s, rs) ->
  run k (writes calls) s = Some (s', rs') -> forall h o,
  exists c, Permutation c (equals (streams s) h o) /\ in_rounds c (filter (fun x => existsb (N.eqb x) c) (map offer_id (fair_offers rs'))).
Proof.
  intros W k os s rs calls s' rs' TR E0 E h o. pose proof (reached _ _ _ _ _ TR E0) as I. pose proof (i_nd _ I) as ND.
  destruct (writes_spec _ _ _ _ _ _ TR I E) as (_ & _ & _ & _ & [(G & O)|[(F & raw & C & Io)|(F & NE & R & _)]]).
  - exists (equals (streams s) h o). split; [apply Permutation_refl|]. rewrite O. exists 0%nat, [], []. reflexivity.
  - exists (equals (streams s) h o). split; [apply Permutation_refl|]. change (map offer_id (fair_offers rs')) with (ids (fair_offers rs')). rewrite Io.
    destruct (streams s) as [|t0 l0] eqn:Es.
    + inversion C as [|? ? ? ? Z]; subst; [|destruct (clamp (fnext s) 0); discriminate]. exists 0%nat, [], []. reflexivity.
    + rewrite <- Es in *. assert (0 < length (streams s))%nat as Ls by (rewrite Es; cbn; lia).
      destruct (cyc_segment _ _ _ _ _ C (clamp_lt _ _ Ls)) as (n & Sg).
      set (f := fun e => m_fair e && ((gid e =? h) && oeqb (m_order e) o)).
      assert (forall t, In t raw -> existsb (N.eqb (m_id t)) (equals (streams s) h o) = (gid t =? h) && oeqb (m_order t) o && m_fair t) as X.
      { intros t It. pose proof (cyc_in _ _ _ _ _ _ C It) as Jt. destruct (existsb (N.eqb (m_id t)) (equals (streams s) h o)) eqn:B.
        - change (memb (m_id t) (equals (streams s) h o) = true) in B. apply memb_spec in B. apply equals_in in B; auto. apply place_in in B; auto. destruct B as (u & Iu & Eu & Fu & <- & <-).
          assert (u = t) as -> by (pose proof (get_in _ _ ND Iu) as A1; pose proof (get_in _ _ ND Jt) as A2; rewrite Eu, A2 in A1; inv A1; auto).
          rewrite N.eqb_refl, Fu. cbn. symmetry. rewrite andb_true_r. apply oeqb_eq. auto.
        - destruct ((gid t =? h) && oeqb (m_order t) o && m_fair t) eqn:B2; auto. apply andb_true_iff in B2. destruct B2 as (B2 & B3). apply andb_true_iff in B2. destruct B2 as (B1 & B2).
          apply N.eqb_eq in B1. apply oeqb_eq in B2. change (memb (m_id t) (equals (streams s) h o) = false) in B. apply memb_false in B. exfalso. apply B. apply equals_in; auto. apply place_in; auto. exists t. auto. }
      rewrite (filter_map_comm _ _ m_id _ f).
      2:{ intros t It. apply filter_In in It. destruct It as (It & Ft). rewrite X by auto. unfold f. rewrite Ft. rewrite andb_true_r. reflexivity. }
      assert (filter f (filter m_fair raw) = filter f raw) as ->.
      { clear. induction raw as [|t raw IH]; auto. cbn. destruct (m_fair t) eqn:F; cbn; unfold f in *; rewrite F; cbn; [rewrite IH; auto | auto]. }
      apply (f_equal (filter f)) in Sg. rewrite filter_concat_repeat, !filter_app in Sg. apply (f_equal (map m_id)) in Sg. rewrite map_concat_repeat, !map_app in Sg.
      exists n. eexists. eexists. exact Sg.
  - destruct (equals (streams s) h o) as [|x0 B] eqn:Eb.
    + exists []. split; [apply Permutation_refl|]. exists 0%nat, [], []. rewrite filter_none; auto.
    + rewrite <- Eb. assert (place (streams s) x0 = Some (h, o)) as P0 by (apply equals_in; auto; rewrite Eb; left; auto).
      destruct (place_bks s x0 h o I P0) as (Ig & Ix0). set (g := q_get o (grp_get h (groups s))) in *.
      exists (vec g). split.
      * pose proof I as [_ _ (O & Q)]. apply NoDup_Permutation; [|apply equals_nodup; auto|].
        -- apply asc_nodup. pose proof (grp_get_ok (groups s) h O) as (Oq1 & Oq2). destruct o as [z|]; [apply (ord_get_asc _ z Oq1) | exact Oq2].
        -- intros x. rewrite equals_in by auto. rewrite <- Q. unfold gvec. subst g. tauto.
      * destruct (In_nth_error _ _ Ig) as (i & En). destruct (RR_nth _ _ _ _ _ R En) as (g' & V & C). eapply in_rounds_cyc; [exact C|].
        intros NEv. apply clamp_lt. destruct (vec g); [congruence | cbn; lia].
Qed.
Print Assumptions equals_take_turns.

(** What a single call makes of the fair streams. *)
Lemma one_call : forall W (k : writer W) p w s s' u f b, takes_room k -> inv s -> step k (KWrite p w) s = Some (s', SOffers u f b) ->
  callok s s' f b /\ (exists w', unfair k p (streams s) w = (w', u) /\ exists w2, write_fair k p s w' = Some (s', w2, f, b)).
Proof.
  intros W k p w s s' u f b TR I E. cbn in E. destruct (write_ok W k p s w TR I) as (s1 & w1 & u1 & f1 & b1 & E1 & _ & _ & _ & _ & C). rewrite E1 in E. inv E. split; auto.
  unfold write_frames in E1. destruct (unfair k p (streams s) w) as (w', u') eqn:Eu. destruct (write_fair k p s w') as [(((s3, w3), f3), b3)|] eqn:Ef; [|discriminate]. inv E1. eauto.
Qed.
(** A stream is offered a packet only when all streams of its group with a higher send order were, just before, and
    sent nothing. *)
Theorem higher_order_first : forall W (k : writer W) os s rs p w s' u f b, takes_room k -> run k os s_new = Some (s, rs) ->
  step k (KWrite p w) s = Some (s', SOffers u f b) -> forall pre v post ex ey, f = pre ++ v :: post -> In ex (streams s) -> In ey (streams s) ->
  m_fair ex = true -> m_id ey = offer_id v -> gid ex = gid ey -> higher (m_order ex) (m_order ey) ->
  exists a c, pre = a ++ Visit (m_id ex) false false :: c /\ forall z, In z c -> wrote z = false /\ filled z = false.
Proof.
  intros W k os s rs p w s' u f b TR E0 E pre v post ex ey Ef Ix Iy Fx Ey Eg H. pose proof (reached _ _ _ _ _ TR E0) as I. pose proof (i_nd _ I) as ND.
  destruct (one_call _ _ _ _ _ _ _ _ _ TR I E) as ([(_ & _ & -> & _)|[(F & G & _ & _ & raw & C & Io & _)|(F & NE & _ & _ & ts & Eo & Tk & R & X)]] & _).
  - destruct pre; discriminate.
  - (* one group, and no send order in it *)
    exfalso. assert (place (streams s) (m_id ex) = Some (gid ex, m_order ex)) as P by (apply place_in; auto; exists ex; auto).
    destruct (place_bks s _ _ _ I P) as (_ & J). destruct (m_order ex) as [z|] eqn:Oz; [|destruct (m_order ey); destruct H]. 
    assert (In (gid ex, grp_get (gid ex) (groups s)) (groups s)) as Ig by (eapply (grp_in _ _ (m_id ex) (Some z)); exact J).
    unfold isfast in F. destruct (groups s) as [|(h0, q0) [|]]; try discriminate. destruct Ig as [Ig|[]]. injection Ig as Eh _. cbn in J. rewrite Eh, N.eqb_refl in J. destruct (ordered q0); [destruct J | discriminate].
  - rewrite Eo in Ef. destruct (concat_find _ _ _ _ Ef) as (ta & t & tb & p1 & r1 & Et & Eot & -> & ->).
    assert (In (tkey t) (shape (groups s))) as Kt.
    { assert (exists ke, cyc (shape (groups s)) (clamp (gnext s) (length (groups s))) (map tkey ts) ke) as (ke & Cy) by (destruct b; destruct X; eauto).
      eapply cyc_in; [exact Cy|]. apply in_map. rewrite Et. apply in_or_app. right; left; auto. }
    rewrite Forall_forall in Tk. assert (tr_ok t) as To by (apply Tk; rewrite Et; apply in_or_app; right; left; auto).
    assert (In (offer_id v) (concat (tr_vs t))) as Iv by (apply (t_in _ _ _ To); unfold ids; rewrite Eot, map_app; apply in_or_app; right; left; auto).
    destruct (proj1 (turn_member s t _ I Kt) Iv) as (oy & Py). apply place_in in Py; auto. destruct Py as (ey' & Iy' & Ey' & Fy & Gy & Oy).
    assert (ey' = ey) as -> by (pose proof (get_in _ _ ND Iy') as A1; pose proof (get_in _ _ ND Iy) as A2; rewrite Ey', <- Ey, A2 in A1; inv A1; auto).
    assert (place (streams s) (m_id ex) = Some (gid ey, m_order ex)) as Px by (apply place_in; auto; exists ex; auto).
    assert (place (streams s) (m_id ey) = Some (gid ey, m_order ey)) as Py by (apply place_in; auto; exists ey; auto).
    destruct (place_bks s _ _ _ I Px) as (_ & Jx). destruct (place_bks s _ _ _ I Py) as (_ & Jy). destruct (shape_q s _ _ I Kt) as (_ & Ev). rewrite <- Gy in Ev.
    pose proof I as [_ _ (OG & _)]. destruct (q_before _ _ _ _ _ (grp_get_ok (groups s) (gid ey) OG) Jx Jy H) as (v1 & c & v2 & Evv & Ic & Iv1).
    rewrite Ey in Ic. rewrite <- Ev in Evv. pose proof (t_pri _ _ _ To p1 v r1 v1 c v2 Eot Evv Ic _ Iv1) as J. pose proof (ended_prefix _ _ _ _ _ (t_end _ _ _ To) Eot) as Q.
    apply in_split in J. destruct J as (a & c' & ->). exists (offers_of ta ++ a), c'. split; [rewrite <- app_assoc; auto|]. intros z Iz.
    unfold quiet in Q. rewrite Forall_forall in Q. destruct (Q z) as (y & ->); [apply in_or_app; right; right; auto | auto].
Qed.
Print Assumptions higher_order_first.

(** Groups take turns, within a call and over calls that fill their packets: between two STREAM frames of one group,
    each stream of another group had its chance, or the turn of that group went to another of its streams. *)
Theorem groups_take_turns : forall W (k : writer W) os s rs calls s' rs', takes_room k -> run k os s_new = Some (s, rs) ->
  run k (writes calls) s = Some (s', rs') -> full_but_last rs' ->
  forall pre x f1 mid y f2 post ex ey ez, fair_offers rs' = pre ++ Visit x true f1 :: mid ++ Visit y true f2 :: post ->
  In ex (streams s) -> In ey (streams s) -> In ez (streams s) -> m_id ex = x -> m_id ey = y -> gid ex = gid ey -> m_fair ez = true -> gid ez <> gid ex ->
  In (Visit (m_id ez) false false) mid \/
  exists v e, In v mid /\ wrote v || filled v = true /\ In e (streams s) /\ m_id e = offer_id v /\ gid e = gid ez.
Proof.
  intros W k os s rs calls s' rs' TR E0 E FB pre x f1 mid y f2 post ex ey ez Eo Ix Iy Iz <- <- Gxy Fz Gz.
  pose proof (reached _ _ _ _ _ TR E0) as I. pose proof (i_nd _ I) as ND.
  assert (forall e e', In e (streams s) -> In e' (streams s) -> m_id e = m_id e' -> e = e') as Uq.
  { intros e e' A B C. pose proof (get_in _ _ ND A) as A1. pose proof (get_in _ _ ND B) as B1. rewrite C, B1 in A1. inv A1. auto. }
  assert (place (streams s) (m_id ez) = Some (gid ez, m_order ez)) as Pz by (apply place_in; auto; exists ez; auto).
  assert (In (gid ez, grp_get (gid ez) (groups s)) (groups s)) as Igz by (destruct (place_bks s _ _ _ I Pz); eapply (grp_in _ _ (m_id ez)); eauto).
  destruct (writes_spec _ _ _ _ _ _ TR I E) as (_ & _ & _ & _ & [(G & O)|[(F & raw & C & Io)|(F & NE & R & ts & Eo2 & Tk & Kt & X)]]).
  - rewrite O in Eo. destruct pre; discriminate.
  - (* one group *)
    exfalso. assert (In (m_id ex) (map m_id (filter m_fair raw))) as J by (rewrite <- Io; unfold ids; rewrite Eo, map_app; apply in_or_app; right; left; auto).
    apply in_map_iff in J. destruct J as (e & Ee & J). apply filter_In in J. destruct J as (J & Fe). pose proof (cyc_in _ _ _ _ _ _ C J) as Ie. rewrite (Uq e ex Ie Ix Ee) in Fe.
    assert (place (streams s) (m_id ex) = Some (gid ex, m_order ex)) as Px by (apply place_in; auto; exists ex; auto).
    assert (In (gid ex, grp_get (gid ex) (groups s)) (groups s)) as Igx by (destruct (place_bks s _ _ _ I Px); eapply (grp_in _ _ (m_id ex)); eauto).
    unfold isfast in F. destruct (groups s) as [|(h0, q0) [|]]; try discriminate. destruct Igz as [Igz|[]]. destruct Igx as [Igx|[]]. congruence.
  - rewrite Eo2 in Eo. destruct (X FB) as (ke & Cy). destruct (concat_find _ _ _ _ Eo) as (ta & t1 & tb & p1 & r1 & Et1 & Eo1 & -> & Em).
    rewrite Forall_forall in Tk.
    assert (In t1 ts) as It1 by (rewrite Et1; apply in_or_app; right; left; auto).
    assert (r1 = []) as ->.
    { pose proof (t_end _ _ _ (Tk _ It1)) as En. destruct r1 as [|v r1]; auto. exfalso. 
      assert (quiet (p1 ++ [Visit (m_id ex) true f1])) as Q.
      { apply (ended_prefix _ _ (p1 ++ [Visit (m_id ex) true f1]) v r1 En). rewrite Eo1, <- app_assoc. reflexivity. }
      apply Forall_app in Q. destruct Q as (_ & Q). inversion Q as [|? ? (z & Z) _]; subst. discriminate. }
    cbn [List.app] in Em. symmetry in Em. destruct (concat_find _ _ _ _ Em) as (tc & t2 & td & p2 & r2 & Et2 & Eo2' & -> & ->).
    subst tb. assert (In t2 ts) as It2 by (rewrite Et1; apply in_or_app; right; right; apply in_or_app; right; left; auto).
    assert (forall t v e, In t ts -> In v (tr_o t) -> In e (streams s) -> m_id e = offer_id v -> tr_gid t = gid e) as Gt.
    { intros t v e It Iv Ie Ee. assert (In (offer_id v) (concat (tr_vs t))) as J by (apply (t_in _ _ _ (Tk _ It)); apply in_map; auto).
      apply (turn_member s t _ I (Kt t It)) in J. destruct J as (o & P). apply place_in in P; auto. destruct P as (e' & Ie' & Ee' & _ & <- & _). rewrite (Uq e' e Ie' Ie); auto. congruence. }
    assert (tr_gid t1 = gid ex) as G1 by (apply (Gt t1 (Visit (m_id ex) true f1)); auto; rewrite Eo1; apply in_or_app; right; left; auto).
    assert (tr_gid t2 = gid ey) as G2 by (apply (Gt t2 (Visit (m_id ey) true f2)); auto; rewrite Eo2'; apply in_or_app; right; left; auto).
    assert (tkey t2 = tkey t1) as K12.
    { destruct (shape_q s _ _ I (Kt _ It1)) as (_ & V1). destruct (shape_q s _ _ I (Kt _ It2)) as (_ & V2). unfold tkey. rewrite V1, V2, G1, G2, Gxy. auto. }
    assert (0 < length (groups s))%nat as Lg by (destruct (groups s); [congruence | cbn; lia]).
    assert (exists k1, cyc (shape (groups s)) k1 (tkey t1 :: map tkey tc ++ tkey t1 :: map tkey td) ke /\ (k1 < length (shape (groups s)))%nat) as (k1 & C1 & L1).
    { rewrite Et1, map_app in Cy. cbn [map] in Cy. rewrite map_app in Cy. cbn [map] in Cy. rewrite K12 in Cy. clear - Cy Lg. unfold shape in *. rewrite map_length.
      assert (clamp (gnext s) (length (groups s)) < length (groups s))%nat as L by (apply clamp_lt; auto). revert Cy L. generalize (clamp (gnext s) (length (groups s))). induction (map tkey ta) as [|a l IH]; intros n Cy L; [eauto|].
      cbn in Cy. inversion Cy; subst. eapply IH; [eassumption|]. rewrite map_length. apply Nat.mod_upper_bound. lia. }
    assert (In (gid ez, vv (grp_get (gid ez) (groups s))) (map tkey tc)) as Iz3.
    { eapply (cyc_between _ _ _ (tkey t1)); [eapply nodup_of_map; apply keys_nodup; eauto | exact C1 | exact L1 | |].
      - unfold shape. apply in_map_iff. exists (gid ez, grp_get (gid ez) (groups s)). auto.
      - unfold tkey. rewrite G1. congruence. }
    apply in_map_iff in Iz3. destruct Iz3 as (t3 & K3 & I3). unfold tkey in K3. injection K3 as K3 V3.
    assert (In t3 ts) as It3 by (rewrite Et1; apply in_or_app; right; right; apply in_or_app; auto).
    assert (forall v, In v (tr_o t3) -> In v (offers_of tc ++ p2)) as Sub by (intros v Iv; apply in_or_app; left; apply in_concat; exists (tr_o t3); split; auto; apply in_map; auto).
    assert (forall v, In v (tr_o t3) -> exists e, In e (streams s) /\ m_id e = offer_id v /\ gid e = gid ez) as Mem.
    { intros v Iv. assert (In (offer_id v) (concat (tr_vs t3))) as J by (apply (t_in _ _ _ (Tk _ It3)); apply in_map; auto).
      apply (turn_member s t3 _ I (Kt _ It3)) in J. destruct J as (o & P). apply place_in in P; auto. destruct P as (e & Ie & Ee & _ & Ge & _). exists e. split; auto. split; auto. congruence. }
    pose proof (t_end _ _ _ (Tk _ It3)) as En. destruct (tr_e t3) eqn:Ee.
    + destruct En as (o' & z & c & En & _). right. exists (Visit z c true). destruct (Mem (Visit z c true)) as (e & Ie & Ez & Ge); [rewrite En; apply in_or_app; right; left; auto|].
      exists e. split; [apply Sub; rewrite En; apply in_or_app; right; left; auto|]. split; [cbn; apply orb_true_r|]. auto.
    + destruct En as (o' & z & En & _). right. exists (Visit z true false). destruct (Mem (Visit z true false)) as (e & Ie & Ez & Ge); [rewrite En; apply in_or_app; right; left; auto|].
      exists e. split; [apply Sub; rewrite En; apply in_or_app; right; left; auto|]. split; [reflexivity|]. auto.
    + left. apply Sub. apply (t_all _ _ _ (Tk _ It3) Ee). apply (turn_member s t3 _ I (Kt _ It3)). exists (m_order ez). rewrite K3. auto.
Qed.
Print Assumptions groups_take_turns.

(** If the packet is not filled, every fair stream was offered it; with send orders or several groups, each stream's
    last offer left nothing to send. *)
Theorem room_left_means_all_offered : forall W (k : writer W) os s rs p w s' u f, takes_room k -> run k os s_new = Some (s, rs) ->
  step k (KWrite p w) s = Some (s', SOffers u f false) -> forall e, In e (streams s) -> m_fair e = true ->
  In (m_id e) (map offer_id f) /\
  (forall e2, In e2 (streams s) -> m_fair e2 = true -> m_order e2 <> None \/ gid e2 <> gid e ->
   exists pre last, f = pre ++ last /\ In (Visit (m_id e) false false) last /\ forall v, In v last -> wrote v = false).
Proof.
  intros W k os s rs p w s' u f TR E0 E e Ie Fe. pose proof (reached _ _ _ _ _ TR E0) as I. pose proof (i_nd _ I) as ND.
  assert (forall e, In e (streams s) -> m_fair e = true -> place (streams s) (m_id e) = Some (gid e, m_order e)) as Pl by (intros; apply place_in; auto; eexists; eauto).
  pose proof (Pl e Ie Fe) as Pe. destruct (place_bks s _ _ _ I Pe) as (Jb & Je). pose proof (grp_in _ _ _ _ Je) as Ig.
  destruct (one_call _ _ _ _ _ _ _ _ _ TR I E) as ([(G & _)|[(F & G & _ & _ & raw & C & Io & Lr)|(F & NE & _ & _ & ts & Eo & Tk & R & X)]] & _).
  - rewrite G in Ig. destruct Ig.
  - assert (0 < length (streams s))%nat as Ls by (destruct (streams s); [destruct Ie | cbn; lia]). split.
    + change (map offer_id f) with (ids f). rewrite Io. apply in_map, filter_In. split; auto. eapply cyc_covers; [exact C | apply clamp_lt; auto | rewrite Lr; auto | auto].
    + intros e2 I2 F2 H. exfalso. pose proof (Pl e2 I2 F2) as P2. destruct (place_bks s _ _ _ I P2) as (_ & J2). pose proof (grp_in _ _ _ _ J2) as Ig2.
      unfold isfast in F. destruct (groups s) as [|(h0, q0) [|]]; try discriminate. destruct Ig as [Ig|[]]. destruct Ig2 as [Ig2|[]]. destruct H as [H|H]; [|congruence].
      destruct (m_order e2) as [z|]; [|congruence]. injection Ig2 as Eh _. cbn in J2. rewrite Eh, N.eqb_refl in J2. destruct (ordered q0); [destruct J2 | discriminate].
  - cbn in X. destruct X as (_ & _ & ta & tb & -> & Lb & Cb & Db).
    assert (0 < length (groups s))%nat as Lg by (destruct (groups s); [congruence | cbn; lia]).
    assert (In (gid e, vv (grp_get (gid e) (groups s))) (map tkey tb)) as J.
    { eapply cyc_covers; [exact Cb | unfold shape; rewrite map_length; apply clamp_lt; auto | rewrite map_length, Lb; unfold shape; rewrite map_length; auto|].
      unfold shape. apply in_map_iff. exists (gid e, grp_get (gid e) (groups s)). auto. }
    apply in_map_iff in J. destruct J as (t & K & It). unfold tkey in K. injection K as Kg Kv. rewrite Forall_forall in Tk, Db.
    assert (tr_ok t) as To by (apply Tk, in_or_app; auto). assert (In (tkey t) (shape (groups s))) as Kt by (eapply cyc_in; [exact Cb | apply in_map; auto]).
    assert (In (Visit (m_id e) false false) (tr_o t)) as V. { apply (t_all _ _ _ To (Db t It)). apply (turn_member s t _ I Kt). exists (m_order e). rewrite Kg. auto. }
    assert (In (Visit (m_id e) false false) (offers_of tb)) as V2 by (apply in_concat; exists (tr_o t); split; auto; apply in_map; auto).
    assert (offers_of (ta ++ tb) = offers_of ta ++ offers_of tb) as Ea by (unfold offers_of; rewrite map_app, concat_app; auto).
    split; [rewrite Eo, Ea, map_app; apply in_or_app; right; apply (in_map offer_id _ _ V2)|].
    intros _ _ _ _. exists (offers_of ta), (offers_of tb). split; [rewrite Eo; auto|]. split; auto. intros v Iv. apply in_offers in Iv. destruct Iv as (t' & It' & Iv).
    assert (quiet (tr_o t')) as Q. { pose proof (t_end _ _ _ (Tk t' (in_or_app _ _ _ (or_intror It')))) as En. rewrite (Db t' It') in En. exact En. }
    unfold quiet in Q. rewrite Forall_forall in Q. destruct (Q v Iv) as (y & ->). reflexivity.
Qed.
Print Assumptions room_left_means_all_offered.

(** Streams that are not fair come first, in the order they were made, to the one that fills the packet; the others that
    are offered anything are fair; none is passed over that has something to send. *)
Theorem unfair_streams_first : forall W (k : writer W) os s rs p w s' u f b, takes_room k -> run k os s_new = Some (s, rs) ->
  step k (KWrite p w) s = Some (s', SOffers u f b) ->
  (exists rest, map m_id (filter (fun e => negb (m_fair e)) (streams s)) = map offer_id u ++ rest /\ ((forall v, In v u -> filled v = false) -> rest = [])) /\
  (forall x, In x (map offer_id f) -> fair_at (streams s) x) /\
  (forall x, In (Skip x) (u ++ f) -> exists w1, has k w1 p x = false).
Proof.
  intros W k os s rs p w s' u f b TR E0 E. pose proof (reached _ _ _ _ _ TR E0) as I. pose proof (i_nd _ I) as ND.
  destruct (one_call _ _ _ _ _ _ _ _ _ TR I E) as (C & w' & Eu & w2 & Ef). destruct (unfair_spec _ _ _ _ _ _ _ Eu) as (rest & A & B & _ & D). split; [|split].
  - exists rest. split; auto. intros H. apply B. apply Forall_forall. auto.
  - intros x J. destruct C as [(_ & _ & -> & _)|[(F & G & _ & _ & raw & C & Io & _)|(F & NE & _ & _ & ts & Eo & Tk & R & X)]]; [destruct J | |].
    + change (map offer_id f) with (ids f) in J. rewrite Io in J. apply in_map_iff in J. destruct J as (t & <- & J). apply filter_In in J. destruct J as (J & Ft).
      apply (cyc_in _ _ _ _ _ _ C) in J. destruct t as [i fa o g]. cbn in *. subst fa. exists o, g. auto.
    + apply in_map_iff in J. destruct J as (v & <- & J). rewrite Eo in J. apply in_offers in J. destruct J as (t & It & Iv). rewrite Forall_forall in Tk.
      assert (In (offer_id v) (concat (tr_vs t))) as J by (apply (t_in _ _ _ (Tk _ It)); apply in_map; auto).
      assert (exists ke, cyc (shape (groups s)) (clamp (gnext s) (length (groups s))) (map tkey ts) ke) as (ke & Cy) by (destruct b; destruct X; eauto).
      apply (turn_member s t _ I) in J; [|eapply cyc_in; [exact Cy | apply in_map; auto]]. destruct J as (o & P). apply place_in in P; auto. destruct P as (e & Ie & <- & Fe & _).
      destruct e as [i fa o' g]. cbn in *. subst fa. exists o', g. auto.
  - intros x J. apply in_app_or in J. destruct J as [J|J]; [auto|]. destruct C as [(_ & _ & -> & _)|[(F & G & _)|(F & NE & _ & _ & ts & Eo & Tk & _)]]; [destruct J | |].
    + unfold write_fair in Ef. destruct (groups s) as [|(h, q) gr] eqn:Eg; [inv Ef; destruct J|]. unfold isfast in F. destruct gr; [|discriminate]. destruct (ordered q); [|discriminate].
      destruct (fast k p (streams s) (clamp (fnext s) (length (streams s))) 0 (length (streams s)) w') as ((w3, o3), e3) eqn:E3. inv Ef. eapply fast_skips; eauto.
    + exfalso. rewrite Eo in J. apply in_offers in J. destruct J as (t & It & Iv). rewrite Forall_forall in Tk. apply (turn_noskip t x (Tk t It) Iv).
Qed.
Print Assumptions unfair_streams_first.

(** *** A group can starve *)
(** A packet takes one frame, and every stream can always fill one at the normal priority (3). *)
Definition bulk : writer nat :=
  mkW (fun _ p _ => p =? 3) (fun w p _ => if p =? 3 then match w with S w' => (w', true, true) | O => (O, false, true) end else (w, false, false)) (fun w => w).
(** connection/mod.rs:2412-2450: a packet offers the streams the four higher priorities in turn, until it is full. *)
Definition one_packet : list (sop nat) := [KWrite 0 1%nat; KWrite 1 1%nat; KWrite 2 1%nat; KWrite 3 1%nat].
Definition two_groups : list (sop nat) := [KInsert 0; KInsert 4; KFair 0 true; KFair 4 true; KGroup 0 (Some 1); KGroup 4 (Some 2)].
Lemma run_app : forall W (k : writer W) a b s, run k (a ++ b) s = match run k a s with Some (s1, r1) => match run k b s1 with Some (s2, r2) => Some (s2, r1 ++ r2) | None => None end | None => None end.
Proof.
  intros W k a. induction a as [|o a IH]; intros b s; cbn [List.app run]; [destruct (run k b s) as [(s2, r2)|]; auto|].
  destruct (step k o s) as [(s1, r)|]; auto. rewrite IH. destruct (run k a s1) as [(s2, r2)|]; auto. destruct (run k b s2) as [(s3, r3)|]; auto.
Qed.
Definition bulk_state : sched := mkS [mkStrm 0 true None (Some 1); mkStrm 4 true None (Some 2)] [(1, mkQ [] (mkOg [0] 0)); (2, mkQ [] (mkOg [4] 0))] 0 0.
(** With two groups that both have data, however many packets are sent, the first group gets into none of them. *)
Theorem groups_share_refuted :
  takes_room bulk /\
  forall n, exists s rs, run bulk (two_groups ++ concat (repeat one_packet n)) s_new = Some (s, rs) /\
    (forall b, ~ In (Visit 0 true b) (fair_offers rs)) /\ length (filter wrote (fair_offers rs)) = n.
Proof.
  split.
  - intros w p x w' b full H. cbn in H. destruct (p =? 3); [|inv H; split; [lia | discriminate]]. destruct w as [|w]; inv H; cbn; split; try lia; try discriminate.
  - intros n.
    assert (exists r0, run bulk two_groups s_new = Some (bulk_state, r0) /\ fair_offers r0 = []) as (r0 & E0 & F0) by (eexists; split; [vm_compute; reflexivity | reflexivity]).
    assert (exists rs, run bulk (concat (repeat one_packet n)) bulk_state = Some (bulk_state, rs) /\ (forall b, ~ In (Visit 0 true b) (fair_offers rs)) /\ length (filter wrote (fair_offers rs)) = n) as (rs & E & A & B).
    { induction n as [|n (rs & E & A & B)]; [eexists; split; [reflexivity|]; split; [intros b [] | reflexivity]|]. cbn [repeat concat]. rewrite run_app.
      assert (exists r1, run bulk one_packet bulk_state = Some (bulk_state, r1) /\ (forall b, ~ In (Visit 0 true b) (fair_offers r1)) /\ length (filter wrote (fair_offers r1)) = 1%nat) as (r1 & E1 & A1 & B1).
      { eexists. split; [vm_compute; reflexivity|]. split; [|reflexivity]. intros b J. cbn in J. repeat (destruct J as [J|J]; [discriminate J|]). destruct J. }
      rewrite E1, E. eexists. split; [reflexivity|]. assert (fair_offers (r1 ++ rs) = fair_offers r1 ++ fair_offers rs) as Ef by (unfold fair_offers; rewrite map_app, concat_app; auto).
      rewrite Ef. split; [intros b J; apply in_app_or in J; destruct J as [J|J]; [apply (A1 b J) | apply (A b J)]|]. rewrite filter_app, app_length, B1, B. reflexivity. }
    rewrite run_app, E0, E. eexists. eexists. split; [reflexivity|].
    assert (fair_offers (r0 ++ rs) = fair_offers rs) as Ef by (unfold fair_offers in *; rewrite map_app, concat_app, F0; auto). rewrite Ef. auto.
Qed.
Print Assumptions groups_share_refuted.

(** Three streams in a group, two with a send order, one in another group, one that is not fair. *)
Definition busy : writer nat := mkW (fun w _ _ => negb (Nat.eqb w 0)) (fun w _ x => if x =? 8 then (w, false, false) else match w with S w' => (w', true, Nat.eqb w' 0) | O => (O, false, true) end) (fun w => w).
Example a_schedule :
  takes_room busy /\
  match run busy [KInsert 0; KInsert 4; KInsert 8; KInsert 12; KInsert 16; KOrder 4 (Some 1%Z); KOrder 8 (Some 5%Z); KFair 12 true; KGroup 12 (Some 7); KFair 16 true; KGroup 16 (Some 0); KGroup 0 (Some 3)] s_new with
  | Some (s, rs) =>
      rs = map SRes [Rok; Rok; Rok; Rok; Rok; Rok; Rok; Rok; Rok; Rok; RInvalidInput; RInvalidInput] /\ queued s = [8; 4; 16; 12] /\
      match step busy (KWrite 3 5%nat) s with
      | Some (s', SOffers u f b) =>
          u = [Visit 0 true false] /\ b = true /\
          f = [Visit 8 false false; Visit 4 true false; Visit 12 true false; Visit 8 false false; Visit 4 true false; Visit 12 true true]
      | _ => False
      end
  | None => False
  end.
Proof.
  split; [|vm_compute; repeat split]. intros w p x w' b full H. cbn in H. destruct (x =? 8); [inv H; split; [lia | discriminate]|]. destruct w as [|w]; inv H; cbn; split; try lia; try discriminate.
Qed.
