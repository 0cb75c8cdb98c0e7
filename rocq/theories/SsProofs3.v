(** Consequences of the invariant of send streams. *)
From Verif Require Import Base Lib CodecModel FrameModel FrameSpec FrameProofs FrameProps CodecProofs FcModel RtModel RtSpec RtProofs SsModel SsSpec SsProofs SsProofs2.

Lemma reach_inv id max conn ops s toks h : reach id max conn ops s toks h -> inv max s toks h.
Proof.
  intros (A & B & C & D & E). destruct (runs_inv id max conn ops A B C D) as (s' & t' & h' & E' & I). rewrite E in E'. inv E'. exact I.
Qed.
Lemma reach_ind id max conn (P : ss -> list tok -> hist -> Prop) : P (fst (ss_new id max conn)) [] [] ->
  (forall s toks h o s' toks' r evs, inv max s toks h -> op_ok o -> P s toks h -> ss_step (s, toks) o = Some ((s', toks'), r, evs) -> P s' toks' (h ++ [(o, r, evs)])) ->
  forall ops s toks h, reach id max conn ops s toks h -> P s toks h.
Proof.
  intros P0 PS ops. induction ops as [|o ops IH] using rev_ind; intros s toks h (A & B & C & D & E).
  - cbn [ss_runs] in E. assert (s = fst (ss_new id max conn) /\ toks = [] /\ h = []) as (-> & -> & ->) by (splits; congruence). exact P0.
  - apply Forall_app in D as [D1 D2]. inversion D2 as [|? ? D3 _]. subst. rewrite runs_snoc in E.
    destruct (ss_runs _ ops) as [[[s1 t1] h1]|] eqn:E1; [|discriminate]. destruct (ss_step (s1, t1) o) as [[[[s2 t2] r] evs]|] eqn:E2; [|discriminate]. inv E.
    assert (R : reach id max conn ops s1 t1 h1) by (unfold reach; auto). eapply PS; eauto using reach_inv.
Qed.

(** What a step keeps. *)
Definition keeps (h : hist) (s s' : ss) (o : ssop) (evs : list ev) : Prop :=
  ss_id s' = ss_id s /\ (ss_pri s', ss_eff s') = prios1 (ss_pri s, ss_eff s) (o, RNone, []) /\ ss_acked s <= ss_acked s' /\
  (is_rs s = true -> is_rs s' = true) /\ (o = ODrop -> forall e c, m_phase (summ h) = PhReset e c -> is_rs s' = true) /\
  ((forall w, o <> OLow w) -> ss_low s' = ss_low s /\ (ss_avail s < ss_low s -> ss_low s <= ss_avail s' -> In EvWritable evs)) /\
  (In EvWritable evs -> ss_low s' <= ss_avail s').

Lemma keeps_same h s s' o evs : same_but_state s s' -> ~ In EvWritable evs -> (forall p r, o <> OPrio p r) -> (forall w, o <> OLow w) -> o <> ODrop -> keeps h s s' o evs.
Proof.
  intros (A & B & C & D & E & F & G1 & G2 & G3) H Np Nl Nd. unfold keeps. rewrite A, B, C, G1, G2, G3. splits; auto; try lia; try tauto.
  - destruct o; try reflexivity. destruct (Np p r eq_refl).
Qed.
Lemma maybe_writable_in p c s : In EvWritable (ss_maybe_writable p c s) <-> p <= ss_low s /\ ss_low s <= c /\ ss_low s <= ss_avail s.
Proof. unfold ss_maybe_writable. destruct ((ss_low s <? p) || (c <? ss_low s) || (ss_avail s <? ss_low s)) eqn:E; cbn; split; intros H; try lia; auto; tauto. Qed.

Lemma tb_send_obs d b b' n : tb_send d b = (b', n) -> tb_retired b' = tb_retired b /\ tb_avail b' <= tb_avail b.
Proof.
  unfold tb_send. intros E. apply (f_equal fst) in E. cbn [fst] in E. subst b'. unfold tb_retired, tb_avail, tb_buffered. cbn [tb_rt tb_buf].
  split; [reflexivity|]. rewrite lenN_app. lia.
Qed.
Lemma tb_new_obs : tb_retired tb_new = 0 /\ tb_avail tb_new = MAX_SIZE.
Proof. split; reflexivity. Qed.
Lemma consume_obs n fc fc' : sfc_consume n fc = Some fc' -> sfc_available fc' <= sfc_available fc.
Proof. unfold sfc_consume. destruct (_ <=? _); [|discriminate]. intros E. apply (f_equal (fun x => match x with Some f => f | None => fc end)) in E. subst fc'. unfold sfc_available. cbn [sf_limit sf_used]. lia. Qed.
Lemma lost_avail l fc : sfc_available (sfc_lost l fc) = sfc_available fc.
Proof. unfold sfc_lost, sfc_available. destruct (sf_blocked_at fc); [destruct (_ =? _)|]; reflexivity. Qed.
Lemma step_keeps max s toks h o s' toks' r evs : inv max s toks h -> op_ok o -> ss_step (s, toks) o = Some ((s', toks'), r, evs) -> keeps h s s' o evs.
Proof.
  intros I Ho E. assert (I' := I). assert (St : st_ok (slimit max h) h (written h) (summ h) (ss_st s)) by (apply I).
  assert (HC : sf_used (ss_conn s) <= sf_limit (ss_conn s)) by (apply I).
  destruct o; cbn [ss_step] in E.
  - destruct (ss_send d atomic s) as [[s1 r1]|] eqn:Es; [|discriminate]. inv E. unfold ss_send in Es.
    destruct d as [|d0 dr]; [inv Es; apply keeps_same; auto using same_refl; discriminate|].
    set (d := d0 :: dr) in *. clearbody d.
    destruct (ss_st s) eqn:Est; cbn [with_st ss_st] in Es; rewrite ?Est in Es; try (inv Es; apply keeps_same; auto using same_refl; discriminate).
    + rewrite (avail_ready _ _ Est) in Es.
      destruct (ss_avail s =? 0) eqn:A0; [inv Es; apply keeps_same; auto; try discriminate; apply same_st; split; [unfold ss_acked; rewrite Est; reflexivity|split; [apply avail_ready; exact Est|unfold is_rs; rewrite Est; reflexivity]]|].
      destruct (_ && _) eqn:A1.
      { inv Es. apply keeps_same; auto; try discriminate. unfold ss_blocked_if. cbn [with_st ss_st]. unfold same_but_state. cbn [with_conn with_st ss_id ss_pri ss_eff ss_retx ss_low ss_conn]. splits; auto.
        - intros X. destruct (_ <=? _); [destruct (blocked_room (ss_conn s)) as [-> ->]|]; auto.
        - unfold same_obs, ss_acked, ss_avail, is_rs. cbn [with_st with_conn ss_st ss_conn]. rewrite Est, !blocked_if_avail. auto. }
      destruct (tb_send _ tb_new) as [b' n] eqn:Eb. destruct (sfc_consume n fc) as [fc'|] eqn:E1; [|discriminate]. destruct (sfc_consume n (ss_conn _)) as [c'|] eqn:E2; [|discriminate].
      apply tb_send_obs in Eb as [Eb1 Eb2]. apply consume_obs in E1. apply consume_obs in E2. cbn [with_st ss_conn] in E2. destruct tb_new_obs as [En1 En2]. 
      assert (Es1 : s' = with_conn c' (with_st (StSend fc' b' 0) (with_st (StSend fc tb_new 0) s))) by congruence. clear Es. subst s'.
      unfold keeps, ss_acked, ss_avail, is_rs. cbn [with_conn with_st ss_id ss_pri ss_eff ss_st ss_low ss_conn prios1]. rewrite Est. splits; auto; try discriminate; try (rewrite Eb1; lia); try lia; try (intros _; split; [reflexivity|lia]); try intros [].
    + destruct (ss_avail s =? 0) eqn:A0; [inv Es; apply keeps_same; auto using same_refl; try discriminate|].
      destruct (_ && _) eqn:A1.
      { inv Es. apply keeps_same; auto; try discriminate. unfold ss_blocked_if. rewrite Est. unfold same_but_state. cbn [with_conn with_st ss_id ss_pri ss_eff ss_retx ss_low ss_conn]. splits; auto.
        - intros X. destruct (_ <=? _); [destruct (blocked_room (ss_conn s)) as [-> ->]|]; auto.
        - unfold same_obs, ss_acked, ss_avail, is_rs. cbn [with_st with_conn ss_st ss_conn]. rewrite Est, !blocked_if_avail. auto. }
      destruct (tb_send _ b) as [b' n] eqn:Eb. destruct (sfc_consume n fc) as [fc'|] eqn:E1; [|discriminate]. destruct (sfc_consume n (ss_conn _)) as [c'|] eqn:E2; [|discriminate].
      apply tb_send_obs in Eb as [Eb1 Eb2]. apply consume_obs in E1. apply consume_obs in E2. cbn [with_st ss_conn] in E2. destruct tb_new_obs as [En1 En2]. 
      assert (Es1 : s' = with_conn c' (with_st (StSend fc' b' committed) s)) by congruence. clear Es. subst s'.
      unfold keeps, ss_acked, ss_avail, is_rs. cbn [with_conn with_st ss_id ss_pri ss_eff ss_st ss_low ss_conn prios1]. rewrite Est. splits; auto; try discriminate; try (rewrite Eb1; lia); try lia; try (intros _; split; [reflexivity|lia]); try intros [].
  - inv E. unfold keeps, ss_close, ss_acked, ss_avail, is_rs. destruct (ss_st s) eqn:Es; cbn [with_st ss_id ss_pri ss_eff ss_st ss_low ss_conn prios1]; rewrite ?Es; splits; auto; try discriminate; try lia; try (intros _; split; [reflexivity|lia]); try intros [].
  - unfold ss_commit in E. unfold keeps, ss_acked, ss_avail, is_rs. destruct (ss_st s) eqn:Es; inv E; cbn [with_st ss_id ss_pri ss_eff ss_st ss_low ss_conn prios1]; rewrite ?Es; splits; auto; try discriminate; try lia; try (intros _; split; [reflexivity|lia]); try intros [].
  - inv E. unfold keeps, ss_reset, make_reset, ss_acked, ss_avail, is_rs. destruct (ss_st s) eqn:Es; try destruct (_ || _); cbn [with_st ss_id ss_pri ss_eff ss_st ss_low ss_conn prios1]; rewrite ?Es; splits; auto; try discriminate; try lia; try (intros _; split; [reflexivity|lia]); try intros [].
  - inv E. unfold keeps, ss_drop, ss_acked, ss_avail, is_rs. destruct (ss_st s) eqn:Es; try destruct racked; cbn [with_st ss_id ss_pri ss_eff ss_st ss_low ss_conn prios1]; rewrite ?Es; splits; auto; try discriminate; try lia; try (intros _; split; [reflexivity|lia]); try intros [];
      try (cbn [st_ok] in St; intros e c X; destruct St as [St _]; congruence).
  - assert (G : forall fc k, ss_st s = k fc -> (k = StReady \/ exists b c, k = (fun fc => StSend fc b c)) -> fc_ok (slimit max h) (written h) fc ->
       (let '(fc', u) := sfc_update l fc in match u with None => (s, []) | Some cur => let s' := with_st (k fc') s in (s', ss_maybe_writable (sfc_available fc) cur s') end) = (s', evs) -> keeps h s s' (OMaxStream l) evs).
    { intros fc k Ek Kk FO X. destruct (sfc_update l fc) as [fc' [cur|]] eqn:Eu.
      2:{ inv X. apply keeps_same; auto using same_refl; discriminate. }
      inv X. unfold sfc_update in Eu. destruct (_ <? _) eqn:El; [|discriminate]. inv Eu.
      unfold keeps. rewrite maybe_writable_in. cbn [with_st ss_id ss_pri ss_eff ss_low prios1].
      splits; auto; try discriminate.
      - unfold ss_acked. cbn [with_st ss_st]. rewrite Ek. destruct Kk as [->|(b & c & ->)]; lia.
      - unfold is_rs. cbn [with_st ss_st]. rewrite Ek. destruct Kk as [->|(b & c & ->)]; auto.
      - intros _. split; [reflexivity|]. unfold ss_avail. cbn [with_st ss_st ss_conn]. rewrite Ek. destruct Kk as [->|(b & c & ->)]; unfold sfc_available; cbn [sf_limit sf_used]; lia.
      - tauto. }
    destruct (ss_max_stream_data l s) as [s1 e1] eqn:Em. inv E. unfold ss_max_stream_data in Em.
    destruct (ss_st s) eqn:Es; try (inv Em; apply keeps_same; auto using same_refl; discriminate); cbn [st_ok] in St.
    + apply (G fc StReady); auto. apply St.
    + eapply (G fc (fun fc => StSend fc b committed)); auto; [right; eauto|apply St].
  - destruct (ss_conn_op o s) as [s1 e1] eqn:Em. inv E. unfold ss_conn_op in Em.
    assert (G : forall c', sfc_available c' <= sfc_available (ss_conn s) -> keeps h s (with_conn c' s) (OConn o) []).
    { intros c' Hc. unfold keeps, ss_acked, ss_avail, is_rs. cbn [with_conn ss_id ss_pri ss_eff ss_st ss_low ss_conn prios1].
      splits; auto; try discriminate; try lia; [|intros []]. intros _. split; [reflexivity|]. destruct (ss_st s); lia. }
    assert (Gs : keeps h s s (OConn o) []) by (apply keeps_same; auto using same_refl; discriminate).
    destruct o as [l|n| |fits|l]; cbn [sstep] in Em.
    + destruct (sfc_update l (ss_conn s)) as [c' [cur|]] eqn:Eu; [|inv Em; exact Gs].
      inv Em. unfold sfc_update in Eu. destruct (_ <? _) eqn:El; [|discriminate]. inv Eu.
      unfold keeps. rewrite maybe_writable_in. cbn [with_conn ss_id ss_pri ss_eff ss_low prios1].
      splits; auto; try discriminate.
      * unfold ss_acked. cbn [with_conn ss_st]. lia.
      * intros _. split; [reflexivity|]. unfold ss_avail. cbn [with_conn ss_st ss_conn]. assert (IL : 0 < ss_low s) by (apply I). destruct (ss_st s); unfold sfc_available; cbn [sf_limit sf_used]; lia.
      * tauto.
    + unfold sfc_consume in Em. destruct (_ <=? _); inv Em; [|exact Gs]. apply G. unfold sfc_available. cbn. lia.
    + inv Em. apply G. rewrite blocked_avail. lia.
    + unfold sfc_write in Em. destruct (sfc_blocked_needed _); [destruct fits|]; inv Em; apply G; rewrite ?sent_avail; lia.
    + inv Em. apply G. unfold sfc_lost. destruct (sf_blocked_at _); [destruct (_ =? _)|]; unfold sfc_available; cbn; lia.
  - inv E. unfold keeps, ss_acked, ss_avail, is_rs. cbn [ss_set_priority ss_id ss_pri ss_eff ss_st ss_low ss_conn prios1]. splits; auto; try discriminate; try lia; try (intros _; split; [reflexivity|lia]); try intros [].
  - inv E. unfold keeps, ss_acked, ss_avail, is_rs. cbn [ss_set_low ss_id ss_pri ss_eff ss_st ss_low ss_conn prios1]. splits; auto; try discriminate; try lia; try (intros X; destruct (X w eq_refl)); try intros [].
  - pose proof (has_spec _ _ _ _ p I) as X. destruct (ss_has_data_at p s) as [s1 x]. inv E. apply keeps_same; try apply X; try discriminate. intros [].
  - destruct (write_spec _ _ _ _ p rem sp I) as (s1 & fs & more & E1 & _ & _ & _ & SB & _). rewrite E1 in E. inv E. apply keeps_same; auto; discriminate.
  - destruct (nth_error toks (N.to_nat i)) as [[off len fin| |l]|] eqn:En; try apply nth_error_In in En.
    + destruct (ack_stream_spec _ _ _ _ i off len fin I En) as (s1 & e1 & E1 & _ & _ & AM). rewrite E1 in E. inv E.
      unfold ss_mark_acked in E1. unfold keeps. splits; try discriminate; auto.
      * destruct (ss_st s); try (inv E1; reflexivity); destruct (tb_acked off len b); inv E1; try reflexivity; destruct (_ && _) || destruct (_ <=? _); try destruct racked; inv H0; reflexivity.
      * destruct (ss_st s); try (inv E1; reflexivity); destruct (tb_acked off len b); inv E1; try reflexivity; destruct (_ && _) || destruct (_ <=? _); try destruct racked; inv H0; reflexivity.
      * unfold is_rs. destruct (ss_st s) eqn:Es; try discriminate; inv E1; rewrite Es; auto.
      * intros _. destruct (ss_st s) eqn:Es.
        -- inv E1. split; [reflexivity|lia].
        -- destruct (tb_acked off len b) as [b'|] eqn:Eb; [|discriminate]. inv E1. split; [reflexivity|]. rewrite maybe_writable_in. cbn [with_st ss_low].
           unfold ss_avail. cbn [with_st ss_st ss_conn]. rewrite Es. lia.
        -- destruct (tb_acked off len b); inv E1; destruct (_ && _); inv H0; (split; [reflexivity|]); unfold ss_avail; cbn [with_st ss_st]; assert (0 < ss_low s) by (apply I); lia.
        -- inv E1. split; [reflexivity|lia].
        -- inv E1. split; [reflexivity|lia].
        -- destruct (tb_acked off len b); inv E1; destruct (_ <=? _); try destruct racked; inv H0; (split; [reflexivity|]); unfold ss_avail; cbn [with_st ss_st]; assert (0 < ss_low s) by (apply I); lia.
        -- inv E1. split; [reflexivity|lia].
      * destruct (ss_st s) eqn:Es; try (inv E1; intros []); destruct (tb_acked off len b); inv E1.
        -- rewrite maybe_writable_in. tauto.
        -- destruct (_ && _); inv H0; cbn; intuition discriminate.
        -- destruct (_ <=? _); try destruct racked; inv H0; cbn; intuition discriminate.
    + inv E. unfold keeps, ss_reset_acked, ss_acked, ss_avail, is_rs. assert (0 < ss_low s) by (apply I). destruct (ss_st s) eqn:Es; try destruct (_ <=? _); cbn [with_st ss_id ss_pri ss_eff ss_st ss_low ss_conn prios1]; rewrite ?Es; splits; auto; try discriminate; try lia; try (intros _; split; [reflexivity|lia]); try intros [].
    + inv E. apply keeps_same; auto using same_refl; discriminate.
    + inv E. apply keeps_same; auto using same_refl; discriminate.
  - destruct (nth_error toks (N.to_nat i)) as [[off len fin| |l]|] eqn:En; try apply nth_error_In in En.
    + destruct (lose_stream_spec _ _ _ _ i off len fin I En) as (s1 & E1 & _ & AE). rewrite E1 in E. inv E.
      assert (0 < ss_low s) by (apply I). unfold ss_mark_lost in E1. cbn [ss_st] in E1. unfold keeps. rewrite AE.
      assert (AV : forall b b', tb_lost off len b = Some b' -> tb_avail b' = tb_avail b).
      { intros b b' Eb. unfold tb_lost in Eb. destruct (rt_unmark _ _ _); inv Eb. reflexivity. }
      destruct (ss_st s) eqn:Es; try (destruct (tb_lost off len b) as [b'|] eqn:Eb); inv E1; unfold is_rs, ss_avail; cbn [with_st ss_id ss_pri ss_eff ss_st ss_low ss_conn prios1]; rewrite ?Es; splits; auto; try discriminate; try lia; try (intros _; split; [reflexivity|try rewrite (AV _ _ Eb); lia]); try intros [].
    + destruct (lose_reset_spec _ _ _ _ i I En) as (s1 & E1 & _ & AE). rewrite E1 in E. inv E. unfold ss_reset_lost in E1. unfold keeps. rewrite AE.
      destruct (ss_st s) eqn:Es; inv E1; unfold is_rs, ss_avail; cbn [with_st ss_id ss_pri ss_eff ss_st ss_low ss_conn prios1]; rewrite ?Es; splits; auto; try discriminate; try lia; try (intros _; split; [reflexivity|lia]); try intros [].
    + inv E. unfold keeps, ss_blocked_lost, ss_acked, ss_avail, is_rs. destruct (ss_st s) eqn:Es; cbn [with_st ss_id ss_pri ss_eff ss_st ss_low ss_conn prios1]; rewrite ?Es, ?lost_avail; splits; auto; try discriminate; try lia; try (intros _; split; [reflexivity|lia]); try intros [].
    + inv E. apply keeps_same; auto using same_refl; discriminate.
Qed.

Lemma reach_id id max conn ops s toks h : reach id max conn ops s toks h -> ss_id s = id.
Proof.
  revert ops s toks h. apply reach_ind; [reflexivity|]. intros s toks h o s' toks' r evs I Ho E St. destruct (step_keeps _ _ _ _ _ _ _ _ _ I Ho St) as (-> & _). exact E.
Qed.
Lemma reach_prios id max conn ops s toks h : reach id max conn ops s toks h -> (ss_pri s, ss_eff s) = prios h.
Proof.
  revert ops s toks h. apply reach_ind; [reflexivity|]. intros s toks h o s' toks' r evs I Ho E St. destruct (step_keeps _ _ _ _ _ _ _ _ _ I Ho St) as (_ & -> & _).
  unfold prios. rewrite fold_left_app. fold (prios h). rewrite <- E. cbn [fold_left]. destruct o; reflexivity.
Qed.
Lemma reach_dropped id max conn ops s toks h : reach id max conn ops s toks h -> m_dropped (summ h) = true -> is_rs s = true.
Proof.
  revert ops s toks h. apply (reach_ind id max conn (fun s toks h => m_dropped (summ h) = true -> is_rs s = true)); [discriminate|]. intros s toks h o s' toks' r evs I Ho E St. destruct (step_keeps _ _ _ _ _ _ _ _ _ I Ho St) as (_ & _ & _ & K & D & _).
  rewrite summ_snoc. destruct (m_dropped (summ h)) eqn:Em; [auto|]. intros X. destruct o; cbn in X; try congruence.
  destruct (m_phase (summ h)) eqn:Ep; try congruence. eapply D; eauto.
Qed.

(** ** What the theorems say *)
Lemma ask_spec max s toks h p b : inv max s toks h -> ask s toks p b -> (b = true <-> pending p s \/ blocked_pending p s \/ stuff (written h) p s).
Proof.
  intros I (w & E). cbn [ss_step] in E. pose proof (has_spec _ _ _ _ p I) as X. destruct (ss_has_data_at p s) as [s1 x]. assert (x = b) by congruence. subst x. apply X.
Qed.
Lemma ask_total max s toks h p : inv max s toks h -> exists b, ask s toks p b /\ (b = true <-> snd (ss_has_data_at p s) = true).
Proof. intros I. unfold ask. cbn [ss_step]. destruct (ss_has_data_at p s) as [s1 x]. exists x. split; [eauto|reflexivity]. Qed.
Lemma oprio_self p : oprio_eqb (Some p) p = true. Proof. destruct p; reflexivity. Qed.
Lemma prio_refl p : prio_eqb p p = true. Proof. destruct p; reflexivity. Qed.
Lemma prio_eq p q : prio_eqb p q = true -> p = q. Proof. destruct p, q; cbn; congruence. Qed.

Lemma marked_settled h W b y : buf_ok h W b -> state_of (tb_rt b) y <> None -> settled h (fun t => carries t y).
Proof. intros (_ & _ & _ & _ & _ & F & G) H. destruct (state_of (tb_rt b) y) as [[|]|] eqn:E; [left; apply F; exact E|right; apply G; exact E|congruence]. Qed.
Lemma not_unmarked W b lim y : ~ unmarked_below W b lim -> y < lenN W -> y < lim -> state_of (tb_rt b) y <> None.
Proof. intros H A B C. apply H. exists y. auto. Qed.

Lemma left_behind id max conn ops s toks h : reach id max conn ops s toks h -> (forall p, ask s toks p false) ->
  match m_phase (summ h) with
  | PhOpen => forall b, b < lenN (written h) -> settled h (fun t => carries t b)
  | PhClosed => (forall b, b < lenN (written h) -> settled h (fun t => carries t b)) /\ settled h is_fin
  | PhReset e c => settled h is_reset /\ (m_dropped (summ h) = false -> forall b, b < c -> settled h (fun t => carries t b))
  end.
Proof.
  intros R A. assert (I := reach_inv _ _ _ _ _ _ _ R).
  assert (NN : forall p, ~ pending p s /\ ~ blocked_pending p s /\ ~ stuff (written h) p s).
  { intros p. pose proof (ask_spec _ _ _ _ p false I (A p)) as X. splits; intros Y; assert (false = true) by (apply X; auto); discriminate. }
  assert (ST : ~ has_stuff (written h) false s).
  { intros X. apply (NN (ss_pri s)). exists false. split; [|exact X]. unfold ss_is_retx. rewrite prio_refl. reflexivity. }
  assert (I13 : st_ok (slimit max h) h (written h) (summ h) (ss_st s)) by (apply I).
  destruct (ss_st s) eqn:Es; cbn [st_ok] in I13; unfold has_stuff in ST; rewrite Es in ST.
  - destruct I13 as (-> & _ & -> & _). cbn. lia.
  - destruct I13 as (-> & _ & _ & B & _). intros x Hx. eapply marked_settled; eauto. eapply not_unmarked; eauto.
  - destruct I13 as (-> & _ & B & _ & F1 & F2 & _). split.
    + intros x Hx. eapply marked_settled; eauto. eapply not_unmarked; eauto.
    + destruct fin_sent; [|tauto]. destruct (F2 eq_refl); [right|left]; auto.
  - destruct I13 as (-> & _ & _ & _ & U & F). split; [intros x Hx; left; apply U; exact Hx|left; exact F].
  - destruct I13 as (c & -> & H2 & H3 & H4 & H5 & H6 & H7 & H8 & H9 & H10). split.
    + right. apply H10. destruct pr as [q|]; [|reflexivity]. exfalso. destruct (NN q) as (X & _). apply X. unfold pending. rewrite Es. apply oprio_self.
    + intros ND x Hx. left. destruct H6 as [[_ U]|[_ D]]; [apply U; exact Hx|congruence].
  - destruct I13 as (-> & H2 & H3 & H4 & H5 & H6 & H7 & H8 & H9). split.
    + right. apply H9. destruct pr as [q|]; [|reflexivity]. exfalso. destruct (NN q) as (X & _). apply X. unfold pending. rewrite Es. apply oprio_self.
    + intros _ x Hx. eapply marked_settled; eauto. eapply not_unmarked; eauto. lia.
  - destruct I13 as (e & c & -> & H2 & H3 & H4 & H5 & H6). split; [left; exact H3|]. intros ND x Hx. left. destruct H6 as [U|D]; [apply U; exact Hx|congruence].
Qed.

Lemma lost_again id max conn ops s toks h b : reach id max conn ops s toks h -> ask s toks (snd (prios h)) false ->
  was_lost h (fun t => carries t b) ->
  match m_phase (summ h) with PhReset _ c => b < c -> m_dropped (summ h) = false -> settled h (fun t => carries t b) | _ => settled h (fun t => carries t b) end.
Proof.
  intros R A WL. assert (I := reach_inv _ _ _ _ _ _ _ R). rewrite <- (reach_prios _ _ _ _ _ _ _ R) in A. cbn [snd] in A.
  pose proof (ask_spec _ _ _ _ _ false I A) as X.
  assert (ST : exists re, ~ has_stuff (written h) re s).
  { destruct (ss_is_retx (ss_eff s) s) as [re|] eqn:E.
    - exists re. intros Y. assert (false = true) by (apply X; right; right; exists re; auto). discriminate.
    - exfalso. unfold ss_is_retx in E. rewrite prio_refl in E. destruct (prio_eqb (ss_eff s) (ss_pri s)); discriminate. }
  destruct ST as [re ST].
  assert (LR : b < ss_retx s). { destruct I as (_ & _ & _ & _ & _ & _ & _ & _ & _ & _ & _ & I12 & _). apply I12. exact WL. }
  assert (LW : b < lenN (written h)).
  { assert (G : forall ops s toks h, reach id max conn ops s toks h -> forall b, was_lost h (fun t => carries t b) -> b < lenN (written h)).
    { clear. apply (reach_ind id max conn (fun s toks h => forall b, was_lost h (fun t => carries t b) -> b < lenN (written h))).
      - intros b (e & [] & _).
      - intros s toks h o s' toks' r evs I Ho IH E b (e & He & L). rewrite written_snoc, lenN_app. apply in_app_or in He as [He|[<-|[]]].
        + assert (b < lenN (written h)) by (apply IH; exists e; auto). lia.
        + destruct o; cbn in L; try tauto. cbn [ss_step] in E. destruct (nth_error toks (N.to_nat i)) as [t|] eqn:En; [|inv E; tauto].
          apply nth_error_In in En. destruct (tok_good _ _ _ _ _ I En) as (l & G). destruct t as [off len fin| |lim].
          * destruct (ss_mark_lost off len fin s); inv E. unfold frame_good in G. cbn in G, L. unfold covers in L. lia.
          * destruct (ss_reset_lost s); inv E. cbn in L. tauto.
          * inv E. cbn in L. tauto. }
    eapply G; eauto. }
  assert (I13 : st_ok (slimit max h) h (written h) (summ h) (ss_st s)) by (apply I).
  destruct (ss_st s) eqn:Es; cbn [st_ok] in I13; unfold has_stuff in ST; rewrite Es in ST.
  - destruct I13 as (-> & _ & HW & _). rewrite HW in LW. change (lenN []) with 0 in LW. lia.
  - destruct I13 as (-> & _ & _ & B & _). eapply marked_settled; eauto. eapply not_unmarked; eauto. destruct re; lia.
  - destruct I13 as (-> & _ & B & _ & F1 & F2 & _). eapply marked_settled; eauto. eapply not_unmarked; eauto.
  - destruct I13 as (-> & _ & _ & _ & U & F). left; apply U; exact LW.
  - destruct I13 as (c & -> & H2 & H3 & H4 & H5 & H6 & H7 & H8 & H9 & H10). intros Hc ND. left. destruct H6 as [[_ U]|[_ D]]; [apply U; exact Hc|congruence].
  - destruct I13 as (-> & H2 & H3 & H4 & H5 & H6 & H7 & H8 & H9). intros Hc ND. eapply marked_settled; eauto. eapply not_unmarked; eauto. destruct re; lia.
  - destruct I13 as (e & c & -> & H2 & H3 & H4 & H5 & H6). intros Hc ND. left. destruct H6 as [U|D]; [apply U; exact Hc|congruence].
Qed.

Lemma all_acked_empty h W b : buf_ok h W b -> acked_upto h (lenN W) -> tb_buf b = [].
Proof.
  intros H U. destruct (tb_buf b) as [|x l] eqn:E; [reflexivity|]. exfalso. destruct (retired_max h W b H) as [A B]; [rewrite E; discriminate|]. apply B. apply U. exact A.
Qed.
Lemma complete_iff max s toks h : inv max s toks h ->
  (m_complete (summ h) = true <-> m_phase (summ h) = PhClosed /\ acked_upto h (lenN (written h)) /\ was_acked h is_fin).
Proof.
  intros I. assert (I13 : st_ok (slimit max h) h (written h) (summ h) (ss_st s)) by (apply I).
  destruct (ss_st s) eqn:Es; cbn [st_ok] in I13.
  - destruct I13 as (-> & -> & _). split; [discriminate|]. intros (? & _). discriminate.
  - destruct I13 as (-> & -> & _). split; [discriminate|]. intros (? & _). discriminate.
  - destruct I13 as (-> & -> & B & _ & F1 & F2 & F3). split; [discriminate|]. intros (_ & U & F). exfalso. apply F1 in F. exact (F3 F (all_acked_empty _ _ _ B U)).
  - destruct I13 as (-> & -> & _ & _ & U & F). split; auto.
  - destruct I13 as (c & -> & -> & _). split; [discriminate|]. intros (? & _). discriminate.
  - destruct I13 as (-> & -> & _). split; [discriminate|]. intros (? & _). discriminate.
  - destruct I13 as (e & c & -> & -> & _). split; [discriminate|]. intros (? & _). discriminate.
Qed.
Lemma sum1_complete m e : m_complete (sum1 m e) = m_complete m || existsb (fun x => match x with EvComplete => true | _ => false end) (snd e).
Proof. destruct e as [[o r] evs]. destruct o; reflexivity. Qed.
Lemma completions_count id max conn ops s toks h : reach id max conn ops s toks h -> completions h = if m_complete (summ h) then 1%nat else 0%nat.
Proof.
  revert ops s toks h. apply (reach_ind id max conn (fun s toks h => completions h = if m_complete (summ h) then 1%nat else 0%nat)); [reflexivity|].
  intros s toks h o s' toks' r evs I Ho IH E. destruct (step_inv _ _ _ _ o I Ho) as (s2 & t2 & r2 & e2 & E2 & _ & C). rewrite E in E2. inv E2.
  unfold completions in *. rewrite flat_map_app, filter_app, app_length, IH, summ_snoc, sum1_complete. cbn [flat_map snd]. rewrite app_nil_r.
  destruct (existsb _ e2) eqn:Ex.
  - apply existsb_exists in Ex as ([|] & Hx & Hy); [discriminate|]. destruct (C Hx) as [-> ->]. reflexivity.
  - rewrite orb_false_r. replace (filter _ e2) with (@nil ev); [cbn [length]; destruct (m_complete _); reflexivity|]. clear -Ex. induction e2 as [|x e2 IH]; [reflexivity|]. cbn [existsb filter] in *. destruct x; [apply IH; exact Ex|discriminate].
Qed.

Lemma reset_ended id max conn ops s toks h e c : reach id max conn ops s toks h -> m_phase (summ h) = PhReset e c ->
  (ss_ended s = true <-> was_acked h is_reset /\ (acked_upto h c \/ m_dropped (summ h) = true)).
Proof.
  intros R P. assert (I := reach_inv _ _ _ _ _ _ _ R). assert (D := reach_dropped _ _ _ _ _ _ _ R).
  assert (I13 : st_ok (slimit max h) h (written h) (summ h) (ss_st s)) by (apply I). unfold ss_ended.
  destruct (ss_st s) eqn:Es; cbn [st_ok] in I13.
  - destruct I13 as (X & _). congruence.
  - destruct I13 as (X & _). congruence.
  - destruct I13 as (X & _). congruence.
  - destruct I13 as (X & _). congruence.
  - destruct I13 as (c0 & H1 & H2 & H3 & H4 & H5 & H6 & H7 & H8 & H9 & H10). split; [discriminate|tauto].
  - destruct I13 as (H1 & H2 & H3 & H4 & H5 & H6 & H7 & H8 & H9). split; [discriminate|]. intros [_ [U|Dr]]; exfalso.
    + assert (c = reliable) by congruence. subst c. destruct (retired_max _ _ _ H6) as [A B]; [|apply B, U; exact H7].
      intros X. pose proof (buf_buffered _ _ _ H6) as HB. unfold tb_buffered in HB. rewrite X in HB. change (lenN []) with 0 in HB. lia.
    + specialize (D Dr). unfold is_rs in D. rewrite Es in D. discriminate.
  - destruct I13 as (e0 & c0 & H1 & H2 & H3 & H4 & H5 & H6). assert (c0 = c) by congruence. subst c0. tauto.
Qed.
Lemma closed_ended max s toks h : inv max s toks h -> m_phase (summ h) = PhClosed -> (ss_ended s = true <-> m_complete (summ h) = true).
Proof.
  intros I P. assert (I13 : st_ok (slimit max h) h (written h) (summ h) (ss_st s)) by (apply I). unfold ss_ended.
  destruct (ss_st s) eqn:Es; cbn [st_ok] in I13.
  - destruct I13 as (X & -> & _). split; discriminate.
  - destruct I13 as (X & -> & _). split; discriminate.
  - destruct I13 as (X & -> & _). split; discriminate.
  - destruct I13 as (X & -> & _). tauto.
  - destruct I13 as (c & X & _). congruence.
  - destruct I13 as (X & _). congruence.
  - destruct I13 as (e0 & c & X & _). congruence.
Qed.
Lemma open_not_ended max s toks h : inv max s toks h -> m_phase (summ h) = PhOpen -> ss_ended s = false.
Proof.
  intros I P. assert (I13 : st_ok (slimit max h) h (written h) (summ h) (ss_st s)) by (apply I). unfold ss_ended.
  destruct (ss_st s) eqn:Es; cbn [st_ok] in I13; auto.
  - destruct I13 as (X & _). congruence.
  - destruct I13 as (e0 & c & X & _). congruence.
Qed.

Lemma stats_ok max s toks h : inv max s toks h ->
  ss_written s = lenN (written h) /\ ss_bytes s = highest toks /\ acked_upto h (ss_acked s) /\
  ss_acked s <= ss_bytes s <= ss_written s /\
  ((forall e c, m_phase (summ h) <> PhReset e c) -> (forall n, n <= lenN (written h) -> acked_upto h n -> n <= ss_acked s) /\ ss_written s - ss_acked s <= MAX_SIZE).
Proof.
  intros I. assert (I13 : st_ok (slimit max h) h (written h) (summ h) (ss_st s)) by (apply I).
  assert (A : ss_written s = lenN (written h) /\ acked_upto h (ss_acked s) /\
     ((forall e c, m_phase (summ h) <> PhReset e c) -> (forall n, n <= lenN (written h) -> acked_upto h n -> n <= ss_acked s) /\ ss_written s - ss_acked s <= MAX_SIZE)).
  { assert (Bf : forall b, buf_ok h (written h) b -> tb_used b = lenN (written h) /\ acked_upto h (tb_retired b) /\
       (forall n, n <= lenN (written h) -> acked_upto h n -> n <= tb_retired b) /\ tb_used b - tb_retired b <= MAX_SIZE).
    { intros b B. splits; [eapply buf_used; eauto|eapply buf_acked_upto; eauto| |].
      - intros n Hn U. destruct (N.le_gt_cases n (tb_retired b)) as [|Hg]; [assumption|]. exfalso. destruct (retired_max _ _ _ B) as [X Y]; [|apply Y, U; exact Hg].
        intros X. pose proof (buf_buffered _ _ _ B) as HB. unfold tb_buffered in HB. rewrite X in HB. change (lenN []) with 0 in HB. lia.
      - unfold tb_used. destruct B as (_ & _ & _ & B & _). lia. }
    unfold ss_written, ss_acked. destruct (ss_st s) eqn:Es; cbn [st_ok] in I13.
    - destruct I13 as (_ & _ & -> & _). cbn. splits; auto; [intros x Hx; lia|]. intros _. split; [intros n Hn _; exact Hn|lia].
    - destruct (Bf b) as (B1 & B2 & B3 & B4); [apply I13|]. splits; auto.
    - destruct (Bf b) as (B1 & B2 & B3 & B4); [apply I13|]. splits; auto.
    - destruct I13 as (_ & _ & -> & -> & U & _). splits; auto; [lia|]. intros _. split; [auto|]. lia.
    - destruct I13 as (c & X & I13). splits; try apply I13. intros Y. destruct (Y _ _ X).
    - destruct I13 as (X & _ & _ & _ & _ & B & _). destruct (Bf b) as (B1 & B2 & B3 & B4); [exact B|]. splits; auto.
    - destruct I13 as (e & c & X & I13). splits; try apply I13. intros Y. destruct (Y _ _ X). }
  destruct A as (A1 & A2 & A3). destruct I as (I1 & I2 & I3 & I4 & I5 & I6 & I7 & I8 & I9 & I10 & I11 & I12 & _).
  assert (HL : forall x t, In t toks -> carries t x -> x < highest toks).
  { intros x t. clear. induction toks as [|t' ts IH]; [intros []|]. cbn [highest fold_right]. fold (highest ts). intros [->|H] C; [|specialize (IH H C); destruct t'; lia].
    destruct t; cbn in C; try tauto. unfold covers in C. lia. }
  splits; auto.
  - rewrite I11. destruct (N.le_gt_cases (ss_acked s) (highest toks)) as [|Hg]; [assumption|]. exfalso.
    destruct (I10 _ (A2 (highest toks) Hg)) as (t & Ht & C). specialize (HL _ _ Ht C). lia.
  - rewrite A1, I11, I1. clear -I9. induction (frames h) as [|f fs IH]; cbn [map highest fold_right]; [lia|]. inversion I9; subst. fold (highest (map snd fs)). specialize (IH H2).
    destruct f as [l [off len fin| |lim]]; cbn [snd]; try exact IH. unfold frame_good in H1. cbn in H1. lia.
Qed.

Lemma avail_ok max s toks h : inv max s toks h ->
  ss_avail s = match m_phase (summ h) with
               | PhOpen => N.min (N.min (slimit max h - lenN (written h)) (sf_limit (ss_conn s) - sf_used (ss_conn s))) (MAX_SIZE - (lenN (written h) - ss_acked s))
               | _ => 0
               end.
Proof.
  intros I. assert (I13 : st_ok (slimit max h) h (written h) (summ h) (ss_st s)) by (apply I). unfold ss_avail, ss_acked.
  destruct (ss_st s) eqn:Es; cbn [st_ok] in I13.
  - destruct I13 as (-> & _ & -> & F1 & F2 & _). unfold sfc_available. rewrite F1, F2. change (lenN []) with 0. unfold MAX_SIZE, MAX_LOCAL_MAX_STREAM_DATA in *. lia.
  - destruct I13 as (-> & _ & (F1 & F2 & _) & B & _). unfold sfc_available, tb_avail. rewrite F1, F2, (buf_buffered _ _ _ B). unfold MAX_SIZE, MAX_LOCAL_MAX_STREAM_DATA in *. lia.
  - destruct I13 as (-> & _). reflexivity.
  - destruct I13 as (-> & _). reflexivity.
  - destruct I13 as (c & -> & _). reflexivity.
  - destruct I13 as (-> & _). reflexivity.
  - destruct I13 as (e & c & -> & _). reflexivity.
Qed.

Lemma nth_firstn {A} n i (l : list A) : (i < n)%nat -> nth_error (firstn n l) i = nth_error l i.
Proof. revert i l. induction n as [|n IH]; intros i l H; [lia|]. destruct l as [|x l]; [destruct i; reflexivity|]. destruct i as [|i]; [reflexivity|]. cbn. apply IH. lia. Qed.
Lemma nth_skipn {A} n i (l : list A) : nth_error (skipn n l) i = nth_error l (n + i).
Proof. revert l. induction n as [|n IH]; intros l; [reflexivity|]. destruct l as [|x l]; [destruct i; reflexivity|]. cbn. apply IH. Qed.
Lemma slice_nth off len (w : list N) x : covers off len x -> nth_error (slice off len w) (N.to_nat (x - off)) = nth_error w (N.to_nat x).
Proof.
  intros H. unfold covers, slice, firstnN, skipnN in *.
  rewrite nth_firstn by lia. rewrite nth_skipn. f_equal. lia.
Qed.
Lemma same_bytes id L W m f1 f2 o1 l1 n1 o2 l2 n2 : frame_good id L W m f1 -> frame_good id L W m f2 ->
  snd f1 = TkStream o1 l1 n1 -> snd f2 = TkStream o2 l2 n2 ->
  exists d1 d2 x1 x2, frame_wire (FStream id o1 d1 n1 x1) = Some (fst f1) /\ frame_wire (FStream id o2 d2 n2 x2) = Some (fst f2) /\
    lenN d1 = l1 /\ lenN d2 = l2 /\ forall x, covers o1 l1 x -> covers o2 l2 x -> nth_error d1 (N.to_nat (x - o1)) = nth_error d2 (N.to_nat (x - o2)).
Proof.
  intros G1 G2 E1 E2. unfold frame_good in *. rewrite E1 in G1. rewrite E2 in G2. destruct G1 as (A1 & _ & _ & x1 & B1). destruct G2 as (A2 & _ & _ & x2 & B2).
  eexists _, _, x1, x2. splits; [exact B1|exact B2|apply lenN_slice; lia|apply lenN_slice; lia|]. intros x C1 C2. rewrite !slice_nth by assumption. reflexivity.
Qed.
