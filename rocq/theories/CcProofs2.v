(** Proofs: persistent congestion, undone reactions, HyStart++, SEARCH. *)
From Coq Require Import Sorted.
From Verif Require Import Base Lib FcModel LrModel LrSpec CcModel CcSpec CcProofs.

(** ** Persistent congestion *)
Definition run_in (period : N) (ps : list pkt) : Prop :=
  exists p q, In p ps /\ In q ps /\ cc_in_flight p = true /\ cc_in_flight q = true /\ p_pn p <= p_pn q /\
    (forall n, p_pn p <= n -> n <= p_pn q -> In n (map p_pn ps)) /\ period < p_time q - p_time p.
Definition run_from (period l t : N) (ps : list pkt) : Prop :=
  exists q, In q ps /\ cc_in_flight q = true /\ (forall n, l < n -> n <= p_pn q -> In n (map p_pn ps)) /\ period < p_time q - t.
Lemma scan_iff : forall period ps last start, in_order ps ->
  (forall l, last = Some l -> forall p, In p ps -> l < p_pn p) ->
  (forall t, start = Some t -> last <> None /\ forall p, In p ps -> t <= p_time p) ->
  exists b, pc_scan period last start ps = Some b /\
    (b = true <-> run_in period ps \/ exists l t, last = Some l /\ start = Some t /\ run_from period l t ps).
Proof.
  induction ps as [|p ps IH]; intros last start Srt HL HS; cbn [pc_scan].
  { exists false. split; [reflexivity|]. split; [discriminate|]. intros [(p & q & [] & _)|(l & t & _ & _ & q & [] & _)]. }
  apply StronglySorted_inv in Srt. destruct Srt as [Srt Fa]. rewrite Forall_forall in Fa.
  assert (HL' : forall l, Some (p_pn p) = Some l -> forall q, In q ps -> l < p_pn q) by (intros l E q Hq; injection E as <-; apply Fa; exact Hq).
  (* the run that includes [p] starts at [start'] *)
  set (start' := if match last with Some l => negb (p_pn p =? l + 1) | None => true end then None else start).
  (* what the rest finds *)
  assert (MONO : run_in period ps -> run_in period (p :: ps)).
  { intros (a & b & A & B & C & D & E & F & G). exists a, b. splits; auto; try (now right). intros n N1 N2. right. auto. }
  assert (HEAD : forall l t, last = Some l -> start = Some t -> run_from period l t (p :: ps) -> start' = Some t).
  { intros l t -> -> (q & Q1 & Q2 & Q3 & Q4). subst start'. destruct (p_pn p =? l + 1) eqn:E; [reflexivity|]. exfalso.
    assert (L1 : l < p_pn p) by (apply (HL l eq_refl); now left).
    assert (L2 : p_pn p <= p_pn q) by (destruct Q1 as [<-|Q1]; [lia|]; apply Fa in Q1; lia).
    assert (X : In (l + 1) (map p_pn (p :: ps))) by (apply Q3; lia). cbn in X. destruct X as [X|X]; [lia|].
    apply in_map_iff in X. destruct X as (r & R1 & R2). apply Fa in R2. lia. }
  assert (START : forall t, start' = Some t -> exists l, last = Some l /\ start = Some t /\ p_pn p = l + 1 /\ t <= p_time p /\ forall q, In q ps -> t <= p_time q).
  { intros t E. subst start'. destruct last as [l|]; [|discriminate]. destruct (p_pn p =? l + 1) eqn:X; cbn [negb] in E; [|discriminate].
    exists l. destruct (HS t E) as [_ T]. splits; auto; [lia|apply T; now left|intros q Hq; apply T; now right]. }
  clearbody start'.
  assert (UP : forall l t, p_pn p = l + 1 -> run_from period (p_pn p) t ps <-> (exists q, In q ps /\ cc_in_flight q = true /\ (forall n, l < n -> n <= p_pn q -> In n (map p_pn (p :: ps))) /\ period < p_time q - t)).
  { intros l t E. split; intros (q & Q1 & Q2 & Q3 & Q4); exists q; splits; auto.
    - intros n N1 N2. destruct (N.eq_dec n (p_pn p)) as [->|]; [now left|]. right. apply Q3; lia.
    - intros n N1 N2. destruct (Q3 n) as [X|X]; [lia|assumption|lia|exact X]. }
  assert (PR : forall q, In q ps -> cc_in_flight p = true -> (forall n, p_pn p <= n -> n <= p_pn q -> In n (map p_pn (p :: ps))) <-> (forall n, p_pn p < n -> n <= p_pn q -> In n (map p_pn ps))).
  { intros q Hq _. split; intros X n N1 N2.
    - destruct (X n) as [Y|Y]; [lia|assumption|lia|exact Y].
    - destruct (N.eq_dec n (p_pn p)) as [->|]; [now left|]. right. apply X; lia. }
  assert (SPLIT : run_in period (p :: ps) -> run_in period ps \/ cc_in_flight p = true /\ (run_from period (p_pn p) (p_time p) ps)).
  { intros (a & b & A & B & C & D & E & F & G). destruct A as [<-|A].
    - destruct B as [<-|B]; [rewrite N.sub_diag in G; lia|]. right. split; [assumption|]. exists b. splits; auto. apply PR; auto.
    - destruct B as [<-|B]; [apply Fa in A; lia|]. left. exists a, b. splits; auto. intros n N1 N2. destruct (F n N1 N2) as [X|X]; [|exact X]. apply Fa in A. lia. }
  assert (JOIN : cc_in_flight p = true -> run_from period (p_pn p) (p_time p) ps -> run_in period (p :: ps)).
  { intros Fp (q & Q1 & Q2 & Q3 & Q4). exists p, q. splits; auto; [now left|now right|apply Fa in Q1; lia|apply PR; auto]. }
  destruct (cc_in_flight p) eqn:Fp.
  - destruct start' as [t|] eqn:Es.
    + destruct (START t eq_refl) as (l & El & Et & Ep & Tp & Tq). destruct (p_time p <? t) eqn:Lt; [lia|].
      destruct (period <? p_time p - t) eqn:Pd.
      * exists true. split; [reflexivity|]. split; [intros _|reflexivity]. right. exists l, t. splits; auto. exists p. splits; auto; [now left| |lia].
        intros n N1 N2. left. lia.
      * destruct (IH (Some (p_pn p)) (Some t) Srt HL') as (b & B1 & B2); [intros u Eu; injection Eu as <-; split; [discriminate|exact Tq]|].
        exists b. split; [exact B1|]. rewrite B2. split.
        -- intros [X|(l' & t' & X1 & X2 & X)]; [left; auto|]. injection X1 as <-. injection X2 as <-. right. exists l, t. splits; auto.
           apply UP with (l := l) in X; [|assumption]. destruct X as (q & Q1 & Q2 & Q3 & Q4). exists q. splits; auto. now right.
        -- intros [X|(l' & t' & X1 & X2 & (q & Q1 & Q2 & Q3 & Q4))].
           ++ apply SPLIT in X. destruct X as [X|(_ & X)]; [left; exact X|]. right. exists (p_pn p), t. splits; auto.
              destruct X as (q & Q1 & Q2 & Q3 & Q4). exists q. splits; auto. lia.
           ++ assert (l' = l) by congruence. assert (t' = t) by congruence. subst l' t'. right. exists (p_pn p), t. splits; auto.
              destruct Q1 as [<-|Q1]; [lia|]. apply UP with (l := l); [assumption|]. exists q. splits; auto.
    + destruct (IH (Some (p_pn p)) (Some (p_time p)) Srt HL') as (b & B1 & B2); [intros u Eu; injection Eu as <-; split; [discriminate|intros q Hq; apply Fa in Hq; lia]|].
      exists b. split; [exact B1|]. rewrite B2. split.
      * intros [X|(l' & t' & X1 & X2 & X)]; [left; auto|]. injection X1 as <-. injection X2 as <-. left. auto.
      * intros [X|(l' & t' & X1 & X2 & X)]; [|exfalso; pose proof (HEAD _ _ X1 X2 X); discriminate].
        apply SPLIT in X. destruct X as [X|(_ & X)]; [left; exact X|]. right. exists (p_pn p), (p_time p). splits; auto.
  - destruct (IH (Some (p_pn p)) start' Srt HL') as (b & B1 & B2).
    { intros u Eu. split; [discriminate|]. destruct (START u Eu) as (l & _ & _ & _ & _ & T). exact T. }
    exists b. split; [exact B1|]. rewrite B2. split.
    + intros [X|(l' & t' & X1 & X2 & X)]; [left; auto|]. injection X1 as <-. destruct (START t' X2) as (l & El & Et & Ep & _ & _).
      right. exists l, t'. splits; auto. apply UP with (l := l) in X; [|assumption]. destruct X as (q & Q1 & Q2 & Q3 & Q4). exists q. splits; auto. now right.
    + intros [X|(l' & t' & X1 & X2 & X)].
      * apply SPLIT in X. destruct X as [X|(Y & _)]; [left; exact X|discriminate].
      * pose proof (HEAD _ _ X1 X2 X) as Es. right. exists (p_pn p), t'. splits; auto. destruct (START t' Es) as (l & El & Et & Ep & _ & _).
        assert (l' = l) by congruence. subst l'. apply UP with (l := l); [assumption|].
        destruct X as (q & Q1 & Q2 & Q3 & Q4). destruct Q1 as [<-|Q1]; [congruence|]. exists q. splits; auto.
Qed.
Lemma skip_while_filter : forall cut ps, in_order ps -> skip_while (fun p => p_time p <? cut) ps = filter (fun p => cut <=? p_time p) ps.
Proof.
  intros cut ps. induction ps as [|p ps IH]; intros Srt; [reflexivity|]. apply StronglySorted_inv in Srt. destruct Srt as [Srt Fa]. rewrite Forall_forall in Fa.
  cbn [skip_while filter]. destruct (p_time p <? cut) eqn:E.
  - replace (cut <=? p_time p) with false by lia. auto.
  - replace (cut <=? p_time p) with true by lia. f_equal. clear - Fa E. induction ps as [|q ps IH]; [reflexivity|]. cbn [filter]. destruct (Fa q) as [_ T]; [now left|].
    replace (cut <=? p_time q) with true by lia. f_equal. apply IH. intros x Hx. apply Fa. now right.
Qed.
Lemma sorted_filter : forall {A} (R : A -> A -> Prop) f l, StronglySorted R l -> StronglySorted R (filter f l).
Proof.
  intros A R f l. induction l as [|x l IH]; intros S; [constructor|]. apply StronglySorted_inv in S. destruct S as [S F]. cbn [filter].
  destruct (f x); [|auto]. constructor; [auto|]. rewrite Forall_forall in *. intros y Hy. apply filter_In in Hy. apply F. tauto.
Qed.
Lemma persistent_iff : forall first prev pto ps c, in_order ps -> exists c', persistent first prev pto ps c = Some c' /\
  (persistent_congestion first prev pto ps -> s_phase (c_cur c') = PPersist /\ cwnd c' = 2 * c_mtu c /\ s_acked (c_cur c') = 0 /\ c_ss c' = ss_reset (c_ss c) /\
     s_ssthresh (c_cur c') = s_ssthresh (c_cur c)) /\
  (~ persistent_congestion first prev pto ps -> c' = c) /\ (persistent_congestion first prev pto ps \/ ~ persistent_congestion first prev pto ps).
Proof.
  intros first prev pto ps c Srt. unfold persistent. destruct first as [f|].
  2:{ exists c. assert (~ persistent_congestion None prev pto ps) by (intros (x & _ & _ & X & _); discriminate). splits; auto. intros; contradiction. }
  set (cut := match prev with Some t => N.max f t | None => f end).
  rewrite skip_while_filter by assumption. set (ps' := filter _ ps).
  destruct (scan_iff (pto * 3) ps' None None (sorted_filter _ _ _ Srt)) as (b & B1 & B2); try discriminate. rewrite B1.
  assert (EQ : run_in (pto * 3) ps' <-> persistent_congestion (Some f) prev pto ps).
  { assert (C : forall p, cut <= p_time p <-> f <= p_time p /\ match prev with Some t => t <= p_time p | None => True end).
    { intros p. subst cut. destruct prev; lia. }
    split.
    - intros (p & q & P & Q & P2 & Q2 & L & Cn & D). apply filter_In in P, Q. destruct P as [P P3], Q as [Q Q3]. apply N.leb_le, C in P3.
      exists f, p, q. splits; auto; try tauto; [|lia]. intros n N1 N2. specialize (Cn n N1 N2). apply in_map_iff in Cn. destruct Cn as (r & R1 & R2). apply filter_In in R2.
      apply in_map_iff. exists r. tauto.
    - intros (g & p & q & G & P & Q & P2 & Q2 & P3 & P4 & L & Cn & D). injection G as <-.
      assert (T : forall r, In r ps -> p_pn p <= p_pn r -> p_time p <= p_time r).
      { clear - Srt P. intros r R Lr. induction ps as [|x ps IH]; [destruct P|]. apply StronglySorted_inv in Srt. destruct Srt as [Srt Fa]. rewrite Forall_forall in Fa.
        destruct P as [<-|P], R as [<-|R]; auto; try lia; [apply Fa in R; lia|apply Fa in P; lia]. }
      assert (Cp : cut <= p_time p) by (apply C; auto).
      exists p, q. splits; auto.
      + apply filter_In. split; [assumption|lia].
      + apply filter_In. split; [assumption|]. specialize (T q Q L). lia.
      + intros n N1 N2. specialize (Cn n N1 N2). apply in_map_iff in Cn. destruct Cn as (r & R1 & R2). apply in_map_iff. exists r. split; [assumption|].
        apply filter_In. split; [assumption|]. specialize (T r R2). lia.
      + lia. }
  assert (DEC : b = true <-> persistent_congestion (Some f) prev pto ps).
  { rewrite B2, EQ. split; [intros [X|(l & t & X & _)]; [exact X|discriminate]|auto]. }
  destruct b.
  - eexists. split; [reflexivity|]. assert (P : persistent_congestion (Some f) prev pto ps) by (apply DEC; reflexivity). splits; auto; [|contradiction].
    intros _. unfold cwnd. cbn. unfold cwnd_min. splits; try reflexivity. lia.
  - exists c. assert (P : ~ persistent_congestion (Some f) prev pto ps) by (rewrite <- DEC; discriminate). splits; auto. contradiction.
Qed.

(** ** HyStart++ *)
Lemma hy_run_snoc : forall ops h o, hy_run h (ops ++ [o]) = fst (hy_step (hy_run h ops) o).
Proof. induction ops as [|x ops IH]; intros; [reflexivity|]. cbn. apply IH. Qed.
Lemma r_run_snoc : forall ops r o, r_run r (ops ++ [o]) = r_step (r_run r ops) o.
Proof. induction ops as [|x ops IH]; intros; [reflexivity|]. cbn. apply IH. Qed.
Lemma r_run_app : forall a b r, r_run r (a ++ b) = r_run (r_run r a) b.
Proof. induction a as [|x a IH]; intros; [reflexivity|]. cbn. apply IH. Qed.
Definition ends_round (r : rounds) (o : hop) : N :=
  match o, r_end r with HAck _ largest _, Some e => if e <=? largest then 1 else 0 | _, _ => 0 end.
Lemma round_ends_snoc : forall ops r o, round_ends r (ops ++ [o]) = round_ends r ops + ends_round (r_run r ops) o.
Proof. induction ops as [|x ops IH]; intros r o; cbn [app round_ends r_run]; [unfold ends_round; lia|]. rewrite IH. lia. Qed.
Lemma minimum_snoc : forall l x, minimum (l ++ [x]) = Some (match minimum l with Some c => N.min c x | None => x end).
Proof.
  induction l as [|y l IH]; intros x; [reflexivity|]. cbn [app minimum]. rewrite IH. destruct (minimum l); f_equal; lia.
Qed.

(** What is known once CSS was entered. *)
Definition css_since (entry : bool) (ops : list hop) (base n : N) (count : N) : Prop :=
  exists a rtt lg w b last cur, ops = a ++ HAck rtt lg w :: b /\
    let r := r_run r_new a in
    8 <= lenN (r_now r ++ [rtt]) /\ minimum (r_prev r) = Some last /\ minimum (r_now r ++ [rtt]) = Some cur /\
    last + N.max 4000000 (N.min (last / 8) 16000000) <= cur /\
    base = (if entry then last + N.max 4000000 (N.min (last / 8) 16000000) else cur) /\
    ~ In HReset b /\ round_ends r (HAck rtt lg w :: b) = n /\
    (forall b1 x l w' b2, b = b1 ++ HAck x l w' :: b2 -> 1 <= round_ends r (HAck rtt lg w :: b1) ->
       let r' := r_run r (HAck rtt lg w :: b1) in
       8 <= lenN (r_now r' ++ [x]) -> exists m, minimum (r_now r' ++ [x]) = Some m /\ base <= m) /\
    (1 <= n -> count = lenN (r_now (r_run r_new ops))).
Record hinv (paced entry : bool) (ops : list hop) (h : hystart) : Prop := {
  hv_paced : hy_paced h = paced; hv_entry : hy_entry h = entry;
  hv_last : hy_last h = minimum (r_prev (r_run r_new ops)); hv_cur : hy_cur h = minimum (r_now (r_run r_new ops));
  hv_end : hy_end h = r_end (r_run r_new ops); hv_count : hy_count h <= lenN (r_now (r_run r_new ops));
  hv_out : hy_base h = None -> hy_rounds h = 0;
  hv_in : forall base, hy_base h = Some base -> css_since entry ops base (hy_rounds h) (hy_count h) }.
Lemma css_keep : forall entry ops base n count o count', css_since entry ops base n count -> o <> HReset ->
  (forall rtt lg w, o = HAck rtt lg w -> 1 <= n -> 8 <= lenN (r_now (r_run r_new ops) ++ [rtt]) -> exists m, minimum (r_now (r_run r_new ops) ++ [rtt]) = Some m /\ base <= m) ->
  (1 <= n + ends_round (r_run r_new ops) o -> count' = lenN (r_now (r_run r_new (ops ++ [o])))) ->
  css_since entry (ops ++ [o]) base (n + ends_round (r_run r_new ops) o) count'.
Proof.
  intros entry ops base n count o count' (a & rtt & lg & w & b & last & cur & E & H) NR Lo Ct. cbn zeta in H. set (r := r_run r_new a) in *.
  destruct H as (H1 & H2 & H3 & H4 & H5 & H6 & H7 & H8 & H9).
  assert (RR : r_run r_new ops = r_run r (HAck rtt lg w :: b)) by (rewrite E, r_run_app; reflexivity).
  exists a, rtt, lg, w, (b ++ [o]), last, cur. split; [rewrite E, <- app_assoc; reflexivity|]. cbn zeta. fold r. splits; auto.
  - intros X. apply in_app_or in X. destruct X as [X|[X|[]]]; [auto|congruence].
  - rewrite app_comm_cons, round_ends_snoc, H7, <- RR. reflexivity.
  - intros b1 x l w' b2 Eb R1 R2. destruct b2 as [|y b2] using rev_ind.
    + apply app_inj_tail in Eb. destruct Eb as [<- ->]. rewrite <- RR in *. apply (Lo x l w'); auto. lia.
    + rewrite app_comm_cons, app_assoc in Eb. apply app_inj_tail in Eb. destruct Eb as [Eb _]. eapply H8; eauto.
Qed.
Lemma lenN_snoc : forall {A} (l : list A) x, lenN (l ++ [x]) = lenN l + 1.
Proof. intros. rewrite lenN_app. reflexivity. Qed.
Lemma hinv_sent : forall paced entry ops h pn, hinv paced entry ops h -> hinv paced entry (ops ++ [HSent pn]) (hy_sent pn h).
Proof.
  intros paced entry ops h pn [V1 V2 V3 V4 V5 V6 V7 V8]. set (r := r_run r_new ops) in *. cbn [hy_step fst].
    assert (RS : r_run r_new (ops ++ [HSent pn]) = r_step r (HSent pn)) by apply r_run_snoc.
    assert (KEEP : forall base, hy_base h = Some base -> css_since entry (ops ++ [HSent pn]) base (hy_rounds h) (hy_count h)).
    { intros base Hb. pose proof (V8 base Hb) as C. replace (hy_rounds h) with (hy_rounds h + ends_round r (HSent pn)) by (cbn; lia).
      eapply css_keep; [exact C|discriminate|discriminate|]. cbn. rewrite N.add_0_r. intros R1. fold r. rewrite RS. cbn.
      destruct C as (a & x & l & ww & b & la & cu & _ & _ & _ & _ & _ & _ & _ & _ & _ & C). apply C. exact R1. }
    unfold hy_sent. destruct (hy_end h) eqn:E; constructor; cbn; rewrite ?RS; cbn; auto; rewrite <- V5, ?E; auto.
Qed.
Lemma thresh_eq : forall l, hy_thresh l = N.max 4000000 (N.min (l / 8) 16000000).
Proof. reflexivity. Qed.
Lemma hinv_css : forall paced entry ops h rtt lg w, hinv paced entry ops h ->
  let r := r_run r_new ops in let h1 := hy_css (hy_collect rtt h) in
  hy_paced h1 = paced /\ hy_entry h1 = entry /\ hy_last h1 = minimum (r_prev r) /\ hy_cur h1 = minimum (r_now r ++ [rtt]) /\ hy_end h1 = r_end r /\
  hy_count h1 <= lenN (r_now r ++ [rtt]) /\ (hy_base h1 = None -> hy_rounds h1 = 0) /\
  forall base count' n, hy_base h1 = Some base -> n = ends_round r (HAck rtt lg w) -> (n = 0 -> count' = hy_count h1) -> (n = 1 -> count' = 0) ->
    css_since entry (ops ++ [HAck rtt lg w]) base (hy_rounds h1 + n) count'.
Proof.
  intros paced entry ops h rtt lg w [V1 V2 V3 V4 V5 V6 V7 V8]. cbv zeta. set (r := r_run r_new ops) in *. set (hc := hy_collect rtt h). set (h1 := hy_css hc).
  assert (RS : r_run r_new (ops ++ [HAck rtt lg w]) = r_step r (HAck rtt lg w)) by apply r_run_snoc.
  assert (MC : hy_cur hc = minimum (r_now r ++ [rtt])) by (rewrite minimum_snoc; cbn; now rewrite V4).
  assert (CT : hy_count hc = hy_count h + 1) by reflexivity. assert (BS : hy_base hc = hy_base h) by reflexivity. assert (RD : hy_rounds hc = hy_rounds h) by reflexivity.
      assert (LA : hy_last hc = hy_last h) by reflexivity. assert (EN : hy_entry hc = hy_entry h) by reflexivity. assert (PA : hy_paced hc = hy_paced h) by reflexivity.
      assert (HE : hy_end hc = hy_end h) by reflexivity. clearbody hc.
      assert (RN : r_now (r_step r (HAck rtt lg w)) = if ends_round r (HAck rtt lg w) =? 0 then r_now r ++ [rtt] else []).
      { cbn. destruct (r_end r) as [e|]; [destruct (e <=? lg)|]; reflexivity. }
      assert (E01 : ends_round r (HAck rtt lg w) = 0 \/ ends_round r (HAck rtt lg w) = 1) by (cbn; destruct (r_end r) as [e|]; [destruct (e <=? lg)|]; auto).
      set (cur := match minimum (r_now r) with Some c => N.min c rtt | None => rtt end) in *.
      assert (MN : minimum (r_now r ++ [rtt]) = Some cur) by apply minimum_snoc.
      subst h1. unfold hy_css. rewrite MN in *. rewrite BS, MC, LA.
      destruct (hy_base h) as [base|] eqn:B.
      - destruct ((N_RTT_SAMPLE <=? hy_count hc) && (cur <? base)) eqn:Lv.
        + cbn. rewrite ?PA, ?EN, ?LA, ?HE, ?CT, ?lenN_snoc. splits; auto; try congruence; try lia.
        + rewrite ?PA, ?EN, ?LA, ?HE, ?CT, ?lenN_snoc, ?RD, ?BS, ?MC. splits; auto; try congruence; try lia.
          intros base' count' n Hb Hn C0 C1. injection Hb as <-. subst n. pose proof (V8 base eq_refl) as C.
          assert (CT1 : 1 <= hy_rounds h -> hy_count h = lenN (r_now r)).
          { destruct C as (a & x & l & ww & b & la & cu & _ & _ & _ & _ & _ & _ & _ & _ & _ & C). apply C. }
          eapply css_keep; [exact C|discriminate| |].
          * intros rtt' lg' w' Eo R1 R8. injection Eo as <- <- <-. exists cur. fold r in R8 |- *. split; [exact MN|]. rewrite lenN_snoc in R8. rewrite CT, (CT1 R1) in Lv.
            apply andb_false_iff in Lv. unfold N_RTT_SAMPLE in Lv. destruct Lv; lia.
          * fold r. rewrite RS, RN. intros R1. destruct E01 as [E0|E1].
            -- rewrite E0 in *. change (0 =? 0) with true. cbv iota. rewrite lenN_snoc, (C0 eq_refl), CT1 by lia. reflexivity.
            -- rewrite E1 in *. cbn. rewrite (C1 eq_refl). reflexivity.
      - destruct (hy_last h) as [last|] eqn:La.
        + pose proof (thresh_eq last) as TH. set (T := hy_thresh last) in *. clearbody T. destruct ((N_RTT_SAMPLE <=? hy_count hc) && (last + T <=? cur)) eqn:Ent.
          * cbn [hy_paced hy_entry hy_last hy_cur hy_end hy_count hy_base hy_rounds]. rewrite ?PA, ?EN, ?HE, ?V2, ?RD. splits; auto; try congruence; try lia.
            intros base count' n Hb Hn C0 C1. apply andb_true_iff in Ent. destruct Ent as [En1 En2]. rewrite CT in En1. unfold N_RTT_SAMPLE in En1.
            rewrite (V7 eq_refl). exists ops, rtt, lg, w, [], last, cur. split; [reflexivity|]. cbn zeta. fold r. rewrite lenN_snoc, <- TH.
            split; [clear - En1 V6; lia|]. split; [congruence|]. split; [exact MN|]. split; [clear - En2; lia|]. split; [congruence|]. split; [intros []|]. split; [|split].
            -- cbn [round_ends]. subst n. unfold ends_round. lia.
            -- intros b1 x l w' b2 Eb. destruct b1; discriminate.
            -- rewrite RS, RN. intros R1. change (n = ends_round r (HAck rtt lg w)) in Hn. destruct E01 as [E0|E1]; [lia|]. rewrite E1 in *. cbn. apply C1. lia.
          * rewrite ?PA, ?EN, ?LA, ?HE, ?CT, ?lenN_snoc, ?RD, ?BS, ?MC. splits; auto; try congruence; lia.
        + rewrite ?PA, ?EN, ?LA, ?HE, ?CT, ?lenN_snoc, ?RD, ?BS, ?MC. splits; auto; try congruence; lia. Qed.
Lemma hinv_ack : forall paced entry ops h rtt lg w, hinv paced entry ops h -> hinv paced entry (ops ++ [HAck rtt lg w]) (fst (hy_acked rtt lg w h)).
Proof.
  intros paced entry ops h rtt lg w V. pose proof (hinv_css paced entry ops h rtt lg w V) as P. cbv zeta in P. set (r := r_run r_new ops) in *. clear V.
    assert (RS : r_run r_new (ops ++ [HAck rtt lg w]) = r_step r (HAck rtt lg w)) by apply r_run_snoc.
    unfold hy_acked. set (h1 := hy_css (hy_collect rtt h)) in *. clearbody h1. destruct P as (P1 & P2 & P3 & P4 & P5 & P6 & P7 & P8). rewrite P5.
    assert (R0 : r_step r (HAck rtt lg w) = match r_end r with Some e => if e <=? lg then mkR (r_now r ++ [rtt]) [] None else mkR (r_prev r) (r_now r ++ [rtt]) (Some e) | None => mkR (r_prev r) (r_now r ++ [rtt]) None end) by reflexivity.
    destruct (r_end r) as [e|] eqn:Re.
    + destruct (lg <? e) eqn:Le.
      * replace (e <=? lg) with false in R0 by lia. cbn [fst]. constructor; rewrite ?RS, ?R0; cbn [r_prev r_now r_end]; auto.
        intros base Hb. rewrite <- (N.add_0_r (hy_rounds h1)). apply P8; auto; [|discriminate]. cbn. rewrite Re. replace (e <=? lg) with false by lia. reflexivity.
      * replace (e <=? lg) with true in R0 by lia. cbn [hy_next hy_base].
        assert (EN : ends_round r (HAck rtt lg w) = 1) by (cbn; rewrite Re; replace (e <=? lg) with true by lia; reflexivity).
        destruct (hy_base h1) as [base|] eqn:B; cbn [fst]; constructor; rewrite ?RS, ?R0; cbn; auto; try lia; try congruence.
        intros base' Hb. apply P8; auto. lia.
    + cbn [fst]. constructor; rewrite ?RS, ?R0; cbn [r_prev r_now r_end]; auto.
      intros base Hb. rewrite <- (N.add_0_r (hy_rounds h1)). apply P8; auto; [|discriminate]. cbn. rewrite Re. reflexivity.
Qed.
Lemma hinv_reset : forall paced entry ops h, hinv paced entry ops h -> hinv paced entry (ops ++ [HReset]) (hy_reset h).
Proof.
  intros paced entry ops h [V1 V2 V3 V4 V5 V6 V7 V8]. set (r := r_run r_new ops) in *. cbn [hy_step fst].
    assert (RS : r_run r_new (ops ++ [HReset]) = r_new) by apply r_run_snoc.
    constructor; rewrite ?RS; cbn; auto; try lia; discriminate.
Qed.
Lemma hinv_step : forall paced entry ops h o, hinv paced entry ops h -> hinv paced entry (ops ++ [o]) (fst (hy_step h o)).
Proof.
  intros paced entry ops h [pn|rtt lg w|] V; [exact (hinv_sent _ _ _ _ pn V)|exact (hinv_ack _ _ _ _ rtt lg w V)|exact (hinv_reset _ _ _ _ V)].
Qed.
Lemma hinv_run : forall paced entry ops, hinv paced entry ops (hy_run (hy_new paced entry) ops).
Proof.
  intros paced entry ops. induction ops as [|o ops IH] using rev_ind.
  - constructor; cbn; auto; try lia; discriminate.
  - rewrite hy_run_snoc. now apply hinv_step.
Qed.

(** ** SEARCH *)
Lemma mod_apart : forall a b s, s = 11 \/ s = 26 -> a < b -> b < a + s -> (a mod s =? b mod s) = false.
Proof. intros a b s [-> | ->] A B; dlia. Qed.
Lemma skip_spec : forall n s from i f, s = 11 \/ s = 26 -> from < i -> i + N.of_nat n <= from + s ->
  (forall k, i <= k -> k < i + N.of_nat n -> se_skip n s from i f (k mod s) = f (from mod s)) /\
  (forall k, k < i -> i + N.of_nat n <= k + s -> se_skip n s from i f (k mod s) = f (k mod s)).
Proof.
  induction n as [|n IH]; intros s from i f Hs Hf Hn; cbn [se_skip]; [split; [lia|reflexivity]|].
  destruct (IH s from (i + 1) (put f (i mod s) (f (from mod s))) Hs) as [I1 I2]; [lia|lia|].
  assert (PF : put f (i mod s) (f (from mod s)) (from mod s) = f (from mod s)) by (unfold put; rewrite mod_apart by (auto; lia); reflexivity).
  split; intros k K1 K2.
  - destruct (N.eq_dec k i) as [->|Ne].
    + rewrite I2 by lia. unfold put. now rewrite N.eqb_refl.
    + rewrite I1 by lia. exact PF.
  - rewrite I2 by lia. unfold put. rewrite mod_apart by (auto; lia). reflexivity.
Qed.
Record srel (s : search) (i : ideal) : Prop := {
  sr_idx : se_idx s = id_idx i; sr_end : se_bin_end s = id_bin_end i; sr_dur : se_dur s = id_dur i; sr_acked : se_acked s = id_acked i; sr_sent : se_sent s = id_sent i;
  sr_hist : forall cur, id_idx i = Some cur -> id_bin_end i <> None /\ 0 < id_dur i /\
    (forall k, k <= cur -> cur < k + 11 -> id_acked_at i k = Some (se_acked_bins s (k mod 11))) /\
    (forall k, k <= cur -> cur < k + 26 -> id_sent_at i k = Some (se_sent_bins s (k mod 26))) }.
Lemma srel_eval : forall rtt cur s i, srel s i -> id_idx i = Some cur -> id_evaluate rtt cur i = Some (se_evaluate rtt cur s).
Proof.
  intros rtt cur s i [R1 R2 R3 R4 R5 R6] Hc. destruct (R6 cur Hc) as (_ & Hd & Ha & Hs). unfold id_evaluate, se_evaluate, se_prev_idx. rewrite R3.
  set (back := rtt / id_dur i). unfold SCALE. set (fr := rtt mod id_dur i * 100 / id_dur i). unfold W, EXTRA_BINS.
  destruct (cur <=? back + 10) eqn:E1; [replace (cur - back <=? 10) with true by lia; reflexivity|].
  replace (cur - back <=? 10) with false by lia. replace (cur - (cur - back)) with back by lia. destruct (15 <=? back) eqn:E2; [reflexivity|].
  unfold between, se_delv, se_sent_between, NUM_ACKED_BINS, NUM_SENT_BINS, NUM_ACKED_BINS, W, EXTRA_BINS, SCALE. change (10 + 1) with 11. change (11 + 15) with 26.
  rewrite !Ha by lia. rewrite !Hs by lia. unfold THRESH. replace (cur - back - 10 - 1) with (cur - back - 11) by lia. reflexivity.
Qed.
Lemma srel_step : forall s i o, srel s i -> (forall rtt cwnd now, o = XAck rtt cwnd now -> 3 <= rtt) ->
  exists s' i' e, se_step s o = Some (s', e) /\ id_step i o = Some (i', e) /\ srel s' i'.
Proof.
  intros s i o R Ok. destruct R as [R1 R2 R3 R4 R5 R6]. destruct o as [n|n|rtt w now|]; cbn [se_step id_step].
  - do 3 eexists. splits; try reflexivity. constructor; cbn; auto. now rewrite R5.
  - do 3 eexists. splits; try reflexivity. constructor; cbn; auto. now rewrite R4.
  - specialize (Ok rtt w now eq_refl).
    (* after starting, if need be *)
    assert (ST : exists s1, match se_idx s with None => se_initialize rtt now s | Some _ => Some s end = Some s1 /\
      srel s1 (match id_idx i with None => id_start rtt now i | Some _ => i end) /\ id_idx (match id_idx i with None => id_start rtt now i | Some _ => i end) <> None).
    { rewrite R1. destruct (id_idx i) as [c|] eqn:Ix; [exists s; splits; [reflexivity|constructor; rewrite ?Ix; auto; congruence|congruence]|].
      unfold se_initialize, WINDOW_SIZE_FACTOR, SCALE, W. assert (0 < rtt * 350 / 100 / 10) by dlia. replace (_ =? 0) with false by lia. eexists. splits; [reflexivity| |discriminate].
      constructor; cbn [se_idx se_bin_end se_dur se_acked se_sent id_start id_idx id_bin_end id_dur id_acked id_sent id_acked_at id_sent_at se_acked_bins se_sent_bins]; auto.
      intros cur Hc. injection Hc as <-. splits; [discriminate|assumption| |]; intros k Hk _; assert (k = 0) by lia; subst k; rewrite N.mod_0_l by lia; unfold note, put; rewrite !N.eqb_refl; congruence. }
    destruct ST as (s1 & S1 & R & NN). unfold se_acked_pkts, id_ack. rewrite S1. cbn zeta.
    set (j := match id_idx i with None => id_start rtt now i | Some _ => i end) in *. clearbody j. clear R1 R2 R3 R4 R5 R6 S1 s i.
    destruct R as [R1 R2 R3 R4 R5 R6]. rewrite R1. destruct (id_idx j) as [cur|] eqn:Ix; [|congruence].
    destruct (R6 cur eq_refl) as (Be & Hd & Ha & Hs). rewrite R2. destruct (id_bin_end j) as [e|] eqn:Bj; [|congruence].
    destruct (now <=? e); [do 3 eexists; splits; try reflexivity; constructor; rewrite ?Ix, ?Bj; auto|].
    unfold se_update. rewrite R3. set (n := (now - e) / id_dur j + 1). assert (N1 : 1 <= n) by apply N.le_add_l. clearbody n.
    unfold W. destruct (10 <? n) eqn:N10.
    + do 3 eexists. splits; try reflexivity. constructor; cbn; auto. discriminate.
    + set (j' := mkId _ _ (Some (cur + n)) _ _ _ _). set (s' := mkSe _ _ (Some (cur + n)) _ _ _ _ _).
      assert (R' : srel s' j').
      { constructor; auto. intros cur' Hc. injection Hc as <-. splits; [discriminate|exact Hd| |].
        - intros k K1 K2. subst j' s'. cbn [id_acked_at se_acked_bins]. unfold NUM_ACKED_BINS, W. change (10 + 1) with 11. unfold note, put.
          destruct (skip_spec (N.to_nat (n - 1)) 11 cur (cur + 1) (se_acked_bins s1)) as [A1 A2]; auto; [lia|lia|].
          destruct (k =? cur + n) eqn:Ek; [assert (k = cur + n) by lia; subst k; rewrite N.eqb_refl; congruence|].
          rewrite mod_apart by (auto; lia). unfold fill. destruct ((cur <? k) && (k <? cur + n)) eqn:F.
          + rewrite A1 by lia. apply Ha; lia.
          + rewrite A2 by lia. apply Ha; lia.
        - intros k K1 K2. subst j' s'. cbn [id_sent_at se_sent_bins]. unfold NUM_SENT_BINS, NUM_ACKED_BINS, W, EXTRA_BINS. change (10 + 1 + 15) with 26. unfold note, put.
          destruct (skip_spec (N.to_nat (n - 1)) 26 cur (cur + 1) (se_sent_bins s1)) as [A1 A2]; auto; [lia|lia|].
          destruct (k =? cur + n) eqn:Ek; [assert (k = cur + n) by lia; subst k; rewrite N.eqb_refl; congruence|].
          rewrite mod_apart by (auto; lia). unfold fill. destruct ((cur <? k) && (k <? cur + n)) eqn:F.
          + rewrite A1 by lia. apply Hs; lia.
          + rewrite A2 by lia. apply Hs; lia. }
      rewrite (srel_eval rtt (cur + n) s' j' R' eq_refl). do 3 eexists. splits; try reflexivity. exact R'.
  - do 3 eexists. splits; try reflexivity. constructor; cbn; auto. discriminate.
Qed.
Lemma search_refines : forall ops s i, srel s i -> rtts_ok ops -> exists l, outs se_step s ops = Some l /\ outs id_step i ops = Some l.
Proof.
  induction ops as [|o ops IH]; intros s i R Ok; cbn [outs]; [eauto|].
  destruct (srel_step s i o R) as (s' & i' & e & A & B & R'); [intros rtt w now ->; apply (Ok rtt w now); now left|].
  rewrite A, B. destruct (IH s' i' R') as (l & L1 & L2); [intros rtt w now H; apply (Ok rtt w now); now right|]. rewrite L1, L2. eauto.
Qed.
