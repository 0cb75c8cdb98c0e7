(** Proofs about one congestion controller. *)
From Coq Require Import Sorted.
From Verif Require Import Base Lib FcModel LrModel LrSpec CcModel CcSpec.

Lemma cc_runs_app : forall a b c, cc_runs c (a ++ b) = match cc_runs c a with Some c' => cc_runs c' b | None => None end.
Proof. induction a as [|o a IH]; intros b c; [reflexivity|]. cbn. destruct (cc_step c o); [apply IH|reflexivity]. Qed.
Lemma cc_runs_snoc : forall a o c c', cc_runs c (a ++ [o]) = Some c' -> exists c1, cc_runs c a = Some c1 /\ cc_step c1 o = Some c'.
Proof.
  intros a o c c' R. rewrite cc_runs_app in R. destruct (cc_runs c a) as [c1|]; [|discriminate]. exists c1. split; [reflexivity|].
  cbn in R. destruct (cc_step c1 o); congruence.
Qed.

(** ** What the parts of a step change *)
(** Everything but the bytes in flight, the remembered losses, the slow start, and the limit. *)
Record same (c c' : cc) : Prop := {
  sm_cur : c_cur c' = c_cur c; sm_wa : c_wa c' = c_wa c; sm_mtu : c_mtu c' = c_mtu c; sm_stored : c_stored c' = c_stored c;
  sm_spur : c_spur c' = c_spur c; sm_nloss : c_nloss c' = c_nloss c; sm_necn : c_necn c' = c_necn c; sm_nspur : c_nspur c' = c_nspur c }.
Lemma same_refl : forall c, same c c. Proof. intros; constructor; reflexivity. Qed.
Lemma same_trans : forall a b c, same a b -> same b c -> same a c.
Proof. intros a b c [] []. constructor; congruence. Qed.
Ltac sm := constructor; reflexivity.

Lemma lost_loop_same : forall ps c c', lost_loop ps c = Some c' -> same c c' /\ c_ss c' = c_ss c /\ c_fal c' = c_fal c /\
  c_bif c' = c_bif c - total_len (filter cc_in_flight ps).
Proof.
  induction ps as [|p ps IH]; intros c c' H; cbn [lost_loop filter] in H |- *.
  - injection H as <-. splits; try reflexivity; [sm|]. cbn. lia.
  - destruct (cc_in_flight p).
    + assert (T : total_len (p :: filter cc_in_flight ps) = p_len p + total_len (filter cc_in_flight ps)) by reflexivity. rewrite T.
      destruct (p_probe p); [|destruct (existsb _ _); [discriminate|]]; apply IH in H; destruct H as (A & B & C & D); cbn in B, C, D;
        (splits; [destruct A; constructor; assumption|assumption|assumption|rewrite D; cbn; lia]).
    + apply IH in H. exact H.
Qed.
Lemma congestion_event_no : forall ecn p c, after_rec p c = false -> congestion_event ecn p c = (c, false).
Proof. intros ecn p c H. unfold congestion_event. now rewrite H. Qed.

(** The loop over acknowledged packets. *)
Lemma ack_loop_spec : forall ps c lim n c' lim' n', ack_loop ps c lim n = (c', lim', n') ->
  c_ss c' = c_ss c /\ c_wa c' = c_wa c /\ c_mtu c' = c_mtu c /\ c_stored c' = c_stored c /\ c_spur c' = c_spur c /\ c_nloss c' = c_nloss c /\
  c_necn c' = c_necn c /\ c_nspur c' = c_nspur c /\ c_lost c' = c_lost c /\ c_fal c' = c_fal c /\
  s_cwnd (c_cur c') = s_cwnd (c_cur c) /\ s_acked (c_cur c') = s_acked (c_cur c) /\ s_ssthresh (c_cur c') = s_ssthresh (c_cur c) /\ s_rec (c_cur c') = s_rec (c_cur c) /\
  (s_phase (c_cur c') = s_phase (c_cur c) \/ s_phase (c_cur c') = PAvoid /\ s_phase (c_cur c) = PRecovery) /\
  c_bif c' = c_bif c - acked_bytes ps /\ n <= n' /\ n' <= n + acked_bytes ps /\
  (transient (s_phase (c_cur c)) = true -> n' = n) /\
  ((forall p, In p ps -> cc_outstanding p = false) -> c_cur c' = c_cur c /\ lim' = lim /\ n' = n) /\
  (lim' = false -> lim = false \/ exists p f, In p ps /\ cc_outstanding p = true /\ c_fal c = Some f /\ p_pn p < f).
Proof.
  induction ps as [|p ps IH]; intros c lim n c' lim' n' H; cbn [ack_loop] in H.
  - apply pair_equal_spec in H. destruct H as [H <-]. apply pair_equal_spec in H. destruct H as [<- <-].
    splits; auto; try reflexivity; try (cbn; lia).
  - unfold acked_bytes in *. cbn [filter]. destruct (cc_outstanding p) eqn:O.
    + assert (T : total_len (p :: filter cc_outstanding ps) = p_len p + total_len (filter cc_outstanding ps)) by reflexivity. rewrite T.
      set (lim1 := match c_fal c with Some f => if p_pn p <? f then false else lim | None => lim end) in *.
      assert (L : lim1 = false -> lim = false \/ exists f, c_fal c = Some f /\ p_pn p < f).
      { subst lim1. intros L. destruct (c_fal c) as [f|]; [|auto]. destruct (p_pn p <? f) eqn:F; [|auto]. right. exists f. split; [reflexivity|]. apply N.ltb_lt. exact F. }
      set (c1 := with_bif (c_bif c - p_len p) c) in *.
      assert (Q : forall c2 n2, ack_loop ps c2 lim1 n2 = (c', lim', n') ->
        (c2 = c1 \/ in_recovery (s_phase (c_cur c1)) = true /\ transient (s_phase (c_cur c)) = false /\ c2 = with_cur (st_phase PAvoid (c_cur c1)) c1) ->
        n <= n2 -> n2 <= n + p_len p -> (transient (s_phase (c_cur c)) = true -> n2 = n) ->
        c_ss c' = c_ss c /\ c_wa c' = c_wa c /\ c_mtu c' = c_mtu c /\ c_stored c' = c_stored c /\ c_spur c' = c_spur c /\ c_nloss c' = c_nloss c /\
        c_necn c' = c_necn c /\ c_nspur c' = c_nspur c /\ c_lost c' = c_lost c /\ c_fal c' = c_fal c /\
        s_cwnd (c_cur c') = s_cwnd (c_cur c) /\ s_acked (c_cur c') = s_acked (c_cur c) /\ s_ssthresh (c_cur c') = s_ssthresh (c_cur c) /\ s_rec (c_cur c') = s_rec (c_cur c) /\
        (s_phase (c_cur c') = s_phase (c_cur c) \/ s_phase (c_cur c') = PAvoid /\ s_phase (c_cur c) = PRecovery) /\
        c_bif c' = c_bif c - (p_len p + total_len (filter cc_outstanding ps)) /\ n <= n' /\ n' <= n + (p_len p + total_len (filter cc_outstanding ps)) /\
        (transient (s_phase (c_cur c)) = true -> n' = n) /\
        ((forall p0, In p0 (p :: ps) -> cc_outstanding p0 = false) -> c_cur c' = c_cur c /\ lim' = lim /\ n' = n) /\
        (lim' = false -> lim = false \/ exists p0 f, In p0 (p :: ps) /\ cc_outstanding p0 = true /\ c_fal c = Some f /\ p_pn p0 < f)).
      { intros c2 n2 E C2 A1 A2 A3. apply IH in E.
        destruct E as (E1 & E2 & E3 & E4 & E5 & E6 & E7 & E8 & E9 & E10 & E11 & E12 & E13 & E14 & E15 & E16 & E17 & E18 & E19 & E20 & E21).
        assert (F : c_ss c2 = c_ss c /\ c_wa c2 = c_wa c /\ c_mtu c2 = c_mtu c /\ c_stored c2 = c_stored c /\ c_spur c2 = c_spur c /\ c_nloss c2 = c_nloss c /\
          c_necn c2 = c_necn c /\ c_nspur c2 = c_nspur c /\ c_lost c2 = c_lost c /\ c_fal c2 = c_fal c /\
          s_cwnd (c_cur c2) = s_cwnd (c_cur c) /\ s_acked (c_cur c2) = s_acked (c_cur c) /\ s_ssthresh (c_cur c2) = s_ssthresh (c_cur c) /\ s_rec (c_cur c2) = s_rec (c_cur c) /\
          (s_phase (c_cur c2) = s_phase (c_cur c) \/ s_phase (c_cur c2) = PAvoid /\ s_phase (c_cur c) = PRecovery) /\ c_bif c2 = c_bif c - p_len p /\
          (transient (s_phase (c_cur c)) = true -> transient (s_phase (c_cur c2)) = true)).
        { destruct C2 as [->|(R & NT & ->)]; cbn; splits; auto.
          - right. split; [reflexivity|]. cbn in R. destruct (s_phase (c_cur c)); cbn in *; congruence.
          - congruence. }
        destruct F as (F1 & F2 & F3 & F4 & F5 & F6 & F7 & F8 & F9 & F10 & F11 & F12 & F13 & F14 & F15 & F16 & F17).
        clear IH. splits; try (eapply eq_trans; eassumption); try (clear - E16 E17 E18 F16 A1 A2; lia).
        - destruct E15 as [E15|[E15 E15']], F15 as [F15|[F15 F15']]; rewrite ?E15, ?F15 in *; auto; try discriminate.
        - intros T1. rewrite E19 by auto. auto.
        - intros Z. exfalso. rewrite (Z p) in O by (left; reflexivity). discriminate.
        - intros Z. apply E21 in Z. destruct Z as [Z|(p0 & f & Z1 & Z2 & Z3 & Z4)].
          + apply L in Z. destruct Z as [Z|(f & Z & Z')]; [auto|]. right. exists p, f. splits; auto. now left.
          + right. exists p0, f. splits; auto. now right. congruence. }
      destruct (after_rec p c1) eqn:AR.
      * unfold after_rec in AR. apply andb_true_iff in AR. destruct AR as [NT _]. apply negb_true_iff in NT. cbn in NT.
        refine (Q _ _ H _ _ _ _); [|lia|lia|congruence].
        destruct (in_recovery _); auto.
      * refine (Q _ _ H _ _ _ _); auto; lia.
    + apply IH in H. destruct H as (E1 & E2 & E3 & E4 & E5 & E6 & E7 & E8 & E9 & E10 & E11 & E12 & E13 & E14 & E15 & E16 & E17 & E18 & E19 & E20 & E21).
      splits; auto.
      * intros Z. apply E20. intros q Hq. apply Z. now right.
      * intros Z. apply E21 in Z. destruct Z as [Z|(p0 & f & Z1 & Z2 & Z3 & Z4)]; [auto|]. right. exists p0, f. splits; auto. now right.
Qed.

(** Leaving slow start: always with the window as it is. *)
Lemma ss_acked_exit : forall rtt largest w now s s' e, ss_acked rtt largest w now s = Some (s', Some e) -> e = w.
Proof.
  intros rtt largest w now s s' e H. destruct s as [|h|x]; cbn in H; [discriminate| |].
  - unfold hy_acked in H. set (h1 := hy_css (hy_collect rtt h)) in *. destruct (hy_end h1); [|discriminate]. destruct (_ <? _); [discriminate|].
    destruct (hy_base _); [|discriminate]. destruct (_ <=? _); [|discriminate]. congruence.
  - unfold se_acked_pkts in H. destruct (match se_idx x with None => _ | Some _ => _ end) as [y|]; [|discriminate].
    destruct (se_idx y); [|discriminate]. destruct (se_bin_end y); [|discriminate]. destruct (_ <=? _); [discriminate|].
    destruct (se_update _ _ _ _) as [z [k|]]; [|discriminate]. destruct (se_evaluate _ _ _); [congruence|discriminate].
Qed.
Lemma ss_increase_le : forall n mtu s, ss_increase n mtu s <= n.
Proof.
  intros n mtu s. destruct s as [|h|x]; cbn; try lia. unfold hy_increase.
  assert (I : (if hy_paced h then n else N.min (NON_PACED_L * mtu) n) <= n) by (destruct (hy_paced h); lia).
  destruct (hy_base h); [|exact I]. set (i := if hy_paced h then n else N.min (NON_PACED_L * mtu) n) in *.
  unfold CSS_GROWTH_DIVISOR. pose proof (N.div_mod' i 4). lia.
Qed.

(** A slow start that has seen no packet sent since it was reset does not say to leave. *)
Definition quiet (s : sstart) : Prop :=
  match s with
  | SsClassic => True
  | SsHy h => hy_end h = None
  | SsSearch x => se_sent x = 0 /\ forall cur, se_idx x = Some cur -> forall k, k <= cur -> se_sent_bins x (k mod NUM_SENT_BINS) = 0
  end.
Lemma skip_zero : forall n from i f, from < i -> (forall k, k < i -> f (k mod NUM_SENT_BINS) = 0) ->
  forall k, k < i + N.of_nat n -> se_skip n NUM_SENT_BINS from i f (k mod NUM_SENT_BINS) = 0.
Proof.
  induction n as [|n IH]; intros from i f Hf Z k Hk; cbn [se_skip]; [apply Z; lia|].
  apply IH; [lia| |lia]. intros j Hj. unfold put. destruct (_ =? _) eqn:E; [apply Z; assumption|]. apply Z.
  assert (j <> i) by (intros ->; lia). lia.
Qed.
Lemma quiet_acked : forall rtt largest w now s s' e, quiet s -> ss_acked rtt largest w now s = Some (s', e) -> e = None /\ quiet s'.
Proof.
  intros rtt largest w now s s' e Q H. destruct s as [|h|x]; cbn [ss_acked] in H.
  - injection H as <- <-. split; [reflexivity|exact Logic.I].
  - cbn in Q. unfold hy_acked in H. set (h1 := hy_css (hy_collect rtt h)) in *.
    assert (E : hy_end h1 = None).
    { subst h1. unfold hy_css. cbn. destruct (hy_base h); [destruct (_ && _); cbn; assumption|]. destruct (hy_last h); [|cbn; assumption]. destruct (_ && _); cbn; assumption. }
    rewrite E in H. injection H as <- <-. split; [reflexivity|exact E].
  - destruct (se_acked_pkts rtt w now x) as [[x' e']|] eqn:A; [|discriminate]. injection H as <- <-. cbn [quiet] in *. destruct Q as [Q1 Q2].
    unfold se_acked_pkts in A.
    assert (I : exists y, match se_idx x with None => se_initialize rtt now x | Some _ => Some x end = Some y /\ se_sent y = 0 /\
      forall cur, se_idx y = Some cur -> forall k, k <= cur -> se_sent_bins y (k mod NUM_SENT_BINS) = 0).
    { destruct (se_idx x) as [c|] eqn:X; [exists x; splits; [reflexivity|assumption|intros cur H; apply Q2; congruence]|]. destruct (se_initialize rtt now x) as [y|] eqn:Y; [|discriminate].
      exists y. unfold se_initialize in Y. destruct (_ =? 0); [discriminate|]. injection Y as <-. splits; auto. cbn [se_idx se_sent_bins]. intros cur H k Hk. injection H as <-.
      assert (k = 0) by lia. subst k. unfold put. cbn. exact Q1. }
    destruct I as (y & Y & S & B). rewrite Y in A. clear Y Q1 Q2 x.
    destruct (se_idx y) as [cur|] eqn:Y; [|injection A as <- <-; splits; auto; congruence].
    destruct (se_bin_end y) as [b|]; [|injection A as <- <-; splits; auto; intros; eapply B; eauto; congruence].
    destruct (now <=? b); [injection A as <- <-; splits; auto; intros; eapply B; eauto; congruence|].
    destruct (se_update now cur b y) as [y' [cur'|]] eqn:U; [|unfold se_update in U; destruct (_ <? _); [|discriminate]; injection U as <-; injection A as <- <-; splits; auto; discriminate].
    unfold se_update in U. destruct (W <? _) eqn:Wp; [discriminate|]. set (ps := (now - b) / se_dur y + 1) in *.
    apply pair_equal_spec in U. destruct U as [<- U]. apply some_inj in U. subst cur'.
    match type of A with Some (?z, _) = _ => set (y' := z) in * end.
    assert (Z : forall k, k <= cur + ps -> se_sent_bins y' (k mod NUM_SENT_BINS) = 0).
    { subst y'. cbn [se_sent_bins]. intros k Hk. unfold put. destruct (_ =? _) eqn:E; [exact S|].
      apply skip_zero; [lia| |]; [intros j Hj; apply (B cur); [reflexivity|lia]|].
      assert (k <> cur + ps) by (intros ->; lia). assert (1 <= ps) by apply N.le_add_l. rewrite N2Nat.id. clearbody ps. lia. }
    assert (EV : se_evaluate rtt (cur + ps) y' = false).
    { unfold se_evaluate. destruct (se_prev_idx rtt (cur + ps) y') as [prev fr] eqn:P. unfold se_prev_idx in P. apply pair_equal_spec in P. destruct P as [P _].
      destruct (prev <=? W) eqn:P1; [reflexivity|]. destruct (EXTRA_BINS <=? _); [reflexivity|].
      assert (SB : se_sent_between (prev - W) prev fr y' = 0).
      { assert (prev <= cur + ps) by (rewrite <- P; generalize (rtt / se_dur y'); intros; lia).
        unfold se_sent_between. rewrite !Z by lia. reflexivity. }
      rewrite SB. reflexivity. }
    rewrite EV in A. injection A as <- <-. split; [reflexivity|]. split; [exact S|]. intros c Hc. subst y'. cbn [se_idx] in Hc. injection Hc as <-. exact Z.
Qed.
Lemma quiet_reset : forall s, quiet (ss_reset s).
Proof. intros [|h|x]; cbn; auto. split; [reflexivity|discriminate]. Qed.

(** ** The steps *)
Lemma grow_slow_spec : forall largest rtt now n c c', grow_slow largest rtt now n c = Some c' ->
  c_wa c' = c_wa c /\ c_mtu c' = c_mtu c /\ c_stored c' = c_stored c /\ c_spur c' = c_spur c /\ c_nloss c' = c_nloss c /\
  c_necn c' = c_necn c /\ c_nspur c' = c_nspur c /\ c_lost c' = c_lost c /\ c_fal c' = c_fal c /\ c_bif c' = c_bif c /\
  s_acked (c_cur c') = s_acked (c_cur c) /\ s_rec (c_cur c') = s_rec (c_cur c) /\
  cwnd c <= cwnd c' /\ cwnd c' <= cwnd c + n /\
  (s_ssthresh (c_cur c') = s_ssthresh (c_cur c) \/ s_ssthresh (c_cur c) = None /\ s_ssthresh (c_cur c') = Some (cwnd c) /\ cwnd c' = cwnd c \/
   exists t, s_ssthresh (c_cur c) = Some t /\ cwnd c < t /\ s_ssthresh (c_cur c') = Some (cwnd c) /\ cwnd c' = cwnd c) /\
  (s_phase (c_cur c') = s_phase (c_cur c) \/ s_phase (c_cur c') = PAvoid) /\
  ((exists t, s_ssthresh (c_cur c) = Some t /\ t <= cwnd c) -> c' = c) /\
  (n = 0 -> cwnd c' = cwnd c) /\
  (n = 0 -> quiet (c_ss c) -> s_phase (c_cur c') = s_phase (c_cur c) /\ quiet (c_ss c')).
Proof.
  intros largest rtt now n c c' H. unfold grow_slow in H. unfold cwnd.
  destruct (match s_ssthresh (c_cur c) with None => true | Some t => s_cwnd (c_cur c) <? t end) eqn:E.
  2:{ injection H as <-. splits; auto; try lia. }
  destruct (ss_acked _ _ _ _ _) as [[ss' [e|]]|] eqn:A; [| |discriminate]; injection H as <-.
  - pose proof (ss_acked_exit _ _ _ _ _ _ _ A) as ->. cbn -[ss_acked]. splits; auto; try lia.
    + destruct (s_ssthresh (c_cur c)) as [t|] eqn:ST; [|auto]. right. right. exists t. splits; auto. lia.
    + intros (t & T & L). rewrite T in E. lia.
    + intros _ Q. destruct (quiet_acked _ _ _ _ _ _ _ Q A). discriminate.
  - pose proof (ss_increase_le n (c_mtu c) ss') as I. set (inc := ss_increase n (c_mtu c) ss') in *. clearbody inc.
    assert (Q' : quiet (c_ss c) -> quiet ss') by (intros Q; apply (quiet_acked _ _ _ _ _ _ _ Q A)). clear A.
    destruct (s_ssthresh (c_cur c)) as [t|] eqn:ST.
    + destruct (t <=? s_cwnd (c_cur c) + inc) eqn:T; cbn; (splits; auto; try lia;
        try (intros (u & U & L); injection U as <-; lia); try (intros; split; [auto; lia|auto])).
    + cbn. splits; auto; try lia; try (intros (u & U & L); discriminate).
Qed.
Lemma grow_avoid_spec : forall bfi n c c', grow_avoid bfi n c = Some c' ->
  c_ss c' = c_ss c /\ c_wa c' = c_wa c /\ c_mtu c' = c_mtu c /\ c_stored c' = c_stored c /\ c_spur c' = c_spur c /\ c_nloss c' = c_nloss c /\
  c_necn c' = c_necn c /\ c_nspur c' = c_nspur c /\ c_lost c' = c_lost c /\ c_fal c' = c_fal c /\ c_bif c' = c_bif c /\
  s_rec (c_cur c') = s_rec (c_cur c) /\ s_ssthresh (c_cur c') = s_ssthresh (c_cur c) /\ s_phase (c_cur c') = s_phase (c_cur c) /\
  cwnd c <= cwnd c' /\
  (s_ssthresh (c_cur c) = None -> c' = c) /\
  (c' = c \/ exists k, let b := wa_bytes bfi (cwnd c) (c_wa c) in
     cwnd c' = cwnd c + k * c_mtu c /\ k * b + s_acked (c_cur c') = N.min (s_acked (c_cur c)) b + n /\ s_acked (c_cur c') < b).
Proof.
  intros bfi n c c' H. unfold grow_avoid in H. unfold cwnd.
  destruct (match s_ssthresh (c_cur c) with None => false | Some t => t <=? s_cwnd (c_cur c) end) eqn:E.
  2:{ injection H as <-. splits; auto; lia. }
  destruct (_ =? 0) eqn:B; [discriminate|]. injection H as <-. cbn. splits; auto; try apply N.le_add_r.
  - intros Z. now rewrite Z in E.
  - right. set (b := wa_bytes _ _ _) in *. assert (b <> 0) by lia. set (x := N.min _ _ + n). exists (x / b). splits; auto.
    + pose proof (N.div_mod' x b). lia.
    + apply N.mod_lt. assumption.
Qed.

(** Recognising that a loss was spurious. *)
Lemma on_spurious_spec : forall c c', on_spurious c = Some c' ->
  c_ss c' = c_ss c /\ c_mtu c' = c_mtu c /\ c_spur c' = c_spur c /\ c_nloss c' = c_nloss c /\ c_necn c' = c_necn c /\ c_lost c' = c_lost c /\
  c_fal c' = c_fal c /\ c_bif c' = c_bif c /\ c_stored c' = None /\
  ((c_stored c = None /\ c' = c) \/
   exists s, c_stored c = Some s /\ c_nspur c' = c_nspur c + 1 /\
     (c_spur c = true /\ cwnd c < s_cwnd s /\ c_cur c' = s \/ (c_spur c = false \/ s_cwnd s <= cwnd c) /\ c_cur c' = c_cur c /\ c_wa c' = c_wa c)).
Proof.
  intros c c' H. unfold on_spurious in H. destruct (c_stored c) as [s|] eqn:S; [|injection H as <-; splits; auto].
  destruct (s_cwnd s <=? cwnd c) eqn:L.
  { injection H as <-. cbn. splits; auto. right. exists s. splits; auto. right. splits; auto. right. lia. }
  destruct (c_spur c) eqn:P; cbn [negb] in H.
  - destruct (wa_restore _); [|discriminate]. injection H as <-. cbn. splits; auto. right. exists s. splits; auto. left. splits; auto. lia.
  - injection H as <-. cbn. splits; auto. right. exists s. splits; auto.
Qed.
(** What an acknowledgement makes of the remembered losses. *)
Definition gone (now pto : N) (ps : list pkt) (c : cc) : Prop :=
  (exists x p, In x (c_lost c) /\ now - snd x <= pto * 2 /\ In p ps /\ same_key p x = true) /\
  forall x, In x (c_lost c) -> pto * 2 < now - snd x \/ exists p, In p ps /\ same_key p x = true.
Lemma detect_spec : forall now pto ps c c', detect_spurious ps (cleanup now pto c) = Some c' ->
  c_ss c' = c_ss c /\ c_mtu c' = c_mtu c /\ c_spur c' = c_spur c /\ c_nloss c' = c_nloss c /\ c_necn c' = c_necn c /\ incl (c_lost c') (c_lost c) /\
  c_fal c' = c_fal c /\ c_bif c' = c_bif c /\
  (c_nspur c' = c_nspur c /\ c_cur c' = c_cur c /\ c_wa c' = c_wa c /\ c_stored c' = c_stored c \/
   exists s, gone now pto ps c /\ c_stored c = Some s /\ c_stored c' = None /\ c_nspur c' = c_nspur c + 1 /\
     (c_spur c = true /\ cwnd c < s_cwnd s /\ c_cur c' = s \/ (c_spur c = false \/ s_cwnd s <= cwnd c) /\ c_cur c' = c_cur c /\ c_wa c' = c_wa c)).
Proof.
  intros now pto ps c c' H. unfold detect_spurious in H. cbn [cleanup with_lost c_lost] in H.
  set (l := filter (fun x => now - snd x <=? pto * 2) (c_lost c)) in *.
  assert (IL : incl l (c_lost c)) by (intros x Hx; apply filter_In in Hx; tauto).
  destruct l as [|a l0] eqn:El.
  - injection H as <-. cbn. splits; auto. intros x Hx; apply filter_In in Hx; tauto.  
  - rewrite <- El in *. set (l' := filter _ l) in H.
    assert (IL' : incl l' (c_lost c)) by (intros x Hx; apply filter_In in Hx; apply IL; tauto).
    destruct l' as [|b l1] eqn:El'.
    + apply on_spurious_spec in H. cbn in H. destruct H as (A1 & A2 & A3 & A4 & A5 & A6 & A7 & A8 & A9 & H).
      splits; auto. { rewrite A6. intros x []. }
      destruct H as [[S ->]|(s & S & Nn & K)]; [left; cbn; auto|]. right. exists s. splits; auto.
      assert (G : forall x, In x l -> exists p, In p ps /\ same_key p x = true).
      { intros x Hx. destruct (existsb (fun p => same_key p x) ps) eqn:X; [apply existsb_exists in X; exact X|]. exfalso.
        assert (In x []). { rewrite <- El'. apply filter_In. split; [assumption|]. now rewrite X. } contradiction. }
      split.
      * assert (Ia : In a l) by (rewrite El; now left). destruct (G a Ia) as (p & P1 & P2). exists a, p. splits; auto.
        apply filter_In in Ia. destruct Ia as [_ Ia]. lia.
      * intros x Hx. destruct (now - snd x <=? pto * 2) eqn:X; [|left; lia]. right. apply G. apply filter_In. auto.
    + injection H as <-. cbn. splits; auto.
Qed.

(** A whole acknowledgement: [c0] is the controller once a spurious loss is recognised. *)
Lemma cc_acked_spec : forall ps now pto rtt bfi c c', cc_acked ps now pto rtt bfi c = Some c' -> exists c0,
  detect_spurious ps (cleanup now pto c) = Some c0 /\
  c_mtu c' = c_mtu c /\ c_spur c' = c_spur c /\ c_nloss c' = c_nloss c /\ c_necn c' = c_necn c /\ c_lost c' = c_lost c0 /\ c_fal c' = c_fal c /\
  c_bif c' = c_bif c - acked_bytes ps /\ c_stored c' = c_stored c0 /\ c_nspur c' = c_nspur c0 /\ c_wa c' = c_wa c0 /\
  s_rec (c_cur c') = s_rec (c_cur c0) /\ cwnd c0 <= cwnd c' /\
  (s_phase (c_cur c') = s_phase (c_cur c0) \/ s_phase (c_cur c') = PAvoid) /\
  (s_ssthresh (c_cur c') = None -> s_ssthresh (c_cur c0) = None /\ cwnd c' <= cwnd c0 + acked_bytes ps) /\
  (forall t, s_ssthresh (c_cur c') = Some t -> s_ssthresh (c_cur c0) = Some t \/ t = cwnd c0) /\
  ((forall p, In p ps -> cc_outstanding p = false) -> c_cur c' = c_cur c0) /\
  (cwnd c0 < cwnd c' -> exists p f, In p ps /\ cc_outstanding p = true /\ c_fal c = Some f /\ p_pn p < f) /\
  ((exists t, s_ssthresh (c_cur c0) = Some t /\ t <= cwnd c0) ->
     s_ssthresh (c_cur c') = s_ssthresh (c_cur c0) /\ (transient (s_phase (c_cur c0)) = true -> s_phase (c_cur c') = s_phase (c_cur c0)) /\
     (cwnd c' = cwnd c0 \/ exists k, let b := wa_bytes bfi (cwnd c0) (c_wa c0) in
        cwnd c' = cwnd c0 + k * c_mtu c /\ k * b + s_acked (c_cur c') <= N.min (s_acked (c_cur c0)) b + acked_bytes ps)) /\
  (transient (s_phase (c_cur c0)) = true -> quiet (c_ss c0) -> s_phase (c_cur c') = s_phase (c_cur c0) /\ quiet (c_ss c')).
Proof.
  intros ps now pto rtt bfi c c' H. unfold cc_acked in H. destruct ps as [|big ps0]; [discriminate|]. set (ps := big :: ps0) in *.
  destruct (detect_spurious ps (cleanup now pto c)) as [c0|] eqn:D; cbn [obind] in H; [|discriminate]. exists c0. split; [reflexivity|].
  pose proof (detect_spec _ _ _ _ _ D) as (D1 & D2 & D3 & D4 & D5 & D6 & D7 & D8 & _).
  destruct (ack_loop ps c0 true 0) as [[c2 lim] n] eqn:AL. apply ack_loop_spec in AL.
  destruct AL as (E1 & E2 & E3 & E4 & E5 & E6 & E7 & E8 & E9 & E10 & E11 & E12 & E13 & E14 & E15 & E16 & E17 & E18 & E19 & E20 & E21).
  set (c3 := if in_slow_start (s_phase (c_cur c2)) then with_ss (ss_record n (c_ss c2)) c2 else c2) in *.
  assert (C3 : c_wa c3 = c_wa c2 /\ c_mtu c3 = c_mtu c2 /\ c_stored c3 = c_stored c2 /\ c_spur c3 = c_spur c2 /\ c_nloss c3 = c_nloss c2 /\ c_necn c3 = c_necn c2 /\
    c_nspur c3 = c_nspur c2 /\ c_lost c3 = c_lost c2 /\ c_fal c3 = c_fal c2 /\ c_bif c3 = c_bif c2 /\ c_cur c3 = c_cur c2 /\ (transient (s_phase (c_cur c2)) = true -> c_ss c3 = c_ss c2)).
  { subst c3. destruct (s_phase (c_cur c2)); cbn; splits; auto; discriminate. }
  clearbody c3. destruct C3 as (F1 & F2 & F3 & F4 & F5 & F6 & F7 & F8 & F9 & F10 & F11 & F12).
  assert (TR : transient (s_phase (c_cur c0)) = true -> s_phase (c_cur c2) = s_phase (c_cur c0)).
  { intros T. destruct E15 as [E|[E E']]; [exact E|]. rewrite E' in T. discriminate. }
  destruct lim.
  - injection H as <-. unfold cwnd in *. rewrite F11. splits; try congruence; try lia.
    + destruct E15 as [E|[E _]]; auto.
    + intros S. rewrite E13 in S. split; [assumption|lia].
    + intros t S. rewrite E13 in S. auto.
    + intros Z. apply E20 in Z. tauto.
    + intros (t & T1 & T2). splits; auto.
    + intros T Q. split; [auto|]. rewrite F12, E1 by (rewrite TR; auto). exact Q.
  - destruct (grow_slow (p_pn big) rtt now n c3) as [c4|] eqn:G; cbn [obind] in H; [|discriminate].
    apply grow_slow_spec in G. destruct G as (G1 & G2 & G3 & G4 & G5 & G6 & G7 & G8 & G9 & G10 & G11 & G12 & G13 & G14 & G15 & G16 & G17 & G18 & G19).
    apply grow_avoid_spec in H. destruct H as (H1 & H2 & H3 & H4 & H5 & H6 & H7 & H8 & H9 & H10 & H11 & H12 & H13 & H14 & H15 & H16 & H17).
    assert (W3 : cwnd c3 = cwnd c0) by (unfold cwnd; congruence).
    assert (PH : s_phase (c_cur c') = s_phase (c_cur c0) \/ s_phase (c_cur c') = PAvoid).
    { rewrite H14. destruct G16 as [G|G]; [|auto]. rewrite G, F11. destruct E15 as [E|[E _]]; auto. }
    assert (S3 : s_ssthresh (c_cur c3) = s_ssthresh (c_cur c0)) by congruence.
    rewrite S3 in *. rewrite W3 in *.
    splits; try congruence; try lia.
    + intros S. rewrite H13 in S. rewrite (H16 S). destruct G15 as [G|[(G & G' & _)|(t & G & _ & G' & _)]]; [|congruence|congruence]. split; [congruence|]. lia.
    + intros t S. rewrite H13 in S. destruct G15 as [G|[(G & G' & _)|(u & G & _ & G' & _)]]; [left; congruence|right; congruence|right; congruence].
    + intros _. destruct E21 as [Z|(p & f & P1 & P2 & P3 & P4)]; [reflexivity|discriminate|]. exists p, f. splits; auto. congruence.
    + intros T. pose proof (G17 T) as ->. splits; [congruence| |].
      * intros TT. rewrite H14, F11. auto.
      * destruct H17 as [->|(k & K1 & K2 & K3)]; [left; congruence|]. right. exists k. cbn zeta in *. rewrite W3 in *.
        assert (WA : c_wa c3 = c_wa c0) by congruence. rewrite WA in *. split; [congruence|].
        assert (SA : s_acked (c_cur c3) = s_acked (c_cur c0)) by congruence. rewrite SA in *. lia.
    + intros T Q. assert (N0 : n = 0) by auto. assert (SS : c_ss c3 = c_ss c0) by (rewrite F12, E1 by (rewrite TR; auto); reflexivity).
      assert (P3 : s_phase (c_cur c3) = s_phase (c_cur c0)) by (rewrite F11; auto).
      rewrite H1, H14. rewrite SS in G19. destruct (G19 N0 Q). split; [congruence|assumption].
Qed.

(** Losses. *)
Lemma persistent_spec : forall first prev pto ps c c', persistent first prev pto ps c = Some c' ->
  c' = c \/ exists s, c' = with_ss (ss_reset (c_ss c)) (with_cur s c) /\ s_phase s = PPersist /\ s_cwnd s = cwnd_min c /\ s_acked s = 0 /\
    s_ssthresh s = s_ssthresh (c_cur c) /\ s_rec s = s_rec (c_cur c).
Proof.
  intros first prev pto ps c c' H. unfold persistent in H. destruct first; [|left; congruence]. destruct (pc_scan _ _ _ _) as [[|]|]; [|left; congruence|discriminate].
  right. apply some_inj in H. eexists. split; [symmetry; exact H|]. splits; reflexivity.
Qed.
Lemma lost_trigger : forall a b d ps, last_of (filter cc_in_flight (non_probe ps)) = trigger_of (CLost a b d ps).
Proof.
  intros. unfold last_of, trigger_of, non_probe.
  replace (filter cc_in_flight (filter (fun p => negb (p_probe p)) ps)) with (filter (fun p => p_ae p && p_primary p && negb (p_probe p)) ps); [reflexivity|].
  induction ps as [|p ps IH]; [reflexivity|]. cbn [filter]. destruct (p_probe p); cbn [negb].
  - rewrite andb_false_r. exact IH.
  - rewrite andb_true_r. cbn [filter]. unfold cc_in_flight at 1. destruct (_ && _); [f_equal|]; exact IH.
Qed.
(** A report of losses: [c1] is the controller with the losses taken off the bytes in flight. *)
Lemma cc_lost_spec : forall first prev pto ps c c', cc_lost first prev pto ps c = Some c' -> exists c1,
  same c c1 /\ c_ss c1 = c_ss c /\ c_fal c1 = c_fal c /\ c_bif c1 = c_bif c - total_len (filter cc_in_flight ps) /\ (ps <> [] -> lost_loop ps c = Some c1) /\ (ps = [] -> c1 = c) /\
  match trigger_of (CLost first prev pto ps) with
  | None => c' = c1
  | Some p => let c2 := fst (congestion_event false p c1) in persistent first prev pto (non_probe ps) c2 = Some c'
  end.
Proof.
  intros first prev pto ps c c' H. unfold cc_lost in H. destruct ps as [|p0 ps0].
  { injection H as <-. exists c. splits; auto; [apply same_refl|cbn; lia|]. reflexivity. }
  set (ps := p0 :: ps0) in *. destruct (lost_loop ps c) as [c1|] eqn:L; cbn [obind] in H; [|discriminate]. exists c1.
  pose proof (lost_loop_same _ _ _ L) as (A & B & C & D). splits; auto. { intros; discriminate. }
  rewrite <- (lost_trigger first prev pto). destruct (last_of _) as [p|]; [exact H|congruence].
Qed.
Lemma event_yes : forall ecn p c, after_rec p c = true -> let c' := fst (congestion_event ecn p c) in
  c_ss c' = c_ss c /\ c_bif c' = c_bif c /\ c_lost c' = c_lost c /\ c_fal c' = c_fal c /\ c_mtu c' = c_mtu c /\ c_spur c' = c_spur c /\ c_nspur c' = c_nspur c /\
  s_phase (c_cur c') = PRecStart /\ s_rec (c_cur c') = s_rec (c_cur c) /\ s_ssthresh (c_cur c') = Some (cwnd c') /\
  cwnd c' = N.max (fst (wa_reduce ecn (cwnd c) (s_acked (c_cur c)) (c_wa c))) (2 * c_mtu c) /\
  c_stored c' = (if ecn then c_stored c else Some (c_cur c)) /\ c_nloss c' + c_necn c' = c_nloss c + c_necn c + 1 /\
  c_nloss c' = (if ecn then c_nloss c else c_nloss c + 1).
Proof.
  intros ecn p c H c'. subst c'. unfold congestion_event. rewrite H. unfold cwnd. destruct (wa_reduce _ _ _ _) as [w a]. unfold cwnd_min. cbn.
  splits; auto; try lia; destruct ecn; lia.
Qed.
(** What any step does to the state, unless it undoes a reaction: nothing; or it is a reaction, with or without persistent
    congestion; or persistent congestion alone; or an acknowledgement; or a packet sent after a reaction. *)

Lemma cc_sent_spec : forall p c, let c' := cc_sent p c in
  c_wa c' = c_wa c /\ c_mtu c' = c_mtu c /\ c_stored c' = c_stored c /\ c_spur c' = c_spur c /\ c_nloss c' = c_nloss c /\ c_necn c' = c_necn c /\
  c_nspur c' = c_nspur c /\ c_lost c' = c_lost c /\ cwnd c' = cwnd c /\ s_acked (c_cur c') = s_acked (c_cur c) /\ s_ssthresh (c_cur c') = s_ssthresh (c_cur c) /\
  s_phase (c_cur c') = match s_phase (c_cur c) with PPersist => PSlow | PRecStart => PRecovery | x => x end /\
  s_rec (c_cur c') = (if transient (s_phase (c_cur c)) then Some (p_pn p) else s_rec (c_cur c)) /\
  c_bif c' = c_bif c + (if cc_in_flight p then p_len p else 0) /\
  (c_fal c' = c_fal c \/ cc_in_flight p = true /\ in_use c /\ c_fal c' = Some (p_pn p + 1)) /\
  c_ss c' = (if cc_in_flight p && in_slow_start (s_phase (c_cur c')) then ss_sent (p_pn p) (p_len p) (c_ss c) else c_ss c).
Proof.
  intros p c c'. subst c'. unfold cc_sent.
  set (c1 := match s_phase (c_cur c) with PPersist => _ | PRecStart => _ | _ => c end).
  assert (A : c_wa c1 = c_wa c /\ c_mtu c1 = c_mtu c /\ c_stored c1 = c_stored c /\ c_spur c1 = c_spur c /\ c_nloss c1 = c_nloss c /\ c_necn c1 = c_necn c /\
    c_nspur c1 = c_nspur c /\ c_lost c1 = c_lost c /\ cwnd c1 = cwnd c /\ s_acked (c_cur c1) = s_acked (c_cur c) /\ s_ssthresh (c_cur c1) = s_ssthresh (c_cur c) /\
    s_phase (c_cur c1) = match s_phase (c_cur c) with PPersist => PSlow | PRecStart => PRecovery | x => x end /\
    s_rec (c_cur c1) = (if transient (s_phase (c_cur c)) then Some (p_pn p) else s_rec (c_cur c)) /\
    c_bif c1 = c_bif c /\ c_fal c1 = c_fal c /\ c_ss c1 = c_ss c).
  { subst c1. unfold cwnd. destruct (s_phase (c_cur c)) eqn:P; cbn; rewrite ?P; splits; reflexivity. }
  clearbody c1. destruct A as (A1 & A2 & A3 & A4 & A5 & A6 & A7 & A8 & A9 & A10 & A11 & A12 & A13 & A14 & A15 & A16).
  destruct (cc_in_flight p) eqn:F.
  2:{ splits; auto. lia. }
  set (c2 := if in_slow_start (s_phase (c_cur c1)) then _ else c1).
  assert (B : c_cur c2 = c_cur c1 /\ c_wa c2 = c_wa c1 /\ c_mtu c2 = c_mtu c1 /\ c_stored c2 = c_stored c1 /\ c_spur c2 = c_spur c1 /\ c_nloss c2 = c_nloss c1 /\
    c_necn c2 = c_necn c1 /\ c_nspur c2 = c_nspur c1 /\ c_lost c2 = c_lost c1 /\ c_bif c2 = c_bif c1 /\ c_fal c2 = c_fal c1 /\
    c_ss c2 = (if in_slow_start (s_phase (c_cur c1)) then ss_sent (p_pn p) (p_len p) (c_ss c1) else c_ss c1)).
  { subst c2. destruct (in_slow_start _); cbn; splits; reflexivity. }
  clearbody c2. destruct B as (B1 & B2 & B3 & B4 & B5 & B6 & B7 & B8 & B9 & B10 & B11 & B12).
  assert (AL : app_limited c2 = false -> in_use c).
  { unfold app_limited, in_use. unfold cwnd in *. rewrite B1, B3, B10, A2, A9, A12, A14.
    destruct (_ <=? _) eqn:L; [intros _; left; lia|]. destruct (s_phase (c_cur c)) eqn:P; cbn [in_slow_start]; intros X; try (left; lia);
      right; (split; [auto|]); pose proof (N.div_mod' (s_cwnd (c_cur c)) 2); pose proof (N.mod_lt (s_cwnd (c_cur c)) 2); lia. }
  unfold cwnd in *. destruct (app_limited c2); cbn; rewrite B1, B2, B3, B4, B5, B6, B7, B8, B9, B10, B12; rewrite ?B11, A16; splits; auto; lia.
Qed.
Lemma cc_step_spur : forall c o c', cc_step c o = Some c' -> c_spur c' = c_spur c.
Proof.
  intros c o c' H. destruct o as [p|ps now pto rtt bfi|first prev pto ps|p|p| |m]; cbn [cc_step] in H.
  - injection H as <-. apply (cc_sent_spec p c).
  - apply cc_acked_spec in H. destruct H as (c0 & _ & _ & H & _). exact H.
  - apply cc_lost_spec in H. destruct H as (c1 & S & _ & _ & _ & _ & _ & H). destruct (trigger_of _) as [p|]; [|subst; apply S].
    cbn zeta in H. destruct (after_rec p c1) eqn:A.
    + pose proof (event_yes false _ _ A) as E. cbn zeta in E. set (c2 := fst _) in *. destruct E as (_ & _ & _ & _ & _ & E & _).
      apply persistent_spec in H. destruct H as [->|(s & -> & _)]; cbn; rewrite E; apply S.
    + rewrite congestion_event_no in H by assumption. cbn in H. apply persistent_spec in H. destruct H as [->|(s & -> & _)]; cbn; apply S.
  - injection H as <-. unfold cc_ecn. destruct (after_rec p c) eqn:A; [apply (event_yes true _ _ A)|now rewrite congestion_event_no].
  - unfold cc_discard in H. destruct (cc_outstanding p); [destruct (_ <=? _); [|discriminate]|]; injection H as <-; reflexivity.
  - injection H as <-. reflexivity.
  - injection H as <-. reflexivity.
Qed.
Lemma cc_runs_spur : forall ops c c', cc_runs c ops = Some c' -> c_spur c' = c_spur c.
Proof.
  induction ops as [|o ops IH]; intros c c' H; cbn in H; [congruence|]. destruct (cc_step c o) as [c1|] eqn:S; [|discriminate].
  rewrite (IH _ _ H). eapply cc_step_spur; eauto.
Qed.

(** ** The window *)
Definition floor_inv (k : N) (c : cc) : Prop := 2 * k <= cwnd c /\ (forall s, c_stored c = Some s -> 2 * k <= s_cwnd s) /\ k <= c_mtu c.
Lemma floor_step : forall k c o c', cc_step c o = Some c' -> (forall m, o = CMtu m -> k <= m) -> floor_inv k c -> floor_inv k c'.
Proof.
  intros k c o c' H M (F1 & F2 & F3). destruct o as [p|ps now pto rtt bfi|first prev pto ps|p|p| |m]; cbn [cc_step] in H.
  - injection H as <-. pose proof (cc_sent_spec p c) as E. cbn zeta in E. destruct E as (_ & E1 & E2 & _ & _ & _ & _ & _ & E3 & _).
    unfold floor_inv. rewrite E1, E2, E3. auto.
  - apply cc_acked_spec in H. destruct H as (c0 & D & M1 & _ & _ & _ & _ & _ & _ & St & _ & _ & _ & Wl & _).
    apply detect_spec in D. destruct D as (_ & D2 & _ & _ & _ & _ & _ & _ & D).
    assert (W0 : 2 * k <= cwnd c0).
    { unfold cwnd. destruct D as [(_ & -> & _)|(s & _ & S & _ & _ & [(_ & _ & ->)|(_ & -> & _)])]; [exact F1|auto|exact F1]. }
    split; [lia|split; [|lia]]. intros s Hs. rewrite St in Hs. destruct D as [(_ & _ & _ & E)|(s' & _ & S & E & _)]; [apply F2; congruence|congruence].
  - apply cc_lost_spec in H. destruct H as (c1 & S & _ & _ & _ & _ & _ & H).
    assert (F : floor_inv k c1). { destruct S. unfold floor_inv, cwnd. rewrite sm_cur0, sm_stored0, sm_mtu0. auto. }
    destruct (trigger_of _) as [p|]; [|subst; exact F]. cbn zeta in H.
    assert (F' : floor_inv k (fst (congestion_event false p c1))).
    { destruct (after_rec p c1) eqn:A; [|now rewrite congestion_event_no]. pose proof (event_yes false _ _ A) as E. cbn zeta in E.
      destruct E as (_ & _ & _ & _ & E1 & _ & _ & _ & _ & _ & E2 & E3 & _). destruct F as (G1 & G2 & G3).
      unfold floor_inv. rewrite E1, E2, E3. splits; [lia| |assumption]. intros s Hs. injection Hs as <-. exact G1. }
    clear F. set (c2 := fst _) in *. clearbody c2. apply persistent_spec in H. destruct H as [->|(s & -> & _ & W & _)]; [exact F'|].
    destruct F' as (G1 & G2 & G3). unfold floor_inv, cwnd. cbn. rewrite W. unfold cwnd_min. splits; auto. lia.
  - injection H as <-. unfold cc_ecn. destruct (after_rec p c) eqn:A; [|rewrite congestion_event_no by assumption; repeat split; assumption].
    pose proof (event_yes true _ _ A) as E. cbn zeta in E. destruct E as (_ & _ & _ & _ & E1 & _ & _ & _ & _ & _ & E2 & E3 & _).
    unfold floor_inv. rewrite E1, E2, E3. splits; [lia|assumption|assumption].
  - unfold cc_discard in H. destruct (cc_outstanding p); [destruct (_ <=? _); [|discriminate]|]; injection H as <-; repeat split; assumption.
  - injection H as <-. repeat split; assumption.
  - injection H as <-. unfold floor_inv, cwnd. cbn. splits; auto.
Qed.
Lemma floor_runs : forall k ops c c', cc_runs c ops = Some c' -> (forall m, In (CMtu m) ops -> k <= m) -> floor_inv k c -> floor_inv k c'.
Proof.
  induction ops as [|o ops IH]; intros c c' H M F; cbn in H; [now injection H as <-|]. destruct (cc_step c o) as [c1|] eqn:S; [|discriminate].
  apply (IH _ _ H); [intros m Hm; apply M; now right|]. apply (floor_step _ _ _ _ S); [|exact F]. intros m ->. apply M. now left.
Qed.
Lemma initial_floor : forall m, 2 * m <= cwnd_initial m.
Proof. intros m. unfold cwnd_initial. lia. Qed.

(** ** Reactions *)
(** How a step changes what decides about reactions. *)
Definition settled (c : cc) : Prop :=
  (s_phase (c_cur c) = PRecStart -> exists t, s_ssthresh (c_cur c) = Some t /\ t <= cwnd c) /\ (s_phase (c_cur c) = PPersist -> quiet (c_ss c)) /\
  (forall s, c_stored c = Some s -> transient (s_phase s) = false).
Lemma step_react : forall c o c', cc_step c o = Some c' -> settled c -> ~ undone c c' ->
  settled c' /\
  match o with
  | CSent p => c_nloss c' + c_necn c' = c_nloss c + c_necn c /\ transient (s_phase (c_cur c')) = false /\
      s_rec (c_cur c') = if transient (s_phase (c_cur c)) then Some (p_pn p) else s_rec (c_cur c)
  | _ =>
      (match trigger_of o with
       | Some p => if after_rec p c then c_nloss c' + c_necn c' = c_nloss c + c_necn c + 1 /\ transient (s_phase (c_cur c')) = true
                   else c_nloss c' + c_necn c' = c_nloss c + c_necn c /\
                     transient (s_phase (c_cur c')) = (transient (s_phase (c_cur c)) || match s_phase (c_cur c') with PPersist => true | _ => false end)
       | None => c_nloss c' + c_necn c' = c_nloss c + c_necn c /\ transient (s_phase (c_cur c')) = transient (s_phase (c_cur c)) /\
                   (s_phase (c_cur c') = PPersist -> s_phase (c_cur c) = PPersist)
       end) /\ s_rec (c_cur c') = s_rec (c_cur c)
  end.
Proof.
  intros c o c' H (I1 & I2 & I3) U. destruct o as [p|ps now pto rtt bfi|first prev pto ps|p|p| |m]; cbn [cc_step trigger_of] in H |- *.
  - injection H as <-. pose proof (cc_sent_spec p c) as E. cbn zeta in E. set (c' := cc_sent p c) in *. clearbody c'.
    destruct E as (_ & _ & E1 & _ & E2 & E3 & _ & _ & _ & _ & _ & E4 & E5 & _).
    assert (NT : transient (s_phase (c_cur c')) = false) by (rewrite E4; destruct (s_phase (c_cur c)); reflexivity).
    splits; auto; [|lia]. unfold settled. rewrite E1. splits; auto; intros X; rewrite X in NT; discriminate.
  - apply cc_acked_spec in H. destruct H as (c0 & D & _ & Sp & E1 & E2 & _ & _ & _ & St & Ns & _ & Rc & Wl & Ph & _ & _ & _ & _ & Ca & Tr).
    assert (C0 : c_cur c0 = c_cur c /\ (c_stored c0 = None \/ c_stored c0 = c_stored c) /\ c_ss c0 = c_ss c).
    { apply detect_spec in D. destruct D as (D1 & _ & _ & _ & _ & _ & _ & _ & D).
      destruct D as [(_ & -> & _ & ->)|(s & _ & S & -> & X & [(Y & Z & _)|(_ & -> & _)])]; auto.
      exfalso. apply U. split; [assumption|]. split; [lia|]. eauto. }
    destruct C0 as (C1 & C2 & C3). unfold cwnd in *. rewrite C1, C3 in *. clear D.
    assert (TT : transient (s_phase (c_cur c)) = true -> s_phase (c_cur c') = s_phase (c_cur c) /\ settled c').
    { intros T. destruct (s_phase (c_cur c)) eqn:P; cbn in T; try discriminate.
      - destruct (Ca (I1 eq_refl)) as (A1 & A2 & _). specialize (A2 eq_refl). split; [assumption|]. unfold settled. rewrite A2. splits; try discriminate.
        + intros _. unfold cwnd. rewrite A1. destruct (I1 eq_refl) as (t & T1 & T2). exists t. split; [assumption|]. unfold cwnd in T2. lia.
        + intros s Hs. rewrite St in Hs. destruct C2 as [C2|C2]; rewrite C2 in Hs; [discriminate|auto].
      - destruct (Tr eq_refl (I2 eq_refl)) as [A1 A2]. split; [assumption|]. unfold settled. rewrite A1. splits; try discriminate; auto.
        intros s Hs. rewrite St in Hs. destruct C2 as [C2|C2]; rewrite C2 in Hs; [discriminate|auto]. }
    destruct (transient (s_phase (c_cur c))) eqn:T.
    + destruct (TT eq_refl) as [A B]. splits; auto; [lia|congruence|congruence].
    + assert (PH : transient (s_phase (c_cur c')) = false) by (destruct Ph as [->| ->]; [assumption|reflexivity]).
      splits; auto; try lia; try (intros X; rewrite X in PH; discriminate).
      unfold settled. splits; try (intros X; rewrite X in PH; discriminate). intros s Hs. rewrite St in Hs. destruct C2 as [C2|C2]; rewrite C2 in Hs; [discriminate|auto].
  - apply cc_lost_spec in H. destruct H as (c1 & S & Ss & _ & _ & _ & _ & H). destruct S.
    assert (AR : forall p, after_rec p c1 = after_rec p c) by (intros p; unfold after_rec; now rewrite sm_cur0).
    change (match rev (filter (fun p => p_ae p && p_primary p && negb (p_probe p)) ps) with p :: _ => Some p | [] => None end) with (trigger_of (CLost first prev pto ps)) in *.
    destruct (trigger_of _) as [p|].
    2:{ subst c1. rewrite sm_cur0, sm_nloss0, sm_necn0. splits; auto. unfold settled, cwnd. rewrite sm_cur0, sm_stored0, Ss. auto. }
    cbn zeta in H. rewrite <- AR. destruct (after_rec p c1) eqn:A.
    + assert (NT : transient (s_phase (c_cur c)) = false). { rewrite AR in A. unfold after_rec in A. apply andb_true_iff in A. destruct A as [A _]. now apply negb_true_iff in A. }
      pose proof (event_yes false _ _ A) as E. cbn zeta in E. set (c2 := fst _) in *. clearbody c2.
      destruct E as (E1 & _ & _ & _ & E2 & _ & _ & E3 & E4 & E5 & E6 & E7 & E8 & _).
      apply persistent_spec in H. destruct H as [->|(s & -> & P1 & P2 & P3 & P4 & P5)].
      * rewrite E3, E8, sm_nloss0, sm_necn0, E4, sm_cur0. splits; auto. unfold settled. rewrite E3. splits; try discriminate.
        -- intros _. exists (cwnd c2). split; [assumption|lia].
        -- rewrite E7. intros s Hs. injection Hs as <-. now rewrite sm_cur0.
      * cbn. rewrite P1, P5, E4, sm_cur0. splits; auto; [|lia]. unfold settled. cbn. rewrite P1. splits; try discriminate.
        -- intros _. apply quiet_reset.
        -- rewrite E7. intros x Hx. injection Hx as <-. now rewrite sm_cur0.
    + rewrite congestion_event_no in H by assumption. cbn [fst] in H.
      apply persistent_spec in H. destruct H as [->|(s & -> & P1 & P2 & P3 & P4 & P5)].
      * rewrite sm_cur0, sm_nloss0, sm_necn0. splits; auto; [unfold settled, cwnd; rewrite sm_cur0, sm_stored0, Ss; auto|].
        destruct (s_phase (c_cur c)); reflexivity.
      * cbn. rewrite P1, P5, sm_cur0, sm_nloss0, sm_necn0. splits; auto; [|now rewrite orb_true_r]. unfold settled. cbn. rewrite P1. splits; try discriminate.
        -- intros _. apply quiet_reset.
        -- rewrite sm_stored0. auto.
  - injection H as <-. unfold cc_ecn. destruct (after_rec p c) eqn:A.
    + assert (NT : transient (s_phase (c_cur c)) = false). { unfold after_rec in A. apply andb_true_iff in A. destruct A as [A _]. now apply negb_true_iff in A. }
      pose proof (event_yes true _ _ A) as E. cbn zeta in E. set (c2 := fst _) in *. clearbody c2.
      destruct E as (E1 & _ & _ & _ & E2 & _ & _ & E3 & E4 & E5 & E6 & E7 & E8 & _).
      rewrite E3, E8, E4. splits; auto. unfold settled. rewrite E3. splits; try discriminate.
      * intros _. exists (cwnd c2). split; [assumption|lia].
      * rewrite E7. auto.
    + rewrite congestion_event_no by assumption. cbn [fst]. splits; auto; [unfold settled; auto|]. destruct (s_phase (c_cur c)); reflexivity.
  - unfold cc_discard in H. destruct (cc_outstanding p); [destruct (_ <=? _); [|discriminate]|]; injection H as <-; cbn; (splits; auto; unfold settled; cbn; auto).
  - injection H as <-. cbn. splits; auto. unfold settled. cbn. auto.
  - injection H as <-. cbn. splits; auto. unfold settled. cbn. auto.
Qed.
