(** Proofs about the rate of acknowledgements asked of the peer. *)
From Verif Require Import Base Lib FrameModel FrameSpec FrameProps RttModel RttSpec RttProofs.

Definition rate_ok (mn : N) (r : ackrate) : Prop := 1 <= a_packets r <= 255 /\ mn <= a_delay r <= 50 * ms.
Lemma clamp_ok x lo hi : lo <= hi -> exists y, clamp x lo hi = Some y /\ lo <= y <= hi /\ (lo <= x <= hi -> y = x) /\ (x < lo -> y = lo) /\ (hi < x -> y = hi).
Proof.
  intros H. unfold clamp. destruct (N.ltb_spec hi lo); [lia|]. eexists. split; [reflexivity|].
  destruct (N.ltb_spec x lo); [lia|]. destruct (N.ltb_spec hi x); lia.
Qed.
Lemma rate_new_ok mn ratio cwnd mtu r : mn <= 50 * ms -> 0 < mtu -> 0 < ratio ->
  exists t, rate_new mn ratio cwnd mtu r = Some t /\ rate_ok mn t /\
    (let x := r * 10 / ratio in (mn <= x <= 50 * ms -> a_delay t = x) /\ (x < mn -> a_delay t = mn) /\ (50 * ms < x -> a_delay t = 50 * ms)) /\
    (let y := cwnd * 10 / mtu / ratio in 2 <= y <= 256 -> a_packets t = y - 1).
Proof.
  intros A B C. unfold rate_new. replace ((mtu =? 0) || (ratio =? 0)) with false by lia.
  destruct (clamp_ok (cwnd * ACK_RATIO_SCALE / mtu / ratio) 2 256) as (p & -> & P1 & P2 & _); [lia|].
  destruct (clamp_ok (r * ACK_RATIO_SCALE / ratio) mn (50 * ms) A) as (d & -> & D1 & D2 & D3 & D4).
  eexists. split; [reflexivity|]. cbn zeta. unfold rate_ok. cbn. unfold ACK_RATIO_SCALE in *. splits; auto; try lia.
Qed.

(** What holds of a flexible rate. *)
Definition FI (f : flex) : Prop := f_min f <= 50 * ms /\ 10 <= f_ratio f /\ rate_ok (f_min f) (f_target f).
Lemma flex_new_ok mx mn ratio cwnd mtu r : mn <= 50 * ms -> 0 < mtu ->
  exists f, flex_new mx mn ratio cwnd mtu r = Some f /\ FI f /\ f_seqno f = 0 /\ f_min f = mn.
Proof.
  intros A B. unfold flex_new. destruct (rate_new_ok mn (N.max ACK_RATIO_SCALE ratio) cwnd mtu r A B) as (t & -> & T & _); [unfold ACK_RATIO_SCALE; lia|].
  eexists. split; [reflexivity|]. unfold FI, ACK_RATIO_SCALE. cbn. splits; auto; lia.
Qed.
Lemma flex_update_ok cwnd mtu r f : FI f -> 0 < mtu ->
  exists f', flex_update cwnd mtu r f = Some f' /\ FI f' /\ f_seqno f' = f_seqno f /\ f_min f' = f_min f /\ f_current f' = f_current f /\ f_outstanding f' = f_outstanding f.
Proof.
  intros (A & B & C) M. unfold flex_update. destruct (rate_new_ok (f_min f) (f_ratio f) cwnd mtu r A M) as (t & -> & T & _); [lia|].
  eexists. split; [reflexivity|]. unfold FI. cbn. splits; auto.
Qed.
Lemma rate_write_ok mn rem seqno r : rate_ok mn r -> seqno < 2 ^ 62 -> exists l,
  rate_write rem seqno r = Some (if lenN l <=? rem then Some l else None) /\
  frame_decode l = FOk (FAckFrequency seqno (a_packets r + 1) (a_delay r / 1000) false) [].
Proof.
  intros (P & D) S. unfold ms in D. unfold rate_write.
  assert (DD : a_delay r / 1000 <= 50000) by dlia. rewrite N.min_l by lia.
  destruct (control_frames_written_iff_fit rem (WAckFrequency seqno (a_packets r) (a_delay r / 1000))) as (l & _ & W & R).
  { cbn. splits; auto; try lia. unfold V62. lia. }
  exists l. cbn in W. split; [exact W|]. rewrite <- (app_nil_r l). apply R.
Qed.
Lemma flex_write_ok rem f : FI f -> f_seqno f < 2 ^ 62 -> exists f' b, flex_write rem f = Some (f', b) /\
  FI f' /\ f_min f' = f_min f /\ f_current f' = f_current f /\ f_target f' = f_target f /\ f_ratio f' = f_ratio f /\
  match b with
  | None => f' = f
  | Some l => f_outstanding f = false /\ needs_update (f_current f) (f_target f) = true /\ f_seqno f' = f_seqno f + 1 /\ f_outstanding f' = true /\
      frame_decode l = FOk (FAckFrequency (f_seqno f) (a_packets (f_target f) + 1) (a_delay (f_target f) / 1000) false) [] /\ lenN l <= rem
  end.
Proof.
  intros H S. unfold flex_write. destruct (f_outstanding f) eqn:O; cbn [negb andb]; [exists f, None; splits; auto|].
  destruct (needs_update _ _) eqn:NU; [|exists f, None; splits; auto]. destruct H as (A & B & C).
  destruct (rate_write_ok _ rem _ _ C S) as (l & -> & D). destruct (N.leb_spec (lenN l) rem) as [L|L].
  - eexists _, (Some l). split; [reflexivity|]. unfold FI. cbn. splits; auto.
  - exists f, None. unfold FI. splits; auto.
Qed.

(** The estimator after [n] uses. *)
Definition K (t : rtt) (n : N) : Prop :=
  match t_delay t with Fixed _ => True | Flexible f => FI f /\ f_seqno f <= n end.
Definition seen_of (t : rtt) : bool := match t_first t with Some _ => true | None => false end.
Lemma source_leb_num a b : source_num a <= source_num b -> source_leb a b = true.
Proof. intros H. unfold source_leb. lia. Qed.
Lemma update_total raw d src now t : source_num (t_best t) <= source_num src -> exists t', rtt_update raw d src now t = Some t'.
Proof. intros H. unfold rtt_update. rewrite source_leb_num by exact H. cbn [negb]. destruct (t_first t); cbn; eauto. Qed.

Lemma step_total o ops t n : K t n -> n < 2 ^ 62 -> (t_first t = None -> t_best t = Guesstimate) ->
  rallowed (seen_of t) (t_best t) (o :: ops) ->
  exists t' h, rstep t o = Some (t', h) /\ K t' (n + 1) /\ (t_first t' = None -> t_best t' = Guesstimate) /\ rallowed (seen_of t') (t_best t') ops.
Proof.
  intros HK HN HB. assert (KN : K t (n + 1)) by (unfold K in *; destruct (t_delay t); [auto|]; split; [tauto|lia]).
  destruct o; cbn [rallowed rstep].
  - intros [S A]. unfold rtt_set_initial. destruct (GRANULARITY <=? v); [|eauto 10].
    unfold rtt_init. unfold seen_of in S. destruct (t_first t) eqn:EF; [discriminate|]. eexists _, _. split; [reflexivity|]. cbn. splits; auto.
    unfold seen_of in *. rewrite EF in A. exact A.
  - intros [].
  - intros ([L1 L2] & F & R & M & A). unfold rtt_process_tps. destruct min_us as [us|].
    + cbn in F. destruct (_ <? _); [eauto 10|]. destruct (flex_new_ok (max_ms * ms) (us * 1000) ratio cwnd mtu (t_smoothed t) F M) as (f & -> & FF & S0 & _).
      eexists _, _. split; [reflexivity|]. cbn. splits; auto. lia.
    + eexists _, _. split; [reflexivity|]. cbn. splits; auto.
  - unfold rtt_sample. destruct (now <? sent); [eauto 10|]. intros [S A]. fold (sample_source confirmed sent).
    destruct (update_total (now - sent) ack_delay (sample_source confirmed sent) now t S) as (t' & E). rewrite E. eexists _, _. split; [reflexivity|].
    apply update_spec in E. destruct E as (_ & _ & F & D & B & _). splits.
    + unfold K in *. rewrite D. exact KN.
    + rewrite F. discriminate.
    + unfold seen_of. rewrite F, B. exact A.
  - intros A. unfold rtt_discard. destruct (t_first t) eqn:EF.
    + eexists _, _. split; [reflexivity|]. rewrite EF. splits; auto. unfold seen_of. rewrite EF. exact A.
    + destruct (update_total (now - sent) 0 Guesstimate now t) as (t' & E); [rewrite HB by reflexivity; cbn; lia|]. rewrite E. eexists _, _. split; [reflexivity|].
      apply update_spec in E. destruct E as (_ & _ & F & D & B & _). splits.
      * unfold K in *. rewrite D. exact KN.
      * rewrite F. discriminate.
      * unfold seen_of. rewrite F, B. rewrite HB in A by reflexivity. exact A.
  - intros [M A]. unfold rtt_update_delay, pd_update. unfold K in *. destruct (t_delay t) as [d|f] eqn:ED.
    + eexists _, _. split; [reflexivity|]. cbn. splits; auto.
    + destruct KN as [FF S]. destruct (flex_update_ok cwnd mtu (t_smoothed t) f FF M) as (f' & -> & F1 & F2 & _). eexists _, _. split; [reflexivity|]. cbn. splits; auto. lia.
  - intros A. unfold pd_write. unfold K in *. destruct (t_delay t) as [d|f] eqn:ED.
    + eexists _, _. split; [reflexivity|]. cbn. splits; auto.
    + destruct HK as [FF S]. destruct (flex_write_ok rem f FF) as (f' & b & -> & F1 & _ & _ & _ & _ & W); [lia|].
      destruct b; (eexists _, _; split; [reflexivity|]; cbn; splits; auto).
      * destruct W as (_ & _ & -> & _). lia.
      * subst f'. lia.
  - intros A. unfold pd_acked. eexists _, _. split; [reflexivity|]. unfold K in *. destruct (t_delay t) as [d|f] eqn:ED; cbn; splits; auto; [tauto|]. tauto.
  - intros A. unfold pd_lost. eexists _, _. split; [reflexivity|]. unfold K in *. destruct (t_delay t) as [d|f] eqn:ED; cbn; splits; auto; [tauto|]. tauto.
Qed.
Lemma runs_total ops : forall t n, K t n -> n + lenN ops <= 2 ^ 62 -> (t_first t = None -> t_best t = Guesstimate) ->
  rallowed (seen_of t) (t_best t) ops -> exists t' h, rruns t ops = Some (t', h) /\ K t' (n + lenN ops).
Proof.
  induction ops as [|o ops IH]; intros t n HK HN HB A.
  - exists t, []. split; [reflexivity|]. unfold lenN. cbn. rewrite N.add_0_r. exact HK.
  - rewrite lenN_cons in *. destruct (step_total o ops t n HK) as (t1 & h1 & E & K1 & B1 & A1); auto; [lia|].
    destruct (IH t1 (n + 1) K1) as (t2 & h2 & E2 & K2); auto; [lia|]. cbn. rewrite E, E2. eexists _, _. split; [reflexivity|]. replace (n + (1 + lenN ops)) with (n + 1 + lenN ops) by lia. exact K2.
Qed.

(** The frames of one peer: numbered from zero. *)
Definition frame_good (mn : N) (i : nat) (br : list N * ackrate) : Prop :=
  frame_decode (fst br) = FOk (FAckFrequency (N.of_nat i) (a_packets (snd br) + 1) (a_delay (snd br) / 1000) false) [] /\ rate_ok mn (snd br).
Definition Q (mn : N) (t : rtt) (h : list rvent) : Prop :=
  (forall i br, nth_error (frames h) i = Some br -> frame_good mn i br) /\
  match t_delay t with Fixed _ => frames h = [] | Flexible f => f_min f = mn /\ FI f /\ f_seqno f = lenN (frames h) end.
(** Every RParams asks for [mn]. *)
Definition params_min (mn : N) (o : rop) : Prop := match o with RParams _ (Some us) _ _ _ => us * 1000 = mn | RPrime _ => False | _ => True end.
Lemma frames_nil_ev h : (forall e, In e h -> frame_of e = []) -> frames h = [].
Proof. intros H. unfold frames. induction h as [|e h IH]; [reflexivity|]. cbn. rewrite H by (left; reflexivity). apply IH. intros x X. apply H. right. exact X. Qed.
Lemma Q_same mn t t' h h' : Q mn t h -> frames h' = [] -> t_delay t' = t_delay t -> Q mn t' (h ++ h').
Proof. intros [A B] F D. unfold Q. rewrite frames_app, F, app_nil_r, D. auto. Qed.
Lemma Q_step mn t h o t' h' : Q mn t h -> lenN (frames h) < 2 ^ 62 -> mn <= 50 * ms -> params_min mn o -> (is_params o = true -> exists d, t_delay t = Fixed d) ->
  rstep t o = Some (t', h') -> Q mn t' (h ++ h').
Proof.
  intros H HN HM PM PO. destruct o; cbn [rstep]; intros S.
  - unfold rtt_set_initial, rtt_init in S. destruct (GRANULARITY <=? v); [destruct (t_first t); [discriminate|]|]; apply some_inj, pair_equal_spec in S; destruct S as [<- <-]; eapply Q_same; eauto.
  - destruct PM.
  - destruct (PO eq_refl) as (d & ED). destruct H as [H1 H2]. rewrite ED in H2. unfold rtt_process_tps in S. destruct min_us as [us|].
    + destruct (_ <? _); [apply some_inj, pair_equal_spec in S; destruct S as [<- <-]; unfold Q; rewrite frames_app, ED; cbn; rewrite app_nil_r; auto|].
      cbn in PM. unfold flex_new in S. destruct (rate_new _ _ _ _ _) as [r|] eqn:ER; [|discriminate]. apply some_inj, pair_equal_spec in S. destruct S as [<- <-].
      assert (MT : 0 < mtu) by (unfold rate_new in ER; destruct (N.eqb_spec mtu 0); [discriminate|lia]).
      destruct (rate_new_ok (us * 1000) (N.max ACK_RATIO_SCALE ratio) cwnd mtu (t_smoothed t)) as (r' & E' & R' & _); auto; [lia|unfold ACK_RATIO_SCALE; lia|].
      rewrite ER in E'. apply some_inj in E'. subst r'. unfold Q. rewrite app_nil_r. split; [exact H1|]. cbn. rewrite H2. unfold FI. cbn. rewrite <- PM in *. splits; auto. unfold ACK_RATIO_SCALE. lia.
    + apply some_inj, pair_equal_spec in S. destruct S as [<- <-]. unfold Q. rewrite app_nil_r. cbn. auto.
  - unfold rtt_sample in S. destruct (now <? sent); [apply some_inj, pair_equal_spec in S; destruct S as [<- <-]; eapply Q_same; eauto|].
    destruct (rtt_update _ _ _ _ _) as [t1|] eqn:E; [|discriminate]. apply some_inj, pair_equal_spec in S; destruct S as [<- <-]. apply update_spec in E. eapply Q_same; eauto. apply E.
  - unfold rtt_discard in S. destruct (t_first t); [apply some_inj, pair_equal_spec in S; destruct S as [<- <-]; eapply Q_same; eauto|].
    destruct (rtt_update _ _ _ _ _) as [t1|] eqn:E; [|discriminate]. apply some_inj, pair_equal_spec in S; destruct S as [<- <-]. apply update_spec in E. eapply Q_same; eauto. apply E.
  - destruct H as [H1 H2]. unfold rtt_update_delay, pd_update, flex_update in S. destruct (t_delay t) as [d|f] eqn:ED.
    + apply some_inj, pair_equal_spec in S; destruct S as [<- <-]. unfold Q. rewrite app_nil_r. cbn. auto.
    + destruct H2 as (F1 & F2 & F3). destruct (rate_new _ _ _ _ _) as [r|] eqn:ER; [|discriminate]. apply some_inj, pair_equal_spec in S. destruct S as [<- <-].
      assert (MT : 0 < mtu) by (unfold rate_new in ER; destruct (N.eqb_spec mtu 0); [discriminate|lia]).
      destruct F2 as (G1 & G2 & G3). destruct (rate_new_ok (f_min f) (f_ratio f) cwnd mtu (t_smoothed t)) as (r' & E' & R' & _); auto; [lia|].
      rewrite ER in E'. apply some_inj in E'. subst r'. unfold Q, FI. rewrite app_nil_r. cbn. splits; auto.
  - destruct H as [H1 H2]. unfold pd_write in S. destruct (t_delay t) as [d|f] eqn:ED.
    + apply some_inj, pair_equal_spec in S; destruct S as [<- <-]. unfold Q. rewrite app_nil_r. cbn. auto.
    + destruct H2 as (F1 & F2 & F3). destruct (flex_write_ok rem f F2) as (f' & b & E & F' & M' & C' & T' & _ & W); [lia|]. rewrite E in S.
      destruct b as [b|]; apply some_inj, pair_equal_spec in S; destruct S as [<- <-]; unfold Q; cbn.
      * destruct W as (_ & _ & SQ & _ & DD & _). rewrite frames_app. cbn [frames flat_map frame_of app]. split.
        -- intros i br. destruct (Nat.lt_ge_cases i (length (frames h))) as [L|L].
           { rewrite nth_error_app1 by exact L. apply H1. }
           rewrite nth_error_app2 by exact L. destruct (i - length (frames h))%nat as [|k] eqn:EI.
           { cbn. intros X. apply some_inj in X. subst br. unfold frame_good. cbn. assert (EN : i = length (frames h)) by lia. rewrite EN, T'. unfold lenN in F3. rewrite <- F3. split; [exact DD|].
             destruct F2 as (_ & _ & G). rewrite <- F1. exact G. }
           { cbn. destruct k; discriminate. }
        -- splits; auto; [congruence|]. rewrite SQ, F3, lenN_app. cbn. lia.
      * subst f'. rewrite app_nil_r. auto.
  - destruct H as [H1 H2]. apply some_inj, pair_equal_spec in S; destruct S as [<- <-]. unfold Q, pd_acked. rewrite app_nil_r. cbn. destruct (t_delay t); cbn; auto.
  - destruct H as [H1 H2]. apply some_inj, pair_equal_spec in S; destruct S as [<- <-]. unfold Q, pd_lost. rewrite app_nil_r. cbn. destruct (t_delay t); cbn; auto.
Qed.
Lemma frames_step_le t o t' h' : rstep t o = Some (t', h') -> lenN (frames h') <= 1.
Proof.
  destruct o; cbn [rstep]; intros S; repeat (dmatch_in S); try discriminate; apply some_inj, pair_equal_spec in S; destruct S as [<- <-]; cbn; lia.
Qed.
Lemma step_fixed t o t' h' d : rstep t o = Some (t', h') -> t_delay t = Fixed d -> is_params o = false -> is_prime o = false -> t_delay t' = Fixed d.
Proof.
  intros S D P1 P2. destruct o; cbn [rstep is_params is_prime] in *; try discriminate.
  - unfold rtt_set_initial, rtt_init in S. repeat (dmatch_in S); try discriminate; apply some_inj, pair_equal_spec in S; destruct S as [<- _]; inv E; auto; repeat (dmatch_in H0); try discriminate; inv H0; auto.
  - destruct (rtt_sample _ _ _ _ _) as [t1|] eqn:E; [|discriminate]. apply some_inj, pair_equal_spec in S; destruct S as [<- _]. unfold rtt_sample in E. dmatch_in E; [apply some_inj in E; congruence|]. apply update_spec in E. destruct E as (_ & _ & _ & -> & _). exact D.
  - destruct (rtt_discard _ _ _) as [t1|] eqn:E; [|discriminate]. apply some_inj, pair_equal_spec in S; destruct S as [<- _]. unfold rtt_discard in E. dmatch_in E; [apply some_inj in E; congruence|]. apply update_spec in E. destruct E as (_ & _ & _ & -> & _). exact D.
  - unfold rtt_update_delay, pd_update in S. rewrite D in S. apply some_inj, pair_equal_spec in S; destruct S as [<- _]. reflexivity.
  - unfold pd_write in S. rewrite D in S. apply some_inj, pair_equal_spec in S; destruct S as [<- _]. reflexivity.
  - apply some_inj, pair_equal_spec in S; destruct S as [<- _]. cbn. rewrite D. reflexivity.
  - apply some_inj, pair_equal_spec in S; destruct S as [<- _]. cbn. rewrite D. reflexivity.
Qed.
Lemma Q_runs mn ops : forall t h t' h', Q mn t h -> lenN (frames h) + lenN ops <= 2 ^ 62 -> mn <= 50 * ms -> Forall (params_min mn) ops ->
  match filter is_params ops with [] => True | _ => exists d, t_delay t = Fixed d end -> (length (filter is_params ops) <= 1)%nat ->
  rruns t ops = Some (t', h') -> Q mn t' (h ++ h').
Proof.
  induction ops as [|o ops IH]; intros t h t' h' HQ HN HM PM PF PL R; cbn in R.
  - apply some_inj, pair_equal_spec in R. destruct R as [<- <-]. rewrite app_nil_r. exact HQ.
  - destruct (rstep t o) as [[t1 h1]|] eqn:E; [|discriminate]. destruct (rruns t1 ops) as [[t2 h2]|] eqn:E2; [|discriminate].
    apply some_inj, pair_equal_spec in R. destruct R as [<- <-]. rewrite lenN_cons in HN. inv PM. pose proof (frames_step_le _ _ _ _ E) as FL.
    rewrite app_assoc. apply (IH t1 (h ++ h1) t2 h2); auto.
    + eapply Q_step; eauto; [lia|]. intros IP. cbn in PF. rewrite IP in PF. exact PF.
    + rewrite frames_app, lenN_app. lia.
    + cbn in PF, PL. destruct (is_params o) eqn:IP; [cbn in PL; destruct (filter is_params ops); [exact Logic.I|cbn in PL; lia]|].
      destruct (filter is_params ops); [exact Logic.I|]. destruct PF as (d & D). exists d. eapply step_fixed; eauto. destruct o; auto. destruct H1.
    + cbn in PL. destruct (is_params o); cbn in PL; lia.
Qed.

(** What stays the same. *)
Lemma step_target t o t' h' f : rstep t o = Some (t', h') -> t_delay t = Flexible f -> changes_target o = false ->
  exists f', t_delay t' = Flexible f' /\ f_target f' = f_target f.
Proof.
  intros S D P. destruct o; cbn [rstep changes_target] in *; try discriminate.
  - unfold rtt_set_initial, rtt_init in S. repeat (dmatch_in S); try discriminate; apply some_inj, pair_equal_spec in S; destruct S as [<- _]; inv E; eauto; repeat (dmatch_in H0); try discriminate; inv H0; cbn; eauto.
  - destruct (rtt_sample _ _ _ _ _) as [t1|] eqn:E; [|discriminate]. apply some_inj, pair_equal_spec in S; destruct S as [<- _]. unfold rtt_sample in E. dmatch_in E; [apply some_inj in E; subst; eauto|]. apply update_spec in E. destruct E as (_ & _ & _ & -> & _). eauto.
  - destruct (rtt_discard _ _ _) as [t1|] eqn:E; [|discriminate]. apply some_inj, pair_equal_spec in S; destruct S as [<- _]. unfold rtt_discard in E. dmatch_in E; [apply some_inj in E; subst; eauto|]. apply update_spec in E. destruct E as (_ & _ & _ & -> & _). eauto.
  - unfold pd_write, flex_write in S. rewrite D in S. destruct (_ && _); [destruct (rate_write _ _ _) as [[b|]|]; [| |discriminate]|]; apply some_inj, pair_equal_spec in S; destruct S as [<- _]; cbn; eauto.
  - apply some_inj, pair_equal_spec in S; destruct S as [<- _]. cbn. rewrite D. cbn. eauto.
  - apply some_inj, pair_equal_spec in S; destruct S as [<- _]. cbn. rewrite D. cbn. eauto.
Qed.
Lemma step_current t o t' h' f : rstep t o = Some (t', h') -> t_delay t = Flexible f -> changes_current o = false ->
  exists f', t_delay t' = Flexible f' /\ f_current f' = f_current f.
Proof.
  intros S D P. destruct o; cbn [rstep changes_current] in *; try discriminate.
  - unfold rtt_set_initial, rtt_init in S. repeat (dmatch_in S); try discriminate; apply some_inj, pair_equal_spec in S; destruct S as [<- _]; inv E; eauto; repeat (dmatch_in H0); try discriminate; inv H0; cbn; eauto.
  - destruct (rtt_sample _ _ _ _ _) as [t1|] eqn:E; [|discriminate]. apply some_inj, pair_equal_spec in S; destruct S as [<- _]. unfold rtt_sample in E. dmatch_in E; [apply some_inj in E; subst; eauto|]. apply update_spec in E. destruct E as (_ & _ & _ & -> & _). eauto.
  - destruct (rtt_discard _ _ _) as [t1|] eqn:E; [|discriminate]. apply some_inj, pair_equal_spec in S; destruct S as [<- _]. unfold rtt_discard in E. dmatch_in E; [apply some_inj in E; subst; eauto|]. apply update_spec in E. destruct E as (_ & _ & _ & -> & _). eauto.
  - unfold rtt_update_delay, pd_update, flex_update in S. rewrite D in S. destruct (rate_new _ _ _ _ _); [|discriminate]. apply some_inj, pair_equal_spec in S; destruct S as [<- _]. cbn. eauto.
  - unfold pd_write, flex_write in S. rewrite D in S. destruct (_ && _); [destruct (rate_write _ _ _) as [[b|]|]; [| |discriminate]|]; apply some_inj, pair_equal_spec in S; destruct S as [<- _]; cbn; eauto.
  - apply some_inj, pair_equal_spec in S; destruct S as [<- _]. cbn. rewrite D. cbn. eauto.
Qed.
Lemma step_outstanding t o t' h' f : rstep t o = Some (t', h') -> t_delay t = Flexible f -> f_outstanding f = true -> settles o = false ->
  frames h' = [] /\ exists f', t_delay t' = Flexible f' /\ f_outstanding f' = true.
Proof.
  intros S D O P. destruct o; cbn [rstep settles] in *; try discriminate.
  - unfold rtt_set_initial, rtt_init in S. repeat (dmatch_in S); try discriminate; apply some_inj, pair_equal_spec in S; destruct S as [<- <-]; inv E; eauto; repeat (dmatch_in H0); try discriminate; inv H0; cbn; eauto.
  - destruct (rtt_sample _ _ _ _ _) as [t1|] eqn:E; [|discriminate]. apply some_inj, pair_equal_spec in S; destruct S as [<- <-]. unfold rtt_sample in E. destruct (now <? sent); [apply some_inj in E; subst; eauto|]. apply update_spec in E. destruct E as (_ & _ & _ & -> & _). eauto.
  - destruct (rtt_discard _ _ _) as [t1|] eqn:E; [|discriminate]. apply some_inj, pair_equal_spec in S; destruct S as [<- <-]. unfold rtt_discard in E. destruct (t_first t); [apply some_inj in E; subst; eauto|]. apply update_spec in E. destruct E as (_ & _ & _ & -> & _). eauto.
  - unfold rtt_update_delay, pd_update, flex_update in S. rewrite D in S. destruct (rate_new _ _ _ _ _); [|discriminate]. apply some_inj, pair_equal_spec in S; destruct S as [<- <-]. cbn. eauto.
  - unfold pd_write, flex_write in S. rewrite D, O in S. cbn in S. apply some_inj, pair_equal_spec in S; destruct S as [<- <-]. cbn. eauto.
Qed.
Lemma runs_keep (P : flex -> Prop) (c : rop -> bool) :
  (forall t o t' h' f, rstep t o = Some (t', h') -> t_delay t = Flexible f -> P f -> c o = false -> exists f', t_delay t' = Flexible f' /\ P f') ->
  forall ops t t' h' f, rruns t ops = Some (t', h') -> t_delay t = Flexible f -> P f -> filter c ops = [] -> exists f', t_delay t' = Flexible f' /\ P f'.
Proof.
  intros ST. induction ops as [|o ops IH]; intros t t' h' f R D HP F; cbn in R.
  - apply some_inj, pair_equal_spec in R. destruct R as [<- _]. eauto.
  - destruct (rstep t o) as [[t1 h1]|] eqn:E; [|discriminate]. destruct (rruns t1 ops) as [[t2 h2]|] eqn:E2; [|discriminate].
    apply some_inj, pair_equal_spec in R. destruct R as [<- _]. cbn in F. destruct (c o) eqn:C; [discriminate|].
    destruct (ST _ _ _ _ _ E D HP C) as (f1 & D1 & P1). eapply IH; eauto.
Qed.
