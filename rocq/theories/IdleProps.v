(** C33: the idle timeout and keep-alives. *)
From Verif Require Import Base Lib IdleModel.

(** ** Specification *)
(** Times that restart the idle timer, RFC 9000, 10.1: a packet is received, or an ack-eliciting packet is sent
    and none was since a packet was last received. *)
Fixpoint restarts (sent : bool) (ops : list iop) : list N :=
  match ops with
  | [] => []
  | IRecv t :: ops' => t :: restarts false ops'
  | ISent t :: ops' => if sent then restarts true ops' else t :: restarts true ops'
  | _ :: ops' => restarts sent ops'
  end.
Definition time_of (o : iop) : option N := match o with IRecv t | ISent t => Some t | _ => None end.
(** Events come in order of time. *)
Fixpoint in_order (last : N) (ops : list iop) : Prop :=
  match ops with [] => True | o :: ops' => match time_of o with Some t => last <= t /\ in_order t ops' | None => in_order last ops' end end.
(** The smaller of our timeout and the peer's (zero is none). *)
Fixpoint effective (timeout : N) (ops : list iop) : N :=
  match ops with [] => timeout | IPeer p :: ops' => effective (if 0 <? p then N.min timeout p else timeout) ops' | _ :: ops' => effective timeout ops' end.

(** ** Proofs *)
Lemma timeout_run : forall ops d, d_timeout (idle_run d ops) = effective (d_timeout d) ops.
Proof.
  induction ops as [|o ops IH]; intros d; [reflexivity|]. cbn [idle_run fold_left effective]. fold (idle_run (idle_step d o) ops). rewrite IH.
  destruct o as [t|t|p|t pto|]; cbn [idle_step]; auto.
  - f_equal. unfold idle_received. destruct (d_state d); try reflexivity; destruct (_ <=? _); reflexivity.
  - f_equal. unfold idle_sent. destruct (d_state d); reflexivity.
  - unfold idle_peer. destruct (0 <? p); reflexivity.
  - unfold send_keep_alive. destruct (_ && _); reflexivity.
Qed.
Lemma keep_state : forall t pto d, d_state (fst (send_keep_alive t pto d)) = d_state d.
Proof. intros. unfold send_keep_alive. destruct (_ && _); reflexivity. Qed.
Definition last_of (s : istate) : option N := match s with IInit => None | IReceived t | IElicited t => Some t end.
Definition elicited (s : istate) : bool := match s with IElicited _ => true | _ => false end.
Lemma run_last : forall ops d lo, (match last_of (d_state d) with Some t => t <= lo | None => True end) -> in_order lo ops ->
  (match last_of (d_state (idle_run d ops)) with
   | None => last_of (d_state d) = None /\ restarts (elicited (d_state d)) ops = []
   | Some t => Forall (fun r => r <= t) (restarts (elicited (d_state d)) ops) /\ (In t (restarts (elicited (d_state d)) ops) \/ (last_of (d_state d) = Some t /\ restarts (elicited (d_state d)) ops = [])) /\ (match last_of (d_state d) with Some t0 => t0 <= t | None => True end)
   end).
Proof.
  induction ops as [|o ops IH]; intros d lo A O.
  - cbn. destruct (last_of (d_state d)); auto. splits; auto. lia.
  - cbn [idle_run fold_left]. fold (idle_run (idle_step d o) ops). cbn [in_order] in O.
    destruct o as [t|t|p|t pto|]; cbn [time_of] in O; cbn [idle_step restarts].
    + destruct O as [O1 O2]. assert (E : d_state (idle_received t d) = IReceived t).
      { unfold idle_received. destruct (d_state d) eqn:E; cbn in A; [reflexivity| |]; (destruct (N.leb_spec t0 t); [reflexivity|lia]). }
      specialize (IH (idle_received t d) t). rewrite E in IH. cbn [last_of elicited] in IH. specialize (IH ltac:(lia) O2). destruct (last_of (d_state (idle_run (idle_received t d) ops))) as [u|]; [|destruct IH; discriminate].
      destruct IH as (I1 & I2 & I3). splits.
      * constructor; [lia|exact I1].
      * left. destruct I2 as [I2|[I2 _]]; [now right|left; congruence].
      * destruct (last_of (d_state d)); [lia|auto].
    + destruct O as [O1 O2]. unfold idle_sent. destruct (d_state d) eqn:E; cbn [elicited] in *.
      * specialize (IH (mkIdle (d_timeout d) (IElicited t) (d_keep d)) t). cbn [d_state last_of elicited] in IH. specialize (IH ltac:(lia) O2). destruct (last_of (d_state (idle_run _ ops))) as [u|]; [|destruct IH; discriminate].
        destruct IH as (I1 & I2 & I3). splits; [constructor; [lia|exact I1]| |auto]. left. destruct I2 as [I2|[I2 _]]; [now right|left; congruence].
      * specialize (IH (mkIdle (d_timeout d) (IElicited t) (d_keep d)) t). cbn [d_state last_of elicited] in IH, A. specialize (IH ltac:(lia) O2). destruct (last_of (d_state (idle_run _ ops))) as [u|]; [|destruct IH; discriminate].
        destruct IH as (I1 & I2 & I3). splits; [constructor; [lia|exact I1]| |cbn; lia]. left. destruct I2 as [I2|[I2 _]]; [now right|left; congruence].
      * specialize (IH d t). rewrite E in IH. cbn [last_of elicited] in *. specialize (IH ltac:(lia) O2). destruct (last_of (d_state (idle_run d ops))) as [u|]; [|destruct IH; discriminate]. exact IH.
    + specialize (IH (idle_peer p d) lo). assert (E : d_state (idle_peer p d) = d_state d) by (unfold idle_peer; destruct (0 <? p); reflexivity). rewrite E in IH. exact (IH A O).
    + specialize (IH (fst (send_keep_alive t pto d)) lo). rewrite keep_state in IH. exact (IH A O).
    + specialize (IH (keep_alive_done d) lo). exact (IH A O).
Qed.

(** C33: with events in order of time, the connection is idle exactly when the timer was started, and each of its restarts is at
    least the larger of the effective timeout and three probe timeouts ago. *)
Theorem idle_exactly : forall timeout ops now pto, in_order 0 ops -> 0 < pto ->
  let d := idle_run (idle_new timeout) ops in
  idle_expired now pto d = true <->
  restarts false ops <> [] /\ forall t, In t (restarts false ops) -> t + N.max (effective timeout ops) (3 * pto) <= now.
Proof.
  intros timeout ops now pto O P d. pose proof (run_last ops (idle_new timeout) 0 ltac:(cbn; auto) O) as L. pose proof (timeout_run ops (idle_new timeout)) as T. fold d in L, T. cbn [d_timeout idle_new] in T. cbn [d_state idle_new last_of elicited] in L.
  unfold idle_expired, idle_expiry, idle_start. rewrite T. destruct (d_state d) as [|u|u]; cbn [last_of] in L.
  - destruct L as [_ ->]. split; [intros H; apply N.leb_le in H; lia|intros [H _]; congruence].
  - destruct L as (L1 & L2 & _). destruct L2 as [L2|[L2 _]]; [|discriminate]. rewrite N.leb_le. rewrite Forall_forall in L1. split.
    + intros H. split; [intros E; rewrite E in L2; destruct L2|]. intros t I. specialize (L1 t I). lia.
    + intros [_ H]. specialize (H u L2). lia.
  - destruct L as (L1 & L2 & _). destruct L2 as [L2|[L2 _]]; [|discriminate]. rewrite N.leb_le. rewrite Forall_forall in L1. split.
    + intros H. split; [intros E; rewrite E in L2; destruct L2|]. intros t I. specialize (L1 t I). lia.
    + intros [_ H]. specialize (H u L2). lia.
Qed.
Print Assumptions idle_exactly.
Example idle_story : let ops := [IRecv 100; IPeer 30; ISent 110; ISent 125] in in_order 0 ops /\ restarts false ops = [100; 110] /\ effective 50 ops = 30 /\
  idle_expired 139 5 (idle_run (idle_new 50) ops) = false /\ idle_expired 140 5 (idle_run (idle_new 50) ops) = true.
Proof. vm_compute. intuition discriminate. Qed.
Lemma recv_last : forall t d, last_of (d_state (idle_received t d)) = Some (match last_of (d_state d) with None => t | Some t0 => N.max t0 t end).
Proof. intros t d. unfold idle_received. destruct (d_state d) as [|u|u] eqn:E; cbn; [reflexivity| |]; (destruct (N.leb_spec u t); cbn; rewrite ?E; cbn; f_equal; lia). Qed.
Lemma sent_last : forall t d, last_of (d_state (idle_sent t d)) = Some (match d_state d with IElicited t0 => t0 | _ => t end).
Proof. intros t d. unfold idle_sent. destruct (d_state d) as [|u|u] eqn:E; cbn; rewrite ?E; reflexivity. Qed.
(** C33: packets received are never forgotten, even if they are processed late: only sending in order is needed. *)
Fixpoint sends_after (latest : N) (ops : list iop) : Prop :=
  match ops with [] => True | ISent t :: ops' => latest <= t /\ sends_after (N.max latest t) ops' | IRecv t :: ops' => sends_after (N.max latest t) ops' | _ :: ops' => sends_after latest ops' end.
Theorem received_keeps_alive : forall timeout ops now pto r, sends_after 0 ops -> In (IRecv r) ops ->
  idle_expired now pto (idle_run (idle_new timeout) ops) = true -> r + N.max (effective timeout ops) (3 * pto) <= now.
Proof.
  intros timeout ops now pto r S I H. assert (G : forall ops d lo, (match last_of (d_state d) with Some t => t <= lo | None => True end) -> sends_after lo ops -> In (IRecv r) ops \/ (exists t, last_of (d_state d) = Some t /\ r <= t) -> exists t, last_of (d_state (idle_run d ops)) = Some t /\ r <= t).
  { clear. induction ops as [|o ops IH]; intros d lo A S I.
    - destruct I as [[]|I]. exact I.
    - cbn [idle_run fold_left]. fold (idle_run (idle_step d o) ops). destruct o as [t|t|p|t pto|]; cbn [sends_after] in S; cbn [idle_step].
      + apply (IH _ (N.max lo t)); auto.
        * rewrite recv_last. destruct (last_of (d_state d)); lia.
        * destruct I as [[I|I]|(t0 & I & I')]; [injection I as ->; right|now left|right]; rewrite recv_last; eexists; (split; [reflexivity|]); [destruct (last_of (d_state d)); lia|rewrite I; lia].
      + destruct S as [S1 S2]. apply (IH _ (N.max lo t)); auto.
        * rewrite sent_last. destruct (d_state d); cbn in A; lia.
        * destruct I as [[I|I]|(t0 & I & I')]; [discriminate|now left|right]. rewrite sent_last. eexists. split; [reflexivity|]. destruct (d_state d); cbn in *; try discriminate; injection I as ->; lia.
      + assert (E : d_state (idle_peer p d) = d_state d) by (unfold idle_peer; destruct (0 <? p); reflexivity). apply (IH _ lo); rewrite ?E; auto. destruct I as [[I|I]|I]; [discriminate|auto|auto].
      + apply (IH _ lo); rewrite ?keep_state; auto. destruct I as [[I|I]|I]; [discriminate|auto|auto].
      + apply (IH _ lo); auto. destruct I as [[I|I]|I]; [discriminate|auto|auto]. }
  destruct (G ops (idle_new timeout) 0) as (t & E & L); cbn; auto. unfold idle_expired, idle_expiry, idle_start in H. apply N.leb_le in H. rewrite (timeout_run ops (idle_new timeout)) in H. cbn [idle_new d_timeout] in H.
  destruct (d_state (idle_run (idle_new timeout) ops)); cbn in E; try discriminate; injection E as ->; lia.
Qed.
Print Assumptions received_keeps_alive.
(** C33: but a packet processed late, from a time before the last one sent, does not let the next one sent restart the timer:
    the connection ends early. *)
Theorem late_packet_refuted : exists ops now pto, sends_after 0 ops /\ 0 < pto /\ idle_expired now pto (idle_run (idle_new 50) ops) = true /\
  exists t, In t (restarts false ops) /\ now < t + N.max 50 (3 * pto).
Proof. exists [ISent 10; IRecv 5; ISent 20], 60, 1. splits; [vm_compute; intuition discriminate|lia|reflexivity|]. exists 20. split; [vm_compute; auto|vm_compute; reflexivity]. Qed.
Print Assumptions late_packet_refuted.
(** C33: a keep-alive is due no later than the idle timeout, and before it with time to spare for two probes or half the timeout. *)
Theorem keep_alive_in_time : forall now pto d, keep_alive_at now pto d <= idle_expiry now pto d /\
  (forall k, next_keep_alive now pto d = Some k -> now < k /\ k + N.min (2 * pto) (d_timeout d / 2) <= idle_expiry now pto d).
Proof.
  intros now pto d. pose proof (N.div_le_upper_bound (d_timeout d) 2 (d_timeout d) ltac:(lia) ltac:(lia)). pose proof (N.mul_div_le (d_timeout d) 2 ltac:(lia)). unfold next_keep_alive, keep_alive_at, idle_expiry. set (h := d_timeout d / 2) in *. clearbody h. split; [lia|].
  intros k K. destruct (d_keep d); [discriminate|]. cbv zeta in K. destruct (N.leb_spec (idle_start now d + N.max h pto) now); [discriminate|]. apply some_inj in K. subst k. lia.
Qed.
Print Assumptions keep_alive_in_time.
(** C33: one keep-alive at a time, and only when due. *)
Theorem one_keep_alive : forall now pto d d', send_keep_alive now pto d = (d', true) -> keep_alive_at now pto d <= now /\ d_keep d = false /\
  (forall now' pto' ops, (forall o, In o ops -> o <> IKeepDone) -> snd (send_keep_alive now' pto' (idle_run d' ops)) = false) /\ idle_expiry now pto d' = idle_expiry now pto d.
Proof.
  intros now pto d d' H. unfold send_keep_alive in H. destruct (d_keep d) eqn:K; cbn [negb andb] in H; [discriminate|]. destruct (N.leb_spec (keep_alive_at now pto d) now); [|discriminate].
  apply pair_equal_spec in H. destruct H as [<- _]. splits; auto. intros now' pto' ops O.
  assert (G : forall ops d, d_keep d = true -> (forall o, In o ops -> o <> IKeepDone) -> d_keep (idle_run d ops) = true).
  { clear. induction ops as [|o ops IH]; intros d K O; [exact K|]. apply IH; [|intros x X; apply O; now right]. destruct o as [t|t|p|t pto|]; cbn [idle_step].
    - unfold idle_received. destruct (d_state d); auto; destruct (_ <=? _); auto.
    - unfold idle_sent. destruct (d_state d); auto.
    - unfold idle_peer. destruct (_ <? _); auto.
    - unfold send_keep_alive. rewrite K. exact K.
    - elim (O IKeepDone); [now left|reflexivity]. }
  unfold send_keep_alive at 1. rewrite G; auto.
Qed.
Print Assumptions one_keep_alive.
Example keep_alive_story : let d := idle_run (idle_new 100) [IRecv 10] in next_keep_alive 20 5 d = Some 60 /\ snd (send_keep_alive 60 5 d) = true /\ idle_expiry 60 5 d = 110.
Proof. vm_compute. auto. Qed.
