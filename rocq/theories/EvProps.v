(** C99: the events an application polls. *)
From Coq Require Import NArith List Bool Lia.
From Verif Require Import Lib EvModel EvSpec EvProofs.
Import ListNotations.
Open Scope N_scope.

Lemma empty_due e : pend e [] <-> due e [].
Proof.
  split; [intros (e' & [] & _)|]. intros (t1 & o & x & t2 & e' & E & _). destruct t1; discriminate.
Qed.
Lemma empty_U : U []. Proof. constructor. Qed.

(** What waits to be polled is exactly what is due: nothing is lost, nothing is stale, nothing comes back. *)
Theorem events_due ops t q e : v_run [] ops = (t, q) -> each e = false -> ((exists e', In e' q /\ same e e') <-> due e t).
Proof. intros R E. apply (run_due ops [] [] t q empty_U (fun e _ => empty_due e) R); exact E. Qed.
Print Assumptions events_due.

(** What a poll returns is due, and was said in just these words. *)
Theorem event_told ops t q e : v_run [] ops = (t, q) -> fst (v_step q OPoll) = Some e -> In e (said_events ops) /\ (each e = false -> due e t).
Proof.
  intros R P. destruct q as [|h q]; [discriminate|]. inversion P; subst h. split.
  - destruct (run_said ops [] t _ R e (or_intror (or_introl eq_refl))) as [[]|H]; exact H.
  - intro E. apply (events_due ops t (e :: q) e R E). exists e. split; [left; reflexivity | apply same_refl].
Qed.
Print Assumptions event_told.

(** While something is due a poll returns something. *)
Theorem event_prompt ops t q e : v_run [] ops = (t, q) -> each e = false -> due e t -> fst (v_step q OPoll) <> None.
Proof. intros R E D. apply (events_due ops t q e R E) in D. destruct D as (e' & I & _). destruct q; [destruct I | discriminate]. Qed.
Print Assumptions event_prompt.

(** No two waiting events say the same. *)
Theorem events_once ops t q l1 a l2 b l3 : v_run [] ops = (t, q) -> q = l1 ++ a :: l2 ++ b :: l3 -> each a = false -> ~ same a b.
Proof.
  intros R E N. destruct (run_due ops [] [] t q empty_U (fun e _ => empty_due e) R) as [UQ _]. rewrite E in UQ. clear R E q.
  induction l1 as [|x l1 IH]; cbn in UQ; inversion UQ; subst; [|apply IH; assumption]. rewrite Forall_forall in H1. apply H1; auto. apply in_or_app. right. left. reflexivity.
Qed.
Print Assumptions events_once.

(** First come, first told: an event that waits now and is not made stale is told before any that does not wait yet. *)
Theorem event_order ops1 t1 q1 ops2 t2 q2 a b : v_run [] ops1 = (t1, q1) -> In a q1 -> ~ In b q1 -> v_run q1 ops2 = (t2, q2) -> In b (told_events t2) ->
  In a (told_events t2) \/ exists o, In o ops2 /\ stale o a.
Proof.
  intros _ A B R T. destruct (in_dec event_eq_dec a (told_events t2)) as [I|I]; [left; exact I|]. right.
  destruct (existsb (fun o => staleb o a) ops2) eqn:E.
  - apply existsb_exists in E. destruct E as (o & H & S). exists o. split; auto. apply staleb_spec. exact S.
  - exfalso. assert (AB : a <> b) by (intros ->; contradiction). assert (AH : ahead a b q1) by (apply in_split in A; destruct A as (l1 & l2 & E1); exists l1, l2; split; auto; intro X; apply B; rewrite E1; apply in_or_app; auto).
    assert (TO : forall o x, In (o, x) t2 -> In o ops2).
    { clear -R. revert q1 t2 q2 R. induction ops2 as [|o ops IH]; intros q1 t2 q2 R; cbn [v_run] in R; [inversion R; intros o x []|].
      destruct (v_step q1 o) as [x q]. destruct (v_run q ops) as [t q'] eqn:R2. inversion R; subst. intros o' x' [H|H]; [inversion H; left; auto | right; eapply IH; eauto]. }
    destruct (run_order a b AB ops2 q1 t2 q2 AH R) as [NT _]; [|contradiction]. intros o x H. split.
    + intros ->. apply I. unfold told_events. apply in_flat_map. exists (o, Some a). split; [exact H | left; reflexivity].
    + intro S. apply staleb_spec in S. assert (X : existsb (fun o => staleb o a) ops2 = true) by (apply existsb_exists; exists o; split; [eapply TO; exact H | exact S]). congruence.
Qed.
Print Assumptions event_order.

(** Datagrams and outcomes: until the connection closes each is told once, in order, alike or not. *)
Theorem datagrams_told ops t q : v_run [] ops = (t, q) -> (forall o, In o ops -> ~ wipes o) ->
  filter each (told_events t) ++ filter each q = filter each (said_events ops).
Proof. intros R W. exact (run_each ops [] t q W R). Qed.
Print Assumptions datagrams_told.

(** When the connection closes, or early data is refused, that is the next thing an application hears. *)
Theorem closing_next ops t q o e : v_run [] ops = (t, q) -> wipes o -> news o = Some e -> snd (v_step q o) = [e].
Proof. intros _ W N. destruct o; cbn in W; try contradiction; [destruct s; try contradiction|]; inversion N; reflexivity. Qed.
Print Assumptions closing_next.

(** Not so for the path in use: after two migrations and one back, the last event names a path that is no longer used. *)
Theorem path_event_refuted : exists ops t q, v_run [] ops = (t, q) /\
  ops = [OPath 1 1; OPath 2 2; OPath 1 1; OPoll; OPoll; OPoll] /\ q = [] /\ told_events t = [EPath 1 1; EPath 2 2].
Proof. eexists. eexists. eexists. split; [|split; [reflexivity|]]; [vm_compute; reflexivity | split; reflexivity]. Qed.
Print Assumptions path_event_refuted.

Definition demo_v : list vop := [OState SConnected; ONewStream 1; OReadable 1; OWritable 0; OReadable 1; OPoll; OReset 1 7; OReset 1 8; ODatagram [1]; ODatagram [1]; OStop 0 3; OScone (Some 5); OScone None; OPoll].
Example demo_v_runs : let (t, q) := v_run [] demo_v in
  q = [EReset 1 7; EDatagram [1]; EDatagram [1]; EStop 0 3; EScone None] /\ told_events t = [EState SConnected; ENew 1] /\ due (EReset 1 8) t /\ ~ due (EReadable 1) t /\
  (forall o, In o demo_v -> ~ wipes o) /\ v_step q (OState (SClosing 2)) = (None, [EState (SClosing 2)]).
Proof.
  assert (R : v_run [] demo_v = (fst (v_run [] demo_v), [EReset 1 7; EDatagram [1]; EDatagram [1]; EStop 0 3; EScone None])) by (vm_compute; reflexivity).
  rewrite R. split; [reflexivity|]. split; [vm_compute; reflexivity|]. split; [|split; [|split; [|reflexivity]]].
  - apply (proj1 (events_due demo_v _ _ (EReset 1 8) R eq_refl)). exists (EReset 1 7). split; [left; reflexivity|]. right. left. eauto.
  - intro D. apply (proj2 (events_due demo_v _ _ (EReadable 1) R eq_refl)) in D. destruct D as (e' & I & [<-|[(i & x & y & E & _)|(i & x & y & E & _)]]); try discriminate E. cbn in I. intuition discriminate.
  - intros o I. cbn in I. repeat (destruct I as [I|I]; [subst o; cbn; auto|]). destruct I.
Qed.
Print Assumptions demo_v_runs.
