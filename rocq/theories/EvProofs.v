(** Proofs about events. *)
From Coq Require Import NArith List Bool Lia.
From Verif Require Import Lib EvModel EvSpec.
Import ListNotations.
Open Scope N_scope.

Lemma same_refl a : same a a. Proof. left. reflexivity. Qed.
Lemma same_sym a b : same a b -> same b a.
Proof. intros [->|[(i & x & y & -> & ->)|(i & x & y & -> & ->)]]; [left; auto | right; left; eauto | right; right; eauto]. Qed.
Lemma same_trans a b c : same a b -> same b c -> same a c.
Proof.
  intros [->|[(i & x & y & -> & ->)|(i & x & y & -> & ->)]] H; auto; destruct H as [<-|[(j & u & v & E & ->)|(j & u & v & E & ->)]]; try discriminate E; try inversion E; subst.
  - right; left; eauto.
  - right; left; eauto.
  - right; right; eauto.
  - right; right; eauto.
Qed.
Lemma same_each a b : same a b -> each a = each b.
Proof. intros [->|[(i & x & y & -> & ->)|(i & x & y & -> & ->)]]; reflexivity. Qed.

Definition staleb (o : vop) (e : event) : bool :=
  match o, e with
  | OReset id _, EReadable i | ORecvComplete id, EReadable i | OStop id _, EWritable i | OSendComplete id, EWritable i | OSendComplete id, EStop i _ => i =? id
  | OScone _, EScone _ => true
  | OState (SClosing _), _ | OState (SClosed _), _ | ORejected, _ => true
  | _, _ => false
  end.
Lemma staleb_spec o e : staleb o e = true <-> stale o e.
Proof.
  split.
  - intro H. destruct o; cbn in H; try discriminate H; try (destruct e; try discriminate H; try (apply N.eqb_eq in H; subst); constructor); try constructor.
    destruct s; try discriminate H; constructor.
  - intro H. destruct H; cbn; auto using N.eqb_refl.
Qed.
Lemma stale_same o a b : same a b -> staleb o a = staleb o b.
Proof. intros [->|[(i & x & y & -> & ->)|(i & x & y & -> & ->)]]; [reflexivity| |]; destruct o; try reflexivity; destruct s; reflexivity. Qed.

Definition keep (o : vop) (q : list event) : list event := filter (fun e => negb (staleb o e)) q.
Definition add (n : event) (q : list event) : list event := if each n then q ++ [n] else insert n q.
Lemma filter_true {A} (l : list A) : filter (fun _ => true) l = l.
Proof. induction l; cbn; congruence. Qed.
Lemma filter_false {A} (l : list A) : filter (fun _ => false) l = [].
Proof. induction l; cbn; congruence. Qed.
Lemma step_shape q o : o <> OPoll -> v_step q o = (None, match news o with Some n => add n (keep o q) | None => keep o q end).
Proof.
  intro N. destruct o; try congruence; unfold keep; cbn [v_step news staleb]; unfold add, remove; cbn [each]; try (rewrite filter_true; reflexivity); try reflexivity.
  - destruct s; cbn [negb]; rewrite ?filter_true, ?filter_false; reflexivity.
  - rewrite filter_false. reflexivity.
  - destruct tracked; cbn; rewrite filter_true; reflexivity.
Qed.

Lemma already_spec e q : already e q = true <-> exists e', In e' q /\ same e e'.
Proof.
  assert (G : forall e, (forall i x, e <> EReset i x) -> (forall i x, e <> EStop i x) -> ((if in_dec event_eq_dec e q then true else false) = true <-> exists e', In e' q /\ same e e')).
  { intros e0 R S. destruct (in_dec event_eq_dec e0 q) as [I|I]; split; intro H; auto; try discriminate.
    - exists e0. split; auto. apply same_refl.
    - exfalso. destruct H as (e' & J & [<-|[(i & x & y & E & _)|(i & x & y & E & _)]]); [auto | eapply R; exact E | eapply S; exact E]. }
  destruct e; try (apply G; discriminate); cbn [already]; rewrite existsb_exists; split; intros (x & I & H); exists x; split; auto.
  - destruct x; try discriminate H. apply N.eqb_eq in H. subst. right. left. eauto.
  - destruct H as [<-|[(i & u & v & E & ->)|(i & u & v & E & ->)]]; try discriminate E; [apply N.eqb_refl|]. inversion E. apply N.eqb_refl.
  - destruct x; try discriminate H. apply N.eqb_eq in H. subst. right. right. eauto.
  - destruct H as [<-|[(i & u & v & E & ->)|(i & u & v & E & ->)]]; try discriminate E; [apply N.eqb_refl|]. inversion E. apply N.eqb_refl.
Qed.

Definition pend (e : event) (q : list event) : Prop := exists e', In e' q /\ same e e'.
Lemma pend_add e n q : pend e (add n q) <-> pend e q \/ same e n.
Proof.
  assert (S : pend e (q ++ [n]) <-> pend e q \/ same e n).
  { split.
    - intros (e' & I & H). apply in_app_or in I. destruct I as [I|[<-|[]]]; [left; exists e'; auto | auto].
    - intros [(e' & I & H)|H]; [exists e'; split; auto; apply in_or_app; auto | exists n; split; auto; apply in_or_app; right; left; auto]. }
  unfold add, insert. destruct (each n); [exact S|]. destruct (already n q) eqn:A; [|exact S]. apply already_spec in A. destruct A as (e' & I & H).
  split; [auto|]. intros [K|K]; auto. exists e'. split; auto. eapply same_trans; eauto.
Qed.
Lemma pend_keep e o q : pend e (keep o q) <-> pend e q /\ staleb o e = false.
Proof.
  unfold pend, keep. split.
  - intros (e' & I & H). apply filter_In in I. destruct I as [I B]. apply negb_true_iff in B. split; [eauto|]. rewrite (stale_same o _ _ H). exact B.
  - intros [(e' & I & H) B]. exists e'. split; auto. apply filter_In. split; auto. rewrite <- (stale_same o _ _ H), B. reflexivity.
Qed.

(** No two pending events say the same, datagrams apart. *)
Definition U (q : list event) : Prop := ForallOrdPairs (fun a b => each a = false -> ~ same a b) q.
Lemma FOP_filter {A} (R : A -> A -> Prop) f l : ForallOrdPairs R l -> ForallOrdPairs R (filter f l).
Proof.
  induction 1 as [|a l H F IH]; cbn; [constructor|]. destruct (f a); auto. constructor; auto. rewrite Forall_forall in *. intros x I. apply filter_In in I. apply H. tauto.
Qed.
Lemma FOP_snoc {A} (R : A -> A -> Prop) l x : ForallOrdPairs R l -> Forall (fun y => R y x) l -> ForallOrdPairs R (l ++ [x]).
Proof.
  induction 1 as [|a l H F IH]; cbn; intro G; [repeat constructor|]. inversion G; subst. constructor; auto. apply Forall_app. split; auto.
Qed.
Lemma U_add n q : U q -> U (add n q).
Proof.
  intro H. unfold add, insert. destruct (each n) eqn:E.
  - apply FOP_snoc; auto. apply Forall_forall. intros y _ EY S. apply same_each in S. congruence.
  - destruct (already n q) eqn:A; auto. apply FOP_snoc; auto. apply Forall_forall. intros y I _ S. assert (already n q = true) by (apply already_spec; exists y; split; auto; apply same_sym; auto). congruence.
Qed.
Lemma U_step q o : U q -> U (snd (v_step q o)).
Proof.
  intro H. assert (D : o = OPoll \/ o <> OPoll) by (destruct o; try (left; reflexivity); right; discriminate). destruct D as [->|D].
  - cbn. destruct q; [exact H|]. inversion H; auto.
  - rewrite step_shape by exact D. cbn [snd]. assert (K : U (keep o q)) by (apply FOP_filter; exact H). destruct (news o); [apply U_add|]; exact K.
Qed.

Lemma step_pend q o e : each e = false -> U q -> let (x, q') := v_step q o in
  pend e q' <-> (exists n, news o = Some n /\ same e n) \/ (pend e q /\ ~ stale o e /\ forall n, x = Some n -> ~ same e n).
Proof.
  intros E H. assert (D : o = OPoll \/ o <> OPoll) by (destruct o; try (left; reflexivity); right; discriminate). destruct D as [->|D].
  - cbn. assert (NS : ~ stale OPoll e) by (intro X; inversion X). destruct q as [|h q].
    + split; [intros (e' & [] & _)|]. intros [(n & X & _)|((e' & [] & _) & _)]. discriminate.
    + inversion H; subst. rewrite Forall_forall in H2. split.
      * intros (e' & I & S). right. split; [exists e'; split; [right; exact I | exact S]|]. split; [exact NS|]. intros n X S2. inversion X; subst n.
        apply (H2 e' I); [rewrite <- (same_each _ _ S2); exact E|]. apply (same_trans _ e); auto using same_sym.
      * intros [(n & X & _)|((e' & I & S) & _ & T)]; [discriminate|]. destruct I as [<-|I]; [exfalso; eapply T; [reflexivity | exact S] | exists e'; auto].
  - rewrite step_shape by exact D. assert (ST : staleb o e = false <-> ~ stale o e) by (rewrite <- staleb_spec; destruct (staleb o e); split; congruence).
    destruct (news o) as [n|]; [rewrite pend_add|]; rewrite pend_keep, ST.
    + split; [intros [[A B]|A]; [right; splits; auto; discriminate | left; eauto] | intros [(n' & X & S)|(A & B & _)]; [inversion X; subst; auto | auto]].
    + split; [intros [A B]; right; splits; auto; discriminate | intros [(n' & X & S)|(A & B & _)]; [discriminate | auto]].
Qed.

Lemma due_snoc e t o x : due e (t ++ [(o, x)]) <-> (exists n, news o = Some n /\ same e n) \/ (due e t /\ ~ stale o e /\ forall n, x = Some n -> ~ same e n).
Proof.
  split.
  - intros (t1 & o1 & x1 & t2 & n & E & N & S & F). destruct t2 as [|y t2] using rev_ind.
    + apply app_inj_tail in E. destruct E as [_ E]. inversion E; subst. left. eauto.
    + clear IHt2. rewrite app_comm_cons, app_assoc in E. apply app_inj_tail in E. destruct E as [E1 E2]. subst y. right. split; [|apply F; apply in_or_app; right; left; reflexivity].
      exists t1, o1, x1, t2, n. splits; auto. intros o' x' I. apply F. apply in_or_app. auto.
  - intros [(n & N & S)|((t1 & o1 & x1 & t2 & n & E & N & S & F) & A & B)].
    + exists t, o, x, [], n. split; [reflexivity|]. split; [exact N|]. split; [exact S|]. intros o' x' [].
    + exists t1, o1, x1, (t2 ++ [(o, x)]), n. splits; auto.
      * rewrite E, <- app_assoc. reflexivity.
      * intros o' x' I. apply in_app_or in I. destruct I as [I|[I|[]]]; [apply F; exact I | inversion I; subst; auto].
Qed.
Lemma run_due : forall ops t0 q t q', U q -> (forall e, each e = false -> (pend e q <-> due e t0)) -> v_run q ops = (t, q') ->
  U q' /\ forall e, each e = false -> (pend e q' <-> due e (t0 ++ t)).
Proof.
  induction ops as [|o ops IH]; intros t0 q t q' H I R; cbn [v_run] in R.
  { inversion R; subst. rewrite app_nil_r. auto. }
  pose proof (U_step q o H) as H1. pose proof (fun e E => step_pend q o e E H) as P. destruct (v_step q o) as [x q1]. cbn [snd] in H1.
  destruct (v_run q1 ops) as [t2 q2] eqn:R2. inversion R; subst. replace (t0 ++ (o, x) :: t2) with ((t0 ++ [(o, x)]) ++ t2) by (rewrite <- app_assoc; reflexivity).
  apply (IH (t0 ++ [(o, x)]) q1 t2 q' H1); auto. intros e E. rewrite (P e E), due_snoc, (I e E). reflexivity.
Qed.

(** Order. *)
Definition ahead (a b : event) (q : list event) : Prop := exists l1 l2, q = l1 ++ a :: l2 /\ ~ In b l1.
Lemma ahead_app a b q n : ahead a b q -> ahead a b (q ++ [n]).
Proof. intros (l1 & l2 & -> & N). exists l1, (l2 ++ [n]). rewrite <- app_assoc. auto. Qed.
Lemma ahead_add a b q n : ahead a b q -> ahead a b (add n q).
Proof. intro H. unfold add, insert. destruct (each n); [|destruct (already n q); auto]; apply ahead_app; auto. Qed.
Lemma ahead_keep a b q o : staleb o a = false -> ahead a b q -> ahead a b (keep o q).
Proof.
  intros E (l1 & l2 & -> & N). unfold keep. rewrite filter_app. cbn [filter]. rewrite E. cbn [negb]. eexists. eexists. split; [reflexivity|]. intro I. apply filter_In in I. tauto.
Qed.
Lemma run_order a b : a <> b -> forall ops q t q', ahead a b q -> v_run q ops = (t, q') ->
  (forall o x, In (o, x) t -> x <> Some a /\ ~ stale o a) -> ~ In b (told_events t) /\ ahead a b q'.
Proof.
  intros AB. induction ops as [|o ops IH]; intros q t q' A R N; cbn [v_run] in R.
  { inversion R; subst. auto. }
  assert (S : let (x, q1) := v_step q o in x <> Some a -> ~ stale o a -> x <> Some b /\ ahead a b q1).
  { assert (D : o = OPoll \/ o <> OPoll) by (destruct o; try (left; reflexivity); right; discriminate). destruct D as [->|D].
    - destruct A as (l1 & l2 & -> & NB). destruct l1 as [|h l1]; cbn; [congruence|]. intros _ _. split; [intro X; inversion X; subst; apply NB; left; auto|]. exists l1, l2. split; auto. intro I. apply NB. right. auto.
    - rewrite step_shape by exact D. intros _ NS. split; [discriminate|]. assert (E : staleb o a = false) by (destruct (staleb o a) eqn:E; auto; apply staleb_spec in E; contradiction).
      destruct (news o); [apply ahead_add|]; apply ahead_keep; auto. }
  destruct (v_step q o) as [x q1]. destruct (v_run q1 ops) as [t2 q2] eqn:R2. inversion R; subst. destruct (N o x (or_introl eq_refl)) as [N1 N2]. destruct (S N1 N2) as [B A1].
  destruct (IH q1 t2 q' A1 R2 (fun o' x' I => N o' x' (or_intror I))) as [C D]. split; auto. unfold told_events. cbn [flat_map snd]. intro I. apply in_app_or in I. destruct I as [I|I]; [|apply C; exact I].
  destruct x as [y|]; [|destruct I]. destruct I as [<-|[]]. congruence.
Qed.

(** Datagrams and outcomes. *)
Lemma filter_each_keep o q : ~ wipes o -> filter each (keep o q) = filter each q.
Proof.
  intro W. unfold keep. induction q as [|e q IH]; cbn; auto. destruct (staleb o e) eqn:S; cbn; rewrite IH; auto.
  assert (each e = false) as ->; auto. apply staleb_spec in S. destruct S; try reflexivity; exfalso; apply W; exact I.
Qed.
Lemma filter_each_add n q : filter each (add n q) = filter each q ++ (if each n then [n] else []).
Proof.
  unfold add, insert. destruct (each n) eqn:E; [|destruct (already n q)]; rewrite ?filter_app; cbn; rewrite ?E, ?app_nil_r; reflexivity.
Qed.
Lemma run_each : forall ops q t q', (forall o, In o ops -> ~ wipes o) -> v_run q ops = (t, q') ->
  filter each (told_events t) ++ filter each q' = filter each q ++ filter each (said_events ops).
Proof.
  induction ops as [|o ops IH]; intros q t q' W R; cbn [v_run] in R.
  { inversion R; subst. cbn. rewrite app_nil_r. reflexivity. }
  assert (S : let (x, q1) := v_step q o in filter each (match x with Some e => [e] | None => [] end) ++ filter each q1 = filter each q ++ filter each (match news o with Some n => [n] | None => [] end)).
  { assert (D : o = OPoll \/ o <> OPoll) by (destruct o; try (left; reflexivity); right; discriminate). destruct D as [->|D].
    - destruct q as [|h q]; cbn; auto. rewrite app_nil_r. destruct (each h); reflexivity.
    - rewrite step_shape by exact D. assert (W1 := W o (or_introl eq_refl)). cbn [filter app]. destruct (news o) as [n|].
      + rewrite filter_each_add, filter_each_keep by exact W1. cbn [filter]. reflexivity.
      + rewrite filter_each_keep by exact W1. cbn. rewrite app_nil_r. reflexivity. }
  destruct (v_step q o) as [x q1]. destruct (v_run q1 ops) as [t2 q2] eqn:R2. inversion R; subst. unfold told_events, said_events. cbn [flat_map snd]. rewrite !filter_app.
  pose proof (IH q1 t2 q' (fun o' I => W o' (or_intror I)) R2) as E. unfold told_events, said_events in E. rewrite <- app_assoc, E, !app_assoc, S. reflexivity.
Qed.

(** Everything told was said. *)
Lemma run_said : forall ops q t q', v_run q ops = (t, q') -> (forall e, In e (told_events t) \/ In e q' -> In e q \/ In e (said_events ops)).
Proof.
  induction ops as [|o ops IH]; intros q t q' R; cbn [v_run] in R.
  { inversion R; subst. intros e [[]|H]. auto. }
  assert (S : let (x, q1) := v_step q o in forall e, x = Some e \/ In e q1 -> In e q \/ news o = Some e).
  { assert (D : o = OPoll \/ o <> OPoll) by (destruct o; try (left; reflexivity); right; discriminate). destruct D as [->|D].
    - destruct q as [|h q]; cbn; [intros e [X|[]]; discriminate|]. intros e [X|X]; [inversion X; subst; auto | auto].
    - rewrite step_shape by exact D. intros e [X|X]; [discriminate|]. assert (K : In e (keep o q) -> In e q) by (intro H; apply filter_In in H; tauto).
      destruct (news o) as [n|]; [|auto]. unfold add, insert in X. destruct (each n); [|destruct (already n _)]; auto; apply in_app_or in X; destruct X as [X|[<-|[]]]; auto. }
  destruct (v_step q o) as [x q1]. destruct (v_run q1 ops) as [t2 q2] eqn:R2. inversion R; subst. intros e H. unfold said_events. cbn [flat_map].
  assert (H' : (x = Some e \/ In e q1) \/ In e (said_events ops)).
  { destruct H as [H|H].
    - unfold told_events in H. cbn [flat_map snd] in H. apply in_app_or in H. destruct H as [H|H]; [destruct x; [destruct H as [<-|[]]; auto | destruct H]|]. destruct (IH _ _ _ R2 e (or_introl H)); auto.
    - destruct (IH _ _ _ R2 e (or_intror H)); auto. }
  destruct H' as [H'|H']; [|right; apply in_or_app; right; exact H']. destruct (S e H') as [K|K]; auto. right. apply in_or_app. left. rewrite K. left. reflexivity.
Qed.
