(** Proofs about the stream tables: critical streams, and what GOAWAY closes. *)
From Coq Require Import NArith List Bool Lia.
From Verif Require Import Base Lib HfModel HcModel HcSpec HcProofs.
Import ListNotations.
Open Scope N_scope.

Local Arguments t_drop_subs : simpl never.
Local Arguments t_rm : simpl never.
Local Arguments t_put : simpl never.
Definition keys (t : table) : list N := map fst t.
Lemma skind_eqb_eq a b : skind_eqb a b = true <-> a = b.
Proof. destruct a, b; cbn; split; try discriminate; try congruence; intro H; [apply N.eqb_eq in H; congruence | inversion H; apply N.eqb_refl]. Qed.

Lemma in_rm i k id t : In (i, k) (t_rm id t) <-> In (i, k) t /\ i <> id.
Proof. unfold t_rm. rewrite filter_In. cbn [fst]. rewrite negb_true_iff, N.eqb_neq. tauto. Qed.
Lemma in_put i k id k' t : In (i, k) (t_put id k' t) <-> (i = id /\ k = k') \/ (In (i, k) t /\ i <> id).
Proof. unfold t_put. cbn [In]. rewrite in_rm. split; intros [H|H]; auto; [inversion H; auto | destruct H; subst; auto]. Qed.
Lemma in_subs i k s t : In (i, k) (t_drop_subs s t) <-> In (i, k) t /\ k <> SWt s.
Proof.
  unfold t_drop_subs. rewrite filter_In. cbn [snd]. rewrite negb_true_iff. split; intros [A B]; split; auto.
  - intros ->. cbn in B. rewrite N.eqb_refl in B. discriminate.
  - destruct (skind_eqb k (SWt s)) eqn:E; auto. apply skind_eqb_eq in E. contradiction.
Qed.
Lemma nodup_filter {A} (f : N * A -> bool) (t : list (N * A)) : NoDup (map fst t) -> NoDup (map fst (filter f t)).
Proof.
  induction t as [|[i k] t IH]; cbn; intro H; auto. inversion H; subst. destruct (f (i, k)); cbn; auto. constructor; auto.
  intro X. apply H2. apply in_map_iff in X. destruct X as ([i' k'] & E & X). apply filter_In in X. apply in_map_iff. exists (i', k'). tauto.
Qed.
Lemma nodup_put id k t : NoDup (keys t) -> NoDup (keys (t_put id k t)).
Proof.
  intro H. unfold t_put, keys. cbn. constructor; [|apply nodup_filter; auto]. intro X. apply in_map_iff in X. destruct X as ([i k'] & E & X).
  cbn in E. subst i. apply in_rm in X. tauto.
Qed.
Lemma get_in id k t : t_get id t = Some k -> In (id, k) t.
Proof.
  unfold t_get. destruct (find _ t) as [[i k']|] eqn:F; [|discriminate]. intro H. inversion H; subst. apply find_some in F. cbn in F.
  destruct F as [A B]. apply N.eqb_eq in B. subst. exact A.
Qed.
Lemma in_get id k t : NoDup (keys t) -> In (id, k) t -> t_get id t = Some k.
Proof.
  induction t as [|[i k'] t IH]; [intros _ []|]. intros ND. inversion ND; subst. intros [H|H].
  - inversion H; subst. unfold t_get. cbn. rewrite N.eqb_refl. reflexivity.
  - unfold t_get. cbn. destruct (i =? id) eqn:E.
    + apply N.eqb_eq in E. subst. exfalso. apply H1. apply in_map_iff. exists (id, k). auto.
    + apply IH; auto.
Qed.
Lemma get_none id k t : t_get id t = None -> ~ In (id, k) t.
Proof.
  unfold t_get. destruct (find _ t) eqn:F; [discriminate|]. intros _ H. pose proof (find_none _ _ F _ H) as X. cbn in X. rewrite N.eqb_refl in X. discriminate.
Qed.

(** *** Removing *)
Definition shrinks (c c' : conn) : Prop :=
  (forall p, In p (c_recv c') -> In p (c_recv c)) /\ (forall p, In p (c_send c') -> In p (c_send c)) /\
  (NoDup (keys (c_recv c)) -> NoDup (keys (c_recv c'))) /\ (NoDup (keys (c_send c)) -> NoDup (keys (c_send c'))) /\ (exists n, c_notes c' = c_notes c ++ n).
Lemma shrinks_refl c : shrinks c c. Proof. unfold shrinks. splits; auto. exists []. rewrite app_nil_r. auto. Qed.
Lemma shrinks_trans a b c : shrinks a b -> shrinks b c -> shrinks a c.
Proof.
  intros (A1 & A2 & A3 & A4 & n & A5) (B1 & B2 & B3 & B4 & m & B5). unfold shrinks. splits; auto. exists (n ++ m). rewrite B5, A5, app_assoc. auto.
Qed.
Ltac shr := unfold shrinks; cbn; splits; auto;
  try (intros [i k] H; repeat (rewrite in_subs in H || rewrite in_rm in H); tauto);
  try (intro; repeat apply nodup_filter; assumption);
  try (eexists; reflexivity); try (exists []; rewrite app_nil_r; reflexivity).
Lemma remove_recv_shrinks id c : shrinks c (fst (remove_recv id c)).
Proof. unfold remove_recv. destruct (t_get id (c_recv c)) as [[]|]; try destruct (t_has id (c_send c)); shr. Qed.
Lemma remove_send_shrinks id c : shrinks c (fst (remove_send id c)).
Proof. unfold remove_send. destruct (t_get id (c_send c)) as [[]|]; try destruct (t_get id (c_recv c)) as [[]|]; shr. Qed.
Lemma tell_shrinks n c : shrinks c (tell n c). Proof. shr. Qed.
Lemma close_send_shrinks id code c : shrinks c (close_send id code c).
Proof.
  unfold close_send. pose proof (remove_send_shrinks id c) as S. destruct (remove_send id c) as [c' [k|]]; cbn [fst] in *; auto.
  eapply shrinks_trans; [exact S | apply tell_shrinks].
Qed.
Lemma close_recv_shrinks id code c : shrinks c (fst (close_recv id code c)).
Proof.
  unfold close_recv. pose proof (remove_recv_shrinks id c) as S. destruct (remove_recv id c) as [c' [[]|]]; cbn [fst critical] in *; auto;
  eapply shrinks_trans; [exact S | apply tell_shrinks | exact S | apply tell_shrinks | exact S | apply tell_shrinks | exact S | apply tell_shrinks].
Qed.
Lemma stop_dropped_shrinks code c id : shrinks c (stop_dropped code c id).
Proof. unfold stop_dropped. destruct (send_critical id c); [apply shrinks_refl | apply close_send_shrinks]. Qed.
Lemma fold_shrinks (f : conn -> N -> conn) : (forall c i, shrinks c (f c i)) -> forall l c, shrinks c (fold_left f l c).
Proof. intros H l. induction l as [|i l IH]; cbn; intro c; [apply shrinks_refl|]. eapply shrinks_trans; [apply H | apply IH]. Qed.
Lemma goaway_shrinks g c : shrinks c (goaway_streams g c).
Proof. unfold goaway_streams. eapply shrinks_trans; apply fold_shrinks; intros; [apply stop_dropped_shrinks | apply close_recv_shrinks]. Qed.

(** What stays: an entry whose id, and whose session, are not the one removed. *)
Definition apart (id : N) (p : N * skind) : Prop := fst p <> id /\ snd p <> SWt id.
Definition keeps (P : N * skind -> Prop) (c c' : conn) : Prop :=
  forall p, P p -> (In p (c_recv c) -> In p (c_recv c')) /\ (In p (c_send c) -> In p (c_send c')).
Ltac kp := intros [i k] [A B]; cbn in *; split; intro H; auto; repeat (rewrite in_subs || rewrite in_rm); tauto.
Lemma remove_recv_keeps id c : keeps (apart id) c (fst (remove_recv id c)).
Proof. unfold remove_recv. destruct (t_get id (c_recv c)) as [[]|]; try destruct (t_has id (c_send c)); kp. Qed.
Lemma remove_send_keeps id c : keeps (apart id) c (fst (remove_send id c)).
Proof. unfold remove_send. destruct (t_get id (c_send c)) as [[]|]; try destruct (t_get id (c_recv c)) as [[]|]; kp. Qed.
Lemma close_send_keeps id code c : keeps (apart id) c (close_send id code c).
Proof. unfold close_send. pose proof (remove_send_keeps id c) as S. destruct (remove_send id c) as [c' [k|]]; exact S. Qed.
Lemma close_recv_keeps id code c : keeps (apart id) c (fst (close_recv id code c)).
Proof. unfold close_recv. pose proof (remove_recv_keeps id c) as S. destruct (remove_recv id c) as [c' [[]|]]; exact S. Qed.
Lemma stop_dropped_keeps code c id : keeps (apart id) c (stop_dropped code c id).
Proof. unfold stop_dropped. destruct (send_critical id c); [intros p _; auto | apply close_send_keeps]. Qed.
Lemma fold_keeps (f : conn -> N -> conn) : (forall c i, keeps (apart i) c (f c i)) ->
  forall l c p, (forall i, In i l -> apart i p) -> (In p (c_recv c) -> In p (c_recv (fold_left f l c))) /\ (In p (c_send c) -> In p (c_send (fold_left f l c))).
Proof.
  intros H l. induction l as [|i l IH]; cbn; intros c p A; [auto|].
  destruct (H c i p (A i (or_introl eq_refl))) as [B C]. destruct (IH (f c i) p (fun j J => A j (or_intror J))) as [D E]. auto.
Qed.

Lemma id_gte_in g t i : In i (map fst (filter (id_gte g) t)) <-> exists k, In (i, k) t /\ g <= i /\ is_uni i = is_uni g.
Proof.
  rewrite in_map_iff. split.
  - intros ([j k] & <- & H). apply filter_In in H. destruct H as [A B]. exists k. unfold id_gte in B. cbn [fst] in *.
    apply andb_true_iff in B. destruct B as [B C]. apply N.leb_le in B. splits; auto. destruct (is_uni j), (is_uni g); auto; discriminate.
  - intros (k & A & B & C). exists (i, k). split; auto. apply filter_In. split; auto. unfold id_gte. cbn [fst]. apply andb_true_iff. split.
    + apply N.leb_le; auto.
    + rewrite C. destruct (is_uni g); reflexivity.
Qed.

Lemma goaway_kept g c p : (fst p < g \/ is_uni (fst p) <> is_uni g) ->
  (forall s, snd p = SWt s -> s < g \/ is_uni s <> is_uni g) ->
  (In p (c_recv c) -> In p (c_recv (goaway_streams g c))) /\ (In p (c_send c) -> In p (c_send (goaway_streams g c))).
Proof.
  intros A B. unfold goaway_streams.
  set (l1 := map fst (filter (id_gte g) (c_send c))). set (c1 := fold_left (stop_dropped REQUEST_REJECTED) l1 c). set (l2 := map fst (filter (id_gte g) (c_recv c1))).
  assert (AP : forall i, g <= i -> is_uni i = is_uni g -> apart i p).
  { intros i X Y. split; [intros Z; rewrite Z in A; intuition lia | intros Z; apply B in Z; intuition lia]. }
  destruct (fold_keeps _ (fun c i => stop_dropped_keeps REQUEST_REJECTED c i) l1 c p) as [K1 K2].
  { intros i I. apply id_gte_in in I. destruct I as (k & _ & X & Y). auto. }
  destruct (fold_keeps _ (fun c i => close_recv_keeps i REQUEST_REJECTED c) l2 c1 p) as [K3 K4].
  { intros i I. apply id_gte_in in I. destruct I as (k & _ & X & Y). auto. }
  split; intro H; [apply K3, K1, H | apply K4, K2, H].
Qed.

(** What goes. *)
Lemma remove_recv_gone id c k : ~ In (id, k) (c_recv (fst (remove_recv id c))).
Proof.
  unfold remove_recv. destruct (t_get id (c_recv c)) as [[]|] eqn:E; try (apply get_none; exact E); try destruct (t_has id (c_send c)); cbn;
  intro H; repeat (rewrite in_subs in H || rewrite in_rm in H); tauto.
Qed.
Lemma remove_send_gone id c k : ~ In (id, k) (c_send (fst (remove_send id c))).
Proof.
  unfold remove_send. destruct (t_get id (c_send c)) as [[]|] eqn:E; try (apply get_none; exact E); try destruct (t_get id (c_recv c)) as [[]|]; cbn;
  intro H; repeat (rewrite in_subs in H || rewrite in_rm in H); tauto.
Qed.
Lemma close_recv_gone id code c k : ~ In (id, k) (c_recv (fst (close_recv id code c))).
Proof. unfold close_recv. pose proof (remove_recv_gone id c k) as S. destruct (remove_recv id c) as [c' [[]|]]; exact S. Qed.
Lemma close_send_gone id code c k : ~ In (id, k) (c_send (close_send id code c)).
Proof. unfold close_send. pose proof (remove_send_gone id c k) as S. destruct (remove_send id c) as [c' [k'|]]; exact S. Qed.
Lemma fold_recv_gone code l : forall c i k, In i l -> ~ In (i, k) (c_recv (fold_left (reset_dropped code) l c)).
Proof.
  induction l as [|j l IH]; [intros c i k []|]; intros c i k [<-|I] H; cbn in H.
  - pose proof (fold_shrinks (reset_dropped code) (fun c i => close_recv_shrinks i code c) l (reset_dropped code c j)) as (S & _). apply S in H.
    eapply close_recv_gone; exact H.
  - eapply IH; eauto.
Qed.
Lemma fold_send_gone code l : forall c i k, In i l -> send_critical i c = false -> ~ In (i, k) (c_send (fold_left (stop_dropped code) l c)).
Proof.
  induction l as [|j l IH]; [intros c i k []|]; intros c i k [<-|I] SC H; cbn in H.
  - pose proof (fold_shrinks (stop_dropped code) (stop_dropped_shrinks code) l (stop_dropped code c j)) as (_ & S & _). apply S in H.
    unfold stop_dropped in H. rewrite SC in H. eapply close_send_gone; exact H.
  - eapply IH; [exact I | | exact H]. destruct (stop_dropped_same code c j) as (_ & _ & _ & L). unfold send_critical in *. rewrite L. exact SC.
Qed.
Lemma local_uni c i : (forall j, In j (c_local c) -> is_uni j = true) -> is_uni i = false -> send_critical i c = false.
Proof.
  intros L U. unfold send_critical. destruct (existsb (N.eqb i) (c_local c)) eqn:E; auto. apply existsb_exists in E. destruct E as (j & A & B).
  apply N.eqb_eq in B. subst. apply L in A. congruence.
Qed.
Lemma goaway_gone g c i k : (forall j, In j (c_local c) -> is_uni j = true) -> is_uni g = false -> is_uni i = false -> g <= i ->
  ~ In (i, k) (c_recv (goaway_streams g c)) /\ ~ In (i, k) (c_send (goaway_streams g c)).
Proof.
  intros L G U LE. unfold goaway_streams.
  set (l1 := map fst (filter (id_gte g) (c_send c))). set (c1 := fold_left (stop_dropped REQUEST_REJECTED) l1 c). set (l2 := map fst (filter (id_gte g) (c_recv c1))).
  assert (S2 : shrinks c1 (fold_left (reset_dropped REQUEST_REJECTED) l2 c1)) by (apply fold_shrinks; intros; apply close_recv_shrinks).
  split; intro H.
  - assert (X : In (i, k) (c_recv c1)) by (apply S2; exact H). eapply fold_recv_gone; [|exact H]. apply id_gte_in. exists k. splits; auto. congruence.
  - assert (X : In (i, k) (c_send c1)) by (apply S2; exact H).
    assert (Y : In (i, k) (c_send c)) by (pose proof (fold_shrinks (stop_dropped REQUEST_REJECTED) (stop_dropped_shrinks REQUEST_REJECTED) l1 c) as (_ & S & _); apply S; exact X).
    eapply fold_send_gone; [|apply local_uni; eassumption | exact X]. apply id_gte_in. exists k. splits; auto. congruence.
Qed.

(** What the application is told. *)
Lemma notes_in c c' n : shrinks c c' -> In n (c_notes c) -> In n (c_notes c').
Proof. intros (_ & _ & _ & _ & m & E) H. rewrite E. apply in_or_app; auto. Qed.
Lemma fold_recv_told code l : forall c i, NoDup (keys (c_recv c)) -> In i l -> In (i, SHttp) (c_recv c) -> In (DRecv, i, code) (c_notes (fold_left (reset_dropped code) l c)).
Proof.
  induction l as [|j l IH]; [intros c i ND []|]; intros c i ND [<-|I] H; cbn.
  - eapply notes_in; [apply fold_shrinks; intros; apply close_recv_shrinks|]. unfold reset_dropped, close_recv, remove_recv. rewrite (in_get _ _ _ ND H). cbn.
    apply in_or_app; right; left; auto.
  - destruct (N.eq_dec i j) as [->|NE].
    + eapply notes_in; [apply fold_shrinks; intros; apply close_recv_shrinks|]. unfold reset_dropped, close_recv, remove_recv. rewrite (in_get _ _ _ ND H). cbn.
      apply in_or_app; right; left; auto.
    + apply IH; auto.
      * apply (close_recv_shrinks j code c); auto.
      * apply (close_recv_keeps j code c (i, SHttp)); auto. split; [exact NE | discriminate].
Qed.
Lemma fold_send_told code l : forall c i, NoDup (keys (c_send c)) -> In i l -> send_critical i c = false -> In (i, SHttp) (c_send c) -> In (DSend, i, code) (c_notes (fold_left (stop_dropped code) l c)).
Proof.
  assert (HIT : forall c i, NoDup (keys (c_send c)) -> send_critical i c = false -> In (i, SHttp) (c_send c) -> In (DSend, i, code) (c_notes (stop_dropped code c i))).
  { intros c i ND SC H. unfold stop_dropped. rewrite SC. unfold close_send, remove_send. rewrite (in_get _ _ _ ND H). cbn. apply in_or_app; right; left; auto. }
  induction l as [|j l IH]; [intros c i ND []|]; intros c i ND [<-|I] SC H; cbn.
  - eapply notes_in; [apply fold_shrinks; apply stop_dropped_shrinks|]. apply HIT; auto.
  - destruct (N.eq_dec i j) as [->|NE].
    + eapply notes_in; [apply fold_shrinks; apply stop_dropped_shrinks|]. apply HIT; auto.
    + apply IH; auto.
      * apply (stop_dropped_shrinks code c j); auto.
      * destruct (stop_dropped_same code c j) as (_ & _ & _ & L). unfold send_critical in *. rewrite L. exact SC.
      * apply (stop_dropped_keeps code c j (i, SHttp)); auto. split; [exact NE | discriminate].
Qed.
Lemma fold_send_recv code i : forall l c0, In (i, SHttp) (c_recv c0) -> (forall k, In (i, k) (c_send c0) -> k = SHttp) -> 
  In (i, SHttp) (c_recv (fold_left (stop_dropped code) l c0)).
Proof.
  induction l as [|j l IH]; cbn; intros c0 A P; auto. apply IH.
  - unfold stop_dropped. destruct (send_critical j c0); auto. destruct (N.eq_dec i j) as [->|NE].
    + unfold close_send, remove_send. destruct (t_get j (c_send c0)) as [k|] eqn:E1; auto. pose proof (P _ (get_in _ _ _ E1)). subst k. exact A.
    + apply (close_send_keeps j code c0 (i, SHttp)); auto. split; [exact NE | discriminate].
  - intros k K. apply P. apply (stop_dropped_shrinks code c0 j); auto.
Qed.
Lemma goaway_told g c i : NoDup (keys (c_recv c)) -> NoDup (keys (c_send c)) -> (forall j, In j (c_local c) -> is_uni j = true) -> is_uni g = false -> is_uni i = false -> g <= i ->
  (In (i, SHttp) (c_recv c) -> (forall k, In (i, k) (c_send c) -> k = SHttp) -> In (DRecv, i, REQUEST_REJECTED) (c_notes (goaway_streams g c))) /\
  (In (i, SHttp) (c_send c) -> In (DSend, i, REQUEST_REJECTED) (c_notes (goaway_streams g c))).
Proof.
  intros NR NS L G U LE. unfold goaway_streams.
  set (l1 := map fst (filter (id_gte g) (c_send c))). set (c1 := fold_left (stop_dropped REQUEST_REJECTED) l1 c). set (l2 := map fst (filter (id_gte g) (c_recv c1))).
  assert (S1 : shrinks c c1) by (apply fold_shrinks; apply stop_dropped_shrinks).
  assert (S2 : shrinks c1 (fold_left (reset_dropped REQUEST_REJECTED) l2 c1)) by (apply fold_shrinks; intros; apply close_recv_shrinks).
  split; intro H.
  - intro P. assert (X : In (i, SHttp) (c_recv c1)) by (apply fold_send_recv; auto).
    apply fold_recv_told; auto; [apply S1; auto|]. apply id_gte_in. exists SHttp. splits; auto. congruence.
  - eapply notes_in; [exact S2|]. apply fold_send_told; auto; [|apply local_uni; auto]. apply id_gte_in. exists SHttp. splits; auto. congruence.
Qed.
(** Nobody else is told. *)
Lemma close_recv_quiet id c n : In n (c_notes (fst (close_recv id REQUEST_REJECTED c))) -> In n (c_notes c) \/ n = (DRecv, id, REQUEST_REJECTED) \/ snd n = REQUEST_CANCELLED.
Proof.
  assert (SUB : forall s c0, In n (c_notes (remove_subs s c0)) -> In n (c_notes c0) \/ snd n = REQUEST_CANCELLED).
  { intros s c0 H. cbn in H. apply in_app_or in H. destruct H as [H|H]; auto. right. apply in_app_or in H.
    destruct H as [H|H]; apply in_map_iff in H; destruct H as (p & <- & _); reflexivity. }
  unfold close_recv, remove_recv. destruct (t_get id (c_recv c)) as [[]|]; cbn [fst critical]; auto.
  all: try destruct (t_has id (c_send c)); cbn [fst critical]; auto.
  all: cbn [c_notes tell]; intro H; try (apply in_app_or in H; destruct H as [H|[H|[]]]; auto).
  apply SUB in H. destruct H; auto.
Qed.
Lemma stop_dropped_quiet id c n : In n (c_notes (stop_dropped REQUEST_REJECTED c id)) -> In n (c_notes c) \/ n = (DSend, id, REQUEST_REJECTED) \/ snd n = REQUEST_CANCELLED.
Proof.
  assert (SUB : forall s c0, In n (c_notes (remove_subs s c0)) -> In n (c_notes c0) \/ snd n = REQUEST_CANCELLED).
  { intros s c0 H. cbn in H. apply in_app_or in H. destruct H as [H|H]; auto. right. apply in_app_or in H.
    destruct H as [H|H]; apply in_map_iff in H; destruct H as (p & <- & _); reflexivity. }
  unfold stop_dropped. destruct (send_critical id c); auto. unfold close_send, remove_send.
  destruct (t_get id (c_send c)) as [[]|]; auto.
  all: try destruct (t_get id (c_recv c)) as [[]|]; auto.
  all: cbn [c_notes tell]; intro H; try (apply in_app_or in H; destruct H as [H|[H|[]]]; auto).
  apply SUB in H. destruct H; auto.
Qed.
Lemma goaway_quiet g c d i : In (d, i, REQUEST_REJECTED) (c_notes (goaway_streams g c)) -> In (d, i, REQUEST_REJECTED) (c_notes c) \/ (g <= i /\ is_uni i = is_uni g).
Proof.
  unfold goaway_streams.
  set (l1 := map fst (filter (id_gte g) (c_send c))). set (c1 := fold_left (stop_dropped REQUEST_REJECTED) l1 c). set (l2 := map fst (filter (id_gte g) (c_recv c1))).
  assert (F1 : forall l c0, In (d, i, REQUEST_REJECTED) (c_notes (fold_left (stop_dropped REQUEST_REJECTED) l c0)) -> In (d, i, REQUEST_REJECTED) (c_notes c0) \/ In i l).
  { induction l as [|j l IH]; cbn; auto. intros c0 H. apply IH in H. destruct H as [H|H]; auto. apply stop_dropped_quiet in H.
    destruct H as [H|[H|H]]; auto; [inversion H; auto | discriminate]. }
  assert (F2 : forall l c0, In (d, i, REQUEST_REJECTED) (c_notes (fold_left (reset_dropped REQUEST_REJECTED) l c0)) -> In (d, i, REQUEST_REJECTED) (c_notes c0) \/ In i l).
  { induction l as [|j l IH]; cbn; auto. intros c0 H. apply IH in H. destruct H as [H|H]; auto. apply close_recv_quiet in H.
    destruct H as [H|[H|H]]; auto; [inversion H; auto | discriminate]. }
  intro H. apply F2 in H. destruct H as [H|H].
  - apply F1 in H. destruct H as [H|H]; auto. right. apply id_gte_in in H. destruct H as (k & _ & A & B). auto.
  - right. apply id_gte_in in H. destruct H as (k & _ & A & B). auto.
Qed.

(** *** The tables of a running connection *)
Record V (c : conn) : Prop := mkV {
  v_r : NoDup (keys (c_recv c)); v_s : NoDup (keys (c_send c));
  v_one : forall i j k, critical k = true -> In (i, k) (c_recv c) -> In (j, k) (c_recv c) -> i = j;
  v_uni : forall i k, critical k = true -> In (i, k) (c_recv c) -> is_uni i = true;
  v_ses : forall i, In (i, SSession) (c_send c) -> is_uni i = false;
  v_pair : forall i k, In (i, SHttp) (c_recv c) -> In (i, k) (c_send c) -> k = SHttp;
  v_loc : forall i, In i (c_local c) -> is_uni i = true }.
Lemma V_shrinks c c' : shrinks c c' -> same c c' -> V c -> V c'.
Proof.
  intros (A & B & C & D & _) (_ & _ & _ & L) [v1 v2 v3 v4 v5 v6 v7]. constructor; auto.
  - intros i j k X Y Z. eapply v3; eauto.
  - intros i k X Y. eapply v4; eauto.
  - intros i k X Y. eapply v6; eauto.
  - rewrite L. auto.
Qed.
Lemma V_state s c : V c -> V (with_state s c). Proof. intros []. constructor; auto. Qed.
Lemma V_settings s c : V c -> V (with_settings s c). Proof. intros []. constructor; auto. Qed.
Lemma V_put_recv id k c : V c -> critical k = false -> k <> SHttp -> V (with_recv (t_put id k (c_recv c)) c).
Proof.
  intros [v1 v2 v3 v4 v5 v6 v7] NK NH. constructor; cbn; auto.
  - apply nodup_put; auto.
  - intros i j k' X Y Z. apply in_put in Y, Z. destruct Y as [[_ ->]|[Y _]]; [congruence|]. destruct Z as [[_ ->]|[Z _]]; [congruence|]. eauto.
  - intros i k' X Y. apply in_put in Y. destruct Y as [[_ ->]|[Y _]]; [congruence | eauto].
  - intros i k' X Y. apply in_put in X. destruct X as [[_ X]|[X _]]; [congruence | eauto].
Qed.
Lemma V_put_both id k c : V c -> critical k = false -> (k = SSession -> is_uni id = false) -> V (with_recv (t_put id k (c_recv c)) (with_send (t_put id k (c_send c)) c)).
Proof.
  intros [v1 v2 v3 v4 v5 v6 v7] NK NH. constructor; cbn; auto.
  - apply nodup_put; auto.
  - apply nodup_put; auto.
  - intros i j k' X Y Z. apply in_put in Y, Z. destruct Y as [[_ ->]|[Y _]]; [congruence|]. destruct Z as [[_ ->]|[Z _]]; [congruence|]. eauto.
  - intros i k' X Y. apply in_put in Y. destruct Y as [[_ ->]|[Y _]]; [congruence | eauto].
  - intros i X. apply in_put in X. destruct X as [[-> X]|[X _]]; [auto | eauto].
  - intros i k' X Y. apply in_put in X, Y. destruct X as [[-> X]|[X X2]], Y as [[Y Y2]|[Y Y2]]; try congruence. eauto.
Qed.
Lemma V_rm_recv id c : V c -> V (with_recv (t_rm id (c_recv c)) c).
Proof.
  intro v. eapply V_shrinks; [| |exact v]; [|repeat split]. unfold shrinks; cbn. splits; auto.
  - intros [i k] H. apply in_rm in H. tauto.
  - intro. apply nodup_filter. assumption.
  - exists []. rewrite app_nil_r. auto.
Qed.
Lemma V_put_critical id k c : V c -> exists_kind k c = false -> is_uni id = true -> k <> SHttp -> V (with_recv (t_put id k (c_recv c)) c).
Proof.
  intros [v1 v2 v3 v4 v5 v6 v7] EX U NH.
  assert (NEW : forall i, ~ In (i, k) (c_recv c)).
  { intros i H. unfold exists_kind in EX. assert (X : existsb (fun p => skind_eqb (snd p) k) (c_recv c) = true) by (apply existsb_exists; exists (i, k); split; auto; apply skind_eqb_eq; auto). congruence. }
  constructor; cbn; auto.
  - apply nodup_put; auto.
  - intros i j k' X Y Z. apply in_put in Y, Z. destruct Y as [[-> Y]|[Y _]], Z as [[-> Z]|[Z _]]; auto; subst; [exfalso; eapply NEW; eauto | exfalso; eapply NEW; eauto | eauto].
  - intros i k' X Y. apply in_put in Y. destruct Y as [[-> _]|[Y _]]; [auto | eauto].
  - intros i k' X Y. apply in_put in X. destruct X as [[_ X]|[X _]]; [congruence | eauto].
Qed.

Lemma with_settings_fields c fs : forall c' rest, base_frames c fs = ROk (c', rest) -> exists s, c' = with_settings s c.
Proof.
  revert c. induction fs as [|f r IH]; intros c c' rest H; cbn [base_frames] in H.
  - inversion H; subst. exists (c_settings c'). destruct c'; reflexivity.
  - destruct (handle_control_frame c f) as [[c1 o]| |] eqn:E; try discriminate. destruct (base_frames c1 r) as [[c2 l]| |] eqn:E2; try discriminate.
    inversion H; subst. destruct (IH _ _ _ E2) as [s ->].
    assert (X : exists s1, c1 = with_settings s1 c).
    { assert (ID : exists s1, c = with_settings s1 c) by (exists (c_settings c); destruct c; reflexivity).
      unfold handle_control_frame in E. destruct f; try (destruct (c_settings c); inversion E; subst; exact ID).
      unfold handle_settings in E. destruct (c_settings c).
      - destruct (qpack_ok s0); inversion E; subst. eauto.
      - destruct (compare _ _ _ _); [discriminate|]. destruct (_ && _); inversion E; subst. eauto.
      - discriminate. }
    destruct X as [s1 ->]. exists s. reflexivity.
Qed.
Lemma role_frame_V e c f c' : V c -> role_frame e c f = ROk c' -> V c' /\ (forall i k, critical k = true -> In (i, k) (c_recv c) -> In (i, k) (c_recv c')).
Proof.
  intros v. unfold role_frame. destruct (c_role c).
  - destruct f; try discriminate.
    + destruct (e_cancel e id); [|discriminate]. intro H; inversion H; subst; auto.
    + unfold handle_goaway. destruct (is_uni id || is_server id) eqn:B; [discriminate|]. apply orb_false_iff in B. destruct B as [B _].
      assert (G : forall c0, V c0 -> V (goaway_streams id c0) /\ (forall i k, critical k = true -> In (i, k) (c_recv c0) -> In (i, k) (c_recv (goaway_streams id c0)))).
      { intros c0 v0. split; [eapply V_shrinks; [apply goaway_shrinks | apply goaway_streams_same | exact v0]|].
        intros i k K H. apply (goaway_kept id c0 (i, k)); auto.
        - right. cbn [fst]. pose proof (v_uni _ v0 i k K H). congruence.
        - cbn [snd]. intros s ->. discriminate. }
      destruct (c_state c) as [| | |g|]; try discriminate.
      * intro H; inversion H; subst. apply (G (with_state (CGoingAway id) c)). apply V_state; auto.
      * destruct (g <? id); [discriminate|]. intro H; inversion H; subst. apply (G (with_state (CGoingAway id) c)). apply V_state; auto.
      * intro H; inversion H; subst. apply (G c). auto.
  - destruct f; try discriminate; try (intro H; inversion H; subst; auto; fail).
    destruct (_ || _); [discriminate|]. intro H; inversion H; subst; auto.
Qed.
Lemma role_frames_V e : forall fs c c', V c -> role_frames e c fs = ROk c' -> V c' /\ (forall i k, critical k = true -> In (i, k) (c_recv c) -> In (i, k) (c_recv c')).
Proof.
  induction fs as [|f r IH]; cbn; intros c c' v H; [inversion H; subst; auto|].
  destruct (role_frame e c f) as [c1| |] eqn:E; try discriminate. destruct (role_frame_V _ _ _ _ v E) as [v1 K1]. destruct (IH _ _ v1 H) as [v2 K2]. split; auto.
Qed.

Lemma not_critical_recv id c i k : V c -> recv_critical id c = false -> critical k = true -> In (i, k) (c_recv c) -> i <> id.
Proof. intros v R K H ->. unfold recv_critical in R. rewrite (in_get _ _ _ (v_r _ v) H) in R. congruence. Qed.
Lemma crit_apart id i k : critical k = true -> i <> id -> apart id (i, k).
Proof. intros K N. split; auto. cbn. intros ->. discriminate. Qed.

(** The critical streams stay, one of each kind. *)
Lemma step_V c o : V c -> well_typed o -> let (x, c') := step c o in final x = false ->
  V c' /\ (forall i k, critical k = true -> In (i, k) (c_recv c) -> ~ In i (brings o) -> In (i, k) (c_recv c')).
Proof.
  intros v WT.
  assert (SEND : forall id code, V (close_send id code c) /\ (forall i k, critical k = true -> In (i, k) (c_recv c) -> In (i, k) (c_recv (close_send id code c)))).
  { intros id code. split; [eapply V_shrinks; [apply close_send_shrinks | apply close_send_same | exact v]|]. intros i k K H.
    destruct (N.eq_dec i id) as [->|N]; [|apply (close_send_keeps id code c (i, k) (crit_apart _ _ _ K N)); auto].
    unfold close_send, remove_send. destruct (t_get id (c_send c)) as [k'|] eqn:E; auto. destruct k'; cbn; auto.
    exfalso. pose proof (v_ses _ v id (get_in _ _ _ E)). pose proof (v_uni _ v id k K H). congruence. }
  destruct o as [id|id t|id e fs|id x|id|id code|id code| |id ss|id code|id code]; cbn [step brings].
  - intros _. split; [apply V_put_recv; [auto | reflexivity | discriminate]|]. intros i k K H N. cbn. apply in_put. right. split; auto. intros ->. apply N. left; auto.
  - destruct (t_get id (c_recv c)) as [k0|] eqn:E; [|auto]. destruct k0; auto. set (c0 := with_recv (t_rm id (c_recv c)) c).
    assert (v0 : V c0) by (apply V_rm_recv; auto).
    assert (NID : forall i k, critical k = true -> In (i, k) (c_recv c) -> i <> id).
    { intros i k K H ->. rewrite (in_get _ _ _ (v_r _ v) H) in E. inversion E; subst. discriminate. }
    assert (K0 : forall i k, critical k = true -> In (i, k) (c_recv c) -> In (i, k) (c_recv c0)).
    { intros i k K H. cbn. apply in_rm. split; auto. eapply NID; eauto. }
    assert (KP : forall k' t i k, critical k = true -> In (i, k) (c_recv c) -> (forall p, In p (c_recv c0) -> In p t) -> In (i, k) (t_put id k' t)).
    { intros k' t' i k K H SB. apply in_put. right. split; [auto | eapply NID; eauto]. }
    destruct t; cbn [new_stream]; unfold new_critical.
    1-3: destruct (exists_kind _ c0) eqn:EX; intro F; [discriminate F|]; split; [apply V_put_critical; auto; discriminate | intros i k K H _; apply KP; auto].
    + destruct (c_role c0); intro F; [discriminate F|]. split; [apply V_put_both; auto; discriminate | intros i k K H _; apply KP; auto].
    + destruct (c_role c0); intro F; [|discriminate F]. split; [apply V_put_recv; auto; discriminate | intros i k K H _; apply KP; auto].
    + destruct (t_get s (c_send c0)) as [[]|]; try (intros _; split; [exact v0 | intros i k K H _; auto]).
      intros _. destruct (is_uni id); (split; [|intros i k K H _; apply KP; auto]); [apply V_put_recv; auto; discriminate | exact (V_put_both id (SWt s) c0 v0 eq_refl ltac:(discriminate))].
    + intros _. split; [exact v0 | intros i k K H _; auto].
  - destruct (t_get id (c_recv c)) as [[]|]; auto. destruct (base_frames c fs) as [[c1 rest]| |] eqn:B; try (intro F; discriminate F).
    destruct (with_settings_fields _ _ _ _ B) as [s ->]. assert (v1 : V (with_settings s c)) by (apply V_settings; auto).
    destruct (role_frames e (with_settings s c) rest) as [c2| |] eqn:R; try (intro F; discriminate F). destruct (role_frames_V _ _ _ _ v1 R) as [v2 K]. intros _. split; auto.
  - destruct (recv_critical id c); intro F; [discriminate F | auto].
  - destruct (recv_critical id c) eqn:RC; intros _; auto. split; [eapply V_shrinks; [apply remove_recv_shrinks | apply remove_recv_same | exact v]|].
    intros i k K H _. apply (remove_recv_keeps id c (i, k)); auto. apply crit_apart; auto. eapply not_critical_recv; eauto.
  - pose proof (close_recv_shrinks id code c) as SH. pose proof (close_recv_same id code c) as SM. pose proof (close_recv_keeps id code c) as KE.
    destruct (close_recv id code c) as [c1 b] eqn:E. destruct b; intro F; [|discriminate F]. cbn [fst] in *. split; [eapply V_shrinks; eauto|].
    intros i k K H _. apply (KE (i, k)); auto. apply crit_apart; auto. intros ->. unfold close_recv, remove_recv in E. rewrite (in_get _ _ _ (v_r _ v) H) in E.
    destruct k; try discriminate K; cbn in E; inversion E.
  - destruct (send_critical id c); intro F; [discriminate F|]. destruct (SEND id code) as [A B]. split; auto.
  - destruct (c_state c); intro F; try discriminate F; (split; [apply V_state; auto | auto]).
  - cbn in WT. apply request_id_bits in WT. destruct WT as [WT _].
    destruct (c_state c); intros _; auto; (split; [apply V_put_both; auto; destruct ss; [reflexivity | reflexivity] |
      intros i k K H N; cbn; apply in_put; right; split; [auto | intros ->; apply N; left; auto]]).
  - destruct (send_critical id c); intros _; auto. destruct (SEND id code) as [A B]. split; auto.
  - destruct (recv_critical id c) eqn:RC; intros _; auto. split; [eapply V_shrinks; [apply close_recv_shrinks | apply close_recv_same | exact v]|].
    intros i k K H _. apply (close_recv_keeps id code c (i, k)); auto. apply crit_apart; auto. eapply not_critical_recv; eauto.
Qed.

Lemma run_V : forall ops c t c', V c -> (forall o, In o ops -> well_typed o) -> run c ops = (t, c') -> clean t ->
  V c' /\ (forall i k, critical k = true -> In (i, k) (c_recv c) -> ~ In i (flat_map brings ops) -> In (i, k) (c_recv c')).
Proof.
  induction ops as [|o ops IH]; intros c t c' v WT R CL; cbn [run] in R.
  - inversion R; subst. auto.
  - pose proof (step_V c o v (WT o (or_introl eq_refl))) as S. destruct (step c o) as [x c1]. destruct (final x) eqn:F.
    + inversion R; subst. specialize (CL o x (or_introl eq_refl)). congruence.
    + destruct (run c1 ops) as [t2 c2] eqn:R2. inversion R; subst. destruct (S eq_refl) as [v1 K1].
      destruct (IH c1 t2 c' v1 (fun o' H => WT o' (or_intror H)) R2) as [v2 K2].
      { intros o' x' H. apply (CL o' x'). right; auto. }
      split; auto. intros i k K H N. apply K2; auto.
      * apply K1; auto. intro X. apply N. cbn. apply in_or_app; auto.
      * intro X. apply N. cbn. apply in_or_app; auto.
Qed.
Lemma init_V r old local c : (forall i, In i local -> is_uni i = true) -> init r old local = Some c -> V c.
Proof.
  intros L. unfold init. destruct old as [s|]; [destruct (qpack_ok s); [|discriminate]|]; intro H; inversion H; subst; constructor; cbn; auto;
  try constructor; try (intros; contradiction).
Qed.
