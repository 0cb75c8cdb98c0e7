(** C107: the events of an HTTP/3 client. *)
From Coq Require Import NArith List Bool Lia.
From Verif Require Import HeModel HeSpec.
Import ListNotations.
Open Scope N_scope.

(** A call first drops what it makes stale and then adds its news. *)
Definition drops (o : hop) (e : hevent) : bool :=
  let rcv id := match e with EHeader x _ _ _ | EPromise _ x _ | EReadable x | EReset x _ _ => x =? id | _ => false end in
  let snd_ id := match e with EWritable x | EStop x _ => x =? id | _ => false end in
  let psh pid := match e with EPromise x _ _ | EPushHeader x _ _ _ | EPushReadable x | ECanceled x => x =? pid | _ => false end in
  match o with
  | KRecvClosed id (ResetApp _) | KRecvClosed id (LocalError _) => rcv id
  | KRecvClosed id (ResetRemote _) => match e with EReadable x | EReset x _ _ => x =? id | _ => false end
  | KSendClosed id _ => snd_ id
  | KCanceled pid | KPushReset pid _ | KForget pid => psh pid
  | KGoaway => match e with ECreatable => true | _ => false end
  | KState SConn => match e with EState SZeroRtt => true | _ => false end
  | KState (SClosing _) | KState (SClosed _) => true
  | _ => false
  end.
Lemma drops_spec o e : drops o e = true <-> hstale o e.
Proof.
  split.
  - intro H. destruct o; cbn in H; try discriminate;
      repeat match goal with H : match ?x with _ => _ end = true |- _ => destruct x; try discriminate end;
      try apply N.eqb_eq in H; subst; try (constructor; cbn; tauto).
  - intro H. destruct H as [id err e H|id err e H|id err e H C|id ct e H|pid e H|pid err e H|pid e H| | |o e H];
      try (destruct e; cbn in *; try contradiction; subst; try (exfalso; apply C; exact I); apply N.eqb_refl); try reflexivity.
    destruct o; cbn in H; try contradiction. destruct s; try contradiction; reflexivity.
Qed.
Lemma filter_all {A} (l : list A) : filter (fun _ => true) l = l.
Proof. induction l; cbn; congruence. Qed.
Lemma filter_none {A} (l : list A) : filter (fun _ => false) l = [].
Proof. induction l; auto. Qed.
Lemma step_shape q o : o <> KPoll -> h_step q o = (None, filter (fun e => negb (drops o e)) q ++ hnews o).
Proof.
  intro P. destruct o; try congruence; cbn [h_step]; f_equal; try (unfold h_insert; cbn; rewrite filter_all; reflexivity).
  - destruct ct; unfold recv_closed, remove_recv, h_remove, h_insert; cbn [hnews]; rewrite ?app_nil_r; cbn [drops];
      try (rewrite filter_all; reflexivity); first [apply filter_ext | f_equal; apply filter_ext]; intros []; cbn; auto; destruct (_ =? _); reflexivity.
  - destruct ct; unfold send_closed, remove_send, h_remove, h_insert; cbn [hnews]; rewrite ?app_nil_r; cbn [drops]; first [apply filter_ext | f_equal; apply filter_ext]; intros []; reflexivity.
  - destruct session as [s|]; unfold new_stream, h_insert; cbn; rewrite filter_all, ?app_nil_r; auto. destruct emit; [rewrite <- app_assoc|]; reflexivity.
  - unfold remove_push, h_remove. cbn [hnews drops]. rewrite app_nil_r. apply filter_ext; intro x; destruct x; reflexivity.
  - unfold creatable, h_insert. cbn. rewrite filter_all. destruct bidi; [|rewrite app_nil_r]; reflexivity.
  - unfold state_change, h_insert, h_remove. destruct s; cbn; rewrite ?filter_all, ?filter_none; reflexivity.
Qed.
Lemma count_filter f e l : times e (filter f l) = if f e then times e l else O.
Proof.
  unfold times. induction l as [|x l IH]; cbn; [destruct (f e); reflexivity|]. destruct (f x) eqn:F; cbn; destruct (hevent_dec x e); subst; rewrite ?F in *; rewrite ?IH; auto; try reflexivity.
Qed.
Lemma count_app e a b : times e (a ++ b) = (times e a + times e b)%nat.
Proof. unfold times. apply count_occ_app. Qed.
Lemma step_count q o x q' e : h_step q o = (x, q') -> ~ hstale o e ->
  (times e q' + times e (match x with Some y => [y] | None => [] end) = times e q + times e (hnews o))%nat.
Proof.
  intros H S. destruct (drops o e) eqn:D; [apply drops_spec in D; contradiction|].
  assert (P : o = KPoll \/ o <> KPoll) by (destruct o; auto; right; congruence). destruct P as [-> | P].
  2: { rewrite step_shape in H by exact P. inversion H; subst. rewrite count_app, count_filter, D. cbn [negb]. change (times e []) with O. lia. }
  cbn in H. destruct q as [|y q]; inversion H; subst; unfold times; [reflexivity|]. cbn [hnews count_occ]. destruct (hevent_dec y e); lia.
Qed.
Lemma step_stale q o x q' e : h_step q o = (x, q') -> hstale o e -> x = None /\ times e q' = times e (hnews o).
Proof.
  intros H S. apply drops_spec in S. assert (P : o <> KPoll) by (intros ->; discriminate).
  rewrite step_shape in H by exact P. inversion H; subst. split; auto. rewrite count_app, count_filter, S. reflexivity.
Qed.
Lemma run_split q ops t q' t1 t2 : h_run q ops = (t, q') -> t = t1 ++ t2 -> exists ops1 ops2 qm, ops = ops1 ++ ops2 /\ h_run q ops1 = (t1, qm) /\ h_run qm ops2 = (t2, q').
Proof.
  revert q ops t. induction t1 as [|p t1 IH]; intros q ops t R E.
  - exists [], ops, q. cbn in *. subst. auto.
  - destruct ops as [|o ops]; cbn in R; [inversion R; subst; discriminate|]. destruct (h_step q o) as [x qa] eqn:S. destruct (h_run qa ops) as [ta qb] eqn:Ra. inversion R; subst.
    inversion H0; subst. destruct (IH qa ops (t1 ++ t2) Ra eq_refl) as (o1 & o2 & qm & A & B & C). exists (o :: o1), o2, qm. subst. split; auto. split; auto. cbn. rewrite S, B. reflexivity.
Qed.
Lemma run_count q ops t q' e : h_run q ops = (t, q') -> never_stale e t -> (times e q' + times e (htold t) = times e q + times e (hsaid t))%nat.
Proof.
  revert q t. induction ops as [|o ops IH]; intros q t R NS; cbn in R; [inversion R; subst; cbn; reflexivity|].
  destruct (h_step q o) as [x qa] eqn:S. destruct (h_run qa ops) as [ta qb] eqn:Ra. inversion R; subst.
  specialize (IH qa ta Ra). assert (N1 : never_stale e ta) by (intros o' x' I; apply NS with x'; right; exact I). specialize (IH N1).
  pose proof (step_count q o x qa e S (NS o x (or_introl eq_refl))) as C. unfold htold, hsaid in *. cbn [flat_map fst snd]. rewrite !count_app. lia.
Qed.

(** An event waits exactly as often as it was said, and not told, since it was last made stale. *)
Theorem h3_events_owed ops t q t1 t2 e : h_run [] ops = (t, q) -> t = t1 ++ t2 -> since e t1 t2 ->
  (times e q + times e (htold t2) = times e (hsaid t2))%nat.
Proof.
  intros R E [[-> NS] | (o & x & t' & -> & ST & NS)].
  - cbn in E. subst t. exact (run_count [] ops t2 q e R NS).
  - destruct (run_split _ _ _ _ _ _ R E) as (ops1 & ops2 & qm & -> & _ & R2). destruct ops2 as [|o2 ops2]; cbn in R2; [discriminate|].
    destruct (h_step qm o2) as [x2 qa] eqn:S. destruct (h_run qa ops2) as [ta qb] eqn:Ra. inversion R2; subst.
    destruct (step_stale _ _ _ _ _ S ST) as [-> C]. pose proof (run_count _ _ _ _ _ Ra NS) as D. unfold htold, hsaid in *. cbn [flat_map fst snd]. rewrite !count_app. change (times e []) with O. lia.
Qed.
Print Assumptions h3_events_owed.

Lemma lo_refl {A} (l : list A) : leaves_out l l.
Proof. induction l; constructor; auto. Qed.
Lemma lo_trans {A} (a b c : list A) : leaves_out a b -> leaves_out b c -> leaves_out a c.
Proof.
  intros H K. revert a H. induction K as [|x b c K IH|x b c K IH]; intros a H; auto.
  - inversion H; subst; constructor; auto.
  - constructor. auto.
Qed.
Lemma lo_filter {A} f (l m : list A) : leaves_out (filter f l ++ m) (l ++ m).
Proof. induction l as [|x l IH]; cbn; [apply lo_refl|]. destruct (f x); constructor; exact IH. Qed.
Lemma run_order q ops t q' : h_run q ops = (t, q') -> leaves_out (htold t ++ q') (q ++ hsaid t).
Proof.
  revert q t. induction ops as [|o ops IH]; intros q t R; cbn in R; [inversion R; subst; cbn; rewrite app_nil_r; apply lo_refl|].
  destruct (h_step q o) as [x qa] eqn:S. destruct (h_run qa ops) as [ta qb] eqn:Ra. inversion R; subst. specialize (IH qa ta Ra).
  unfold htold, hsaid in *. cbn [flat_map fst snd].
  assert (P : o = KPoll \/ o <> KPoll) by (destruct o; auto; right; congruence). destruct P as [-> | P].
  - cbn in S. destruct q as [|y q]; inversion S; subst; cbn; [exact IH | apply lo_keep; exact IH].
  - rewrite step_shape in S by exact P. inversion S; subst. cbn [app]. eapply lo_trans; [exact IH|]. rewrite <- app_assoc. apply lo_filter.
Qed.

(** What has been told, followed by what waits, is what was said, in the same order, with some left out. *)
Theorem h3_events_in_order ops t q : h_run [] ops = (t, q) -> leaves_out (htold t ++ q) (hsaid t).
Proof. intro R. exact (run_order [] ops t q R). Qed.
Print Assumptions h3_events_in_order.

(** Polls tell what waits from its front, until nothing waits. *)
Theorem h3_events_prompt q : h_run q (repeat KPoll (length q)) = (map (fun e => (KPoll, Some e)) q, []) /\ (fst (h_step q KPoll) = None <-> q = []).
Proof.
  split; [|destruct q; cbn; split; congruence]. induction q as [|e q IH]; [reflexivity|]. cbn. rewrite IH. reflexivity.
Qed.
Print Assumptions h3_events_prompt.

Lemma filter_impl {A} (f g : A -> bool) l : (forall x, f x = true -> g x = true) -> filter f (filter g l) = filter f l.
Proof. intro H. induction l as [|x l IH]; cbn; auto. destruct (g x) eqn:G; cbn; rewrite IH; auto. destruct (f x) eqn:F; auto. rewrite (H x F) in G. discriminate. Qed.
Lemma lasting_kept o e : ~ closes o -> lasting e = true -> negb (drops o e) = true.
Proof.
  intros C L. destruct o; try reflexivity; try (destruct e; cbn in *; congruence).
  - destruct ct; destruct e; cbn in *; congruence.
  - destruct s; cbn in *; try tauto; destruct e; cbn in *; auto. destruct s; auto; discriminate.
Qed.

(** While the connection does not close, each session, datagram, new stream, certificate question, token, feature agreed or not and change of state
    (but an early one) is told exactly once and in order. *)
Theorem h3_events_lasting ops t q : h_run [] ops = (t, q) -> (forall o, In o ops -> ~ closes o) ->
  filter lasting (htold t) ++ filter lasting q = filter lasting (hsaid t).
Proof.
  change (filter lasting (hsaid t)) with (filter lasting [] ++ filter lasting (hsaid t)). generalize (@nil hevent) as q0. revert t.
  induction ops as [|o ops IH]; intros t q0 R C; cbn in R; [inversion R; subst; cbn; rewrite app_nil_r; reflexivity|].
  destruct (h_step q0 o) as [x qa] eqn:S. destruct (h_run qa ops) as [ta qb] eqn:Ra. inversion R; subst.
  specialize (IH ta qa Ra (fun o' I => C o' (or_intror I))). unfold htold, hsaid in *. cbn [flat_map fst snd]. rewrite !filter_app, <- app_assoc, IH.
  assert (P : o = KPoll \/ o <> KPoll) by (destruct o; auto; right; congruence). destruct P as [-> | P].
  - cbn in S. destruct q0 as [|y q0]; inversion S; subst; cbn; auto. destruct (lasting y); reflexivity.
  - rewrite step_shape in S by exact P. inversion S; subst. cbn [filter app]. rewrite filter_app, <- app_assoc. f_equal.
    apply filter_impl. intros y L. apply lasting_kept; auto. apply C. left. reflexivity.
Qed.
Print Assumptions h3_events_lasting.

(** Closing is the next and only thing to be heard. *)
Theorem h3_closing_next q s : closes (KState s) -> h_step q (KState s) = (None, [EState s]).
Proof. intro C. destruct s; cbn in C; try contradiction; reflexivity. Qed.
Print Assumptions h3_closing_next.

(** When the peer resets a stream, all that still waits of its receiving side is headers that arrived and that one reset; when the application
    abandons it, nothing; after an error of its own, that error; likewise for the sending side, and for pushes. *)
Theorem h3_stream_over q id e err :
  (In e (snd (h_step q (KRecvClosed id (ResetRemote err)))) -> receives id e -> (carries e /\ In e q) \/ e = EReset id err false) /\
  (In e (snd (h_step q (KRecvClosed id (ResetApp err)))) -> ~ receives id e) /\
  (In e (snd (h_step q (KRecvClosed id (LocalError err)))) -> receives id e -> e = EReset id err true) /\
  (In e (snd (h_step q (KSendClosed id (ResetRemote err)))) -> sends id e -> e = EStop id err) /\
  (forall ct, In e (snd (h_step q (KSendClosed id ct))) -> sends id e -> exists err, ct = ResetRemote err) /\
  (In e (snd (h_step q (KCanceled id))) -> pushes id e -> e = ECanceled id) /\
  (In e (snd (h_step q (KPushReset id err))) -> ~ pushes id e).
Proof.
  assert (G : forall o, o <> KPoll -> In e (snd (h_step q o)) -> (In e q /\ ~ hstale o e) \/ In e (hnews o)).
  { intros o P I. rewrite step_shape in I by exact P. cbn [snd] in I. apply in_app_or in I. destruct I as [I|I]; [left|right; exact I].
    apply filter_In in I. destruct I as [I D]. split; auto. intro S. apply drops_spec in S. rewrite S in D. discriminate. }
  repeat apply conj.
  - intros I R. apply G in I; [|congruence]. destruct I as [[I S]|[I|[]]]; [|right; auto]. left. split; auto. destruct e; cbn in *; try contradiction; auto; exfalso; apply S; constructor; cbn; auto.
  - intros I R. apply G in I; [|congruence]. destruct I as [[I S]|[]]. apply S. constructor. exact R.
  - intros I R. apply G in I; [|congruence]. destruct I as [[I S]|[I|[]]]; auto. exfalso. apply S. constructor. exact R.
  - intros I R. apply G in I; [|congruence]. destruct I as [[I S]|[I|[]]]; auto. exfalso. apply S. constructor. exact R.
  - intros ct I R. apply G in I; [|congruence]. destruct I as [[I S]|I]; [exfalso; apply S; constructor; exact R|]. destruct ct; cbn in I; try contradiction. eexists. reflexivity.
  - intros I R. apply G in I; [|congruence]. destruct I as [[I S]|[I|[]]]; auto. exfalso. apply S. constructor. exact R.
  - intros I R. apply G in I; [|congruence]. destruct I as [[I S]|[I|[]]]; [apply S; constructor; exact R | subst e; exact R].
Qed.
Print Assumptions h3_stream_over.

(** A push is known to wait exactly while its promise has been said, and not told, since it was last made stale. *)
Theorem h3_push_waits q pid : has_push pid q = true <-> exists id h, In (EPromise pid id h) q.
Proof.
  unfold has_push. rewrite existsb_exists. split.
  - intros (e & I & H). destruct e; try discriminate. apply N.eqb_eq in H. subst. eauto.
  - intros (id & h & I). exists (EPromise pid id h). split; auto. apply N.eqb_refl.
Qed.
Print Assumptions h3_push_waits.

(** Not so: that a stream of which news is told is still there. Data that arrives in two parts is announced twice, and once the stream has been
    read to its end the second announcement is still told. *)
Theorem h3_readable_refuted : exists ops t q, h_run [] ops = (t, q) /\
  ops = [KReadable 0; KReadable 0; KPoll; KRecvClosed 0 DoneWith; KPoll] /\ htold t = [EReadable 0; EReadable 0].
Proof. eexists. eexists. eexists. split; [|split; [reflexivity|]]; [vm_compute; reflexivity | reflexivity]. Qed.
Print Assumptions h3_readable_refuted.
(** Nor that a push is told of only after its promise: the promise goes when the application abandons the request. *)
Theorem h3_promise_first_refuted : exists ops t q, h_run [] ops = (t, q) /\
  ops = [KPromise 1 0 5; KPushHeader 1 6 false false; KRecvClosed 0 (ResetApp 9); KPoll; KPoll] /\ htold t = [EPushHeader 1 6 false false].
Proof. eexists. eexists. eexists. split; [|split; [reflexivity|]]; [vm_compute; reflexivity | reflexivity]. Qed.
Print Assumptions h3_promise_first_refuted.
(** Nor that no more requests are invited after the peer said it goes away: its raising the limit on streams is passed on. *)
Theorem h3_creatable_refuted : exists ops t q, h_run [] ops = (t, q) /\
  ops = [KCreatable true; KGoaway; KCreatable true; KPoll; KPoll] /\ htold t = [EGoaway; ECreatable].
Proof. eexists. eexists. eexists. split; [|split; [reflexivity|]]; [vm_compute; reflexivity | reflexivity]. Qed.
Print Assumptions h3_creatable_refuted.

Definition demo_he : list hop := [KState SZeroRtt; KHeader 0 1 false false; KReadable 0; KState SConn; KWritable 0; KDatagram Wt 4 [1]; KRecvClosed 0 (ResetRemote 7); KPoll; KReadable 4; KSendClosed 0 (ResetRemote 3); KDatagram Wt 4 [1]].
Example demo_he_runs : let (t, q) := h_run [] demo_he in
  q = [EState SConn; EDatagram Wt 4 [1]; EReset 0 7 false; EReadable 4; EStop 0 3; EDatagram Wt 4 [1]] /\ htold t = [EHeader 0 1 false false] /\
  (forall o, In o demo_he -> ~ closes o) /\ since (EDatagram Wt 4 [1]) [] t /\
  (exists t1 t2, t = t1 ++ t2 /\ t1 <> [] /\ since (EReadable 0) t1 t2).
Proof.
  remember (h_run [] demo_he) as r eqn:R. vm_compute in R. subst r. split; [reflexivity|]. split; [reflexivity|].
  assert (C : forall o, In o demo_he -> ~ closes o) by (intros o I; unfold demo_he in I; cbn in I; intuition (subst; cbn in *; auto)). split; [exact C|]. split.
  - left. split; auto. intros o x I S. apply drops_spec in S. cbn in I. intuition (match goal with H : (_, _) = (_, _) |- _ => inversion H; subst end; discriminate).
  - eexists [_; _; _; _; _; _], _. split; [reflexivity|]. split; [congruence|]. right. eexists. eexists. eexists. split; [reflexivity|]. split; [constructor; cbn; auto|].
    intros o x I S. apply drops_spec in S. cbn in I. intuition (match goal with H : (_, _) = (_, _) |- _ => inversion H; subst end; discriminate).
Qed.
