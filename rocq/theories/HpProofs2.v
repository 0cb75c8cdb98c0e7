(** Server push: what holds after every sequence of calls. *)
From Verif Require Import Base Lib HpModel HpSpec HpProofs.
From Coq Require Import Sorted.
Open Scope N_scope.
Open Scope list_scope.
Import ListNotations.

Definition promised (c : ctl) (id : N) : Prop := exists e, In e (c_posted c) /\ promise_of id e.
Definition stands (c : ctl) (os : list pop_) (id : N) : Prop :=
  let sp := filter (from_stream id) (c_posted c) in
  match view c id with
  | PInit => raised id os = [] /\ sp = [] /\ ~ promised c id
  | PPromise _ => raised id os = [] /\ sp = [] /\ promised c id
  | POnly _ evs => raised id os = evs /\ sp = [] /\ ~ promised c id /\ Forall (fun e => from_stream id e = true) evs
  | PActive _ _ => sp = raised id os /\ promised c id
  | PClosed => (promised c id /\ sp = raised id os) \/ (~ promised c id /\ sp = [])
  end.
Definition ordered (ps : list pev) : Prop := forall a e b id, ps = a ++ e :: b -> from_stream id e = true -> exists p, In p a /\ promise_of id p.
Record pinv (c : ctl) (os : list pop_) : Prop := mkI {
  i_init : forall x, c_cur c < x -> view c x = PInit;
  i_room : c_cur c + 1 <= number_done c + N.max 1 (c_max c);
  i_told : Forall (fun n => n <= c_cur c) (max_ids (c_frames c)) /\ StronglySorted N.lt (max_ids (c_frames c)) /\
           (c_cur c = 0 /\ max_ids (c_frames c) = [] \/ exists l, max_ids (c_frames c) = l ++ [c_cur c]);
  i_stand : forall id, stands c os id;
  i_order : ordered (c_posted c);
  i_in : forall e, In e (c_events c) -> In e (c_posted c);
  i_reset : forall id e, In (EvReset id e) (c_posted c) -> view c id = PClosed;
  i_mixed : forall id e p, In (EvReset id e) (c_posted c) -> In p (c_events c) -> ~ promise_of id p }.

Lemma raised_app id a b : raised id (a ++ b) = raised id a ++ raised id b.
Proof. induction a as [|o a IH]; [reflexivity|]. destruct o; cbn [app raised]; rewrite ?IH; auto; destruct (_ =? _); cbn; rewrite ?IH; auto. Qed.
Lemma quiet_raised id o : quiet o -> raised id [o] = [].
Proof. destruct o; cbn; auto; contradiction. Qed.
Lemma ordered_app ps P : ordered ps -> (forall a e b id, P = a ++ e :: b -> from_stream id e = true -> exists p, In p (ps ++ a) /\ promise_of id p) -> ordered (ps ++ P).
Proof.
  intros O H a e b id E F. destruct (Nat.lt_ge_cases (length a) (length ps)) as [L|L].
  - assert (E1 : firstn (S (length a)) (ps ++ P) = firstn (S (length a)) (a ++ e :: b)) by (rewrite E; reflexivity).
    rewrite firstn_app in E1. replace (S (length a) - length ps)%nat with 0%nat in E1 by lia. rewrite firstn_O, app_nil_r in E1.
    rewrite firstn_app in E1. rewrite (firstn_all2 (n := S (length a)) a) in E1 by lia. replace (S (length a) - length a)%nat with 1%nat in E1 by lia. change (firstn 1 (e :: b)) with [e] in E1.
    apply (O a e (skipn (S (length a)) ps) id); [|exact F]. rewrite <- (firstn_skipn (S (length a)) ps) at 1. rewrite E1, <- app_assoc. reflexivity.
  - assert (E1 : a = ps ++ skipn (length ps) a).
    { rewrite <- (firstn_skipn (length ps) a) at 1. f_equal. assert (E2 : firstn (length ps) (ps ++ P) = firstn (length ps) (a ++ e :: b)) by (rewrite E; reflexivity).
      rewrite firstn_app, Nat.sub_diag, firstn_O, app_nil_r, firstn_all in E2. rewrite firstn_app in E2. replace (length ps - length a)%nat with 0%nat in E2 by lia.
      rewrite firstn_O, app_nil_r in E2. auto. }
    rewrite E1 in E |- *. rewrite <- app_assoc in E. apply app_inv_head in E. eapply H; eauto.
Qed.
Lemma max_ids_app a b : max_ids (a ++ b) = max_ids a ++ max_ids b.
Proof. induction a as [|[n|n] a IH]; cbn; rewrite ?IH; auto. Qed.
Lemma sorted_snoc l n : StronglySorted N.lt l -> Forall (fun x => x < n) l -> StronglySorted N.lt (l ++ [n]).
Proof.
  induction l as [|x l IH]; intros S F; cbn; [repeat constructor|]. inversion S as [|? ? S1 S2]; subst. inversion F as [|? ? F1 F2]; subst.
  constructor; [auto|]. apply Forall_app. auto.
Qed.
Lemma other_stream id x e : from_stream x e = true -> id <> x -> from_stream id e = false.
Proof. destruct e; cbn; try discriminate; intros H D; apply N.eqb_eq in H; apply N.eqb_neq; congruence. Qed.
Lemma filter_all (f : pev -> bool) l : Forall (fun e => f e = true) l -> filter f l = l.
Proof. induction 1 as [|x l H F IH]; cbn; [reflexivity|]. rewrite H, IH. reflexivity. Qed.
Lemma filter_none (f : pev -> bool) l : Forall (fun e => f e = false) l -> filter f l = [].
Proof. induction 1 as [|x l H F IH]; cbn; [reflexivity|]. rewrite H. exact IH. Qed.
Lemma kept_in id es e : In e (kept id es) -> In e es /\ ev_removed id e = false.
Proof. unfold kept. rewrite filter_In. intros [H1 H2]. split; auto. apply negb_true_iff. exact H2. Qed.
Lemma stream_not_promise id x e : from_stream x e = true -> ~ promise_of id e.
Proof. destruct e; cbn; auto; discriminate. Qed.

Ltac oth := first [reflexivity|assumption|match goal with A : adds _ _ _ |- _ => apply A end
  |match goal with S : sets _ _ ?i _ |- view _ ?x = _ => rewrite (S x); destruct (N.eqb_spec x i); congruence end
  |match goal with S : same _ _ |- view _ ?x = _ => apply (S x) end|solve [auto]|constructor; [cbn; congruence|constructor]].
(** Nothing about a push but what concerns it changes how it stands. *)
Lemma stands_other c c' os o id P : stands c os id -> view c' id = view c id -> c_posted c' = c_posted c ++ P -> raised id [o] = [] ->
  Forall (fun e => about e <> id) P -> stands c' (os ++ [o]) id.
Proof.
  unfold stands. intros H V E R F. rewrite V, E, raised_app, R, app_nil_r, filter_app.
  assert (Ef : filter (from_stream id) P = []).
  { apply filter_none. eapply Forall_impl; [|exact F]. intros [a ? ?|a ? ? ?|a|a|a ?]; cbn; auto; intros; apply N.eqb_neq; auto. }
  rewrite Ef, app_nil_r.
  assert (Ep : promised c' id <-> promised c id).
  { unfold promised. rewrite E. split; intros (e & I & p); [|exists e; rewrite in_app_iff; auto]. apply in_app_iff in I as [I|I]; [eauto|].
    rewrite Forall_forall in F. specialize (F _ I). destruct e; cbn in *; try contradiction. }
  destruct (view c id); rewrite ?Ep; auto.
Qed.

Lemma inv_new m : pinv (c_new m) [].
Proof.
  assert (V : forall x, view (c_new m) x = PInit).
  { intros x. unfold view. cbn. destruct (N.ltb_spec x 0); [lia|]. destruct (N.to_nat (x - 0)); reflexivity. }
  constructor.
  - intros x _. apply V.
  - unfold number_done. cbn. lia.
  - cbn. split; [constructor|]. split; [constructor|auto].
  - intros id. unfold stands. rewrite V. cbn. splits; auto. intros (e & [] & _).
  - intros a e b id E. destruct a; discriminate.
  - intros e [].
  - intros ? ? [].
  - intros ? ? ? [].
Qed.

Lemma inv_step c os o c' r : pinv c os -> tr c o c' r -> pinv c' (os ++ [o]).
Proof.
  intros I T. destruct I as [i1 i2 i3 i4 i5 i6 i7 i8].
  assert (Ka : keeps c c' -> c_cur c' + 1 <= number_done c' + N.max 1 (c_max c')) by (intros (-> & -> & -> & _); exact i2).
  assert (Kt : keeps c c' -> Forall (fun n => n <= c_cur c') (max_ids (c_frames c')) /\ StronglySorted N.lt (max_ids (c_frames c')) /\
           (c_cur c' = 0 /\ max_ids (c_frames c') = [] \/ exists l, max_ids (c_frames c') = l ++ [c_cur c'])) by (intros (_ & -> & _ & ->); exact i3).
  assert (Ki : keeps c c' -> same c c' -> forall x, c_cur c' < x -> view c' x = PInit) by (intros (_ & -> & _) Hs x Hx; rewrite Hs; auto).
  assert (Ks : forall id v, keeps c c' -> sets c c' id v -> view c id <> PInit \/ id <= c_cur c -> forall x, c_cur c' < x -> view c' x = PInit).
  { intros id v (_ & -> & _) Hs Hv x Hx. rewrite Hs. destruct (N.eqb_spec x id) as [->|]; [|auto]. destruct Hv as [Hv|Hv]; [elim Hv; auto|lia]. }
  assert (Ie : forall P, adds c c' P -> forall e, In e (c_events c') -> In e (c_posted c')).
  { intros P [-> ->] e He. apply in_app_iff. apply in_app_iff in He as [He|He]; auto. }
  assert (So : forall P id, c_posted c' = c_posted c ++ P -> raised id [o] = [] -> view c' id = view c id -> Forall (fun e => about e <> id) P -> stands c' (os ++ [o]) id).
  { intros P id E R V F. eapply stands_other; eauto. }
  assert (NoR : forall P, adds c c' P -> Forall (fun e => match e with EvReset _ _ => False | _ => True end) P -> (forall x, view c x = PClosed -> view c' x = PClosed) -> forall id e, In (EvReset id e) (c_posted c') -> view c' id = PClosed).
  { intros P [E _] F Hv id e He. rewrite E in He. apply in_app_iff in He as [He|He]; [eauto|]. rewrite Forall_forall in F. specialize (F _ He). contradiction. }
  assert (NoM : forall P, adds c c' P -> Forall (fun e => match e with EvReset _ _ => False | EvPromise x _ _ => view c x <> PClosed | _ => True end) P ->
    forall id e p, In (EvReset id e) (c_posted c') -> In p (c_events c') -> ~ promise_of id p).
  { intros P [E1 E2] F id e p He Hp Hq. rewrite Forall_forall in F. rewrite E1 in He. apply in_app_iff in He as [He|He]; [|exact (F _ He)].
    rewrite E2 in Hp. apply in_app_iff in Hp as [Hp|Hp]; [eapply i8; eauto|]. specialize (F _ Hp). destruct p; cbn in Hq; try contradiction. subst. elim F. eapply i7; eauto. }
  assert (Nil : forall P, P = [] -> c_posted c' = c_posted c ++ P -> ordered (c_posted c')) by (intros P -> ->; rewrite app_nil_r; auto).
  destruct T as [o c' r K S A Q Hr Hc|id req hs c' K L V S A|id req hs c' K L V S A|id req hs sid evs c' K L V S A|id sid c' K Z L V S A|id sid hs c' K Z L V S A
    |o id v c' P E M1 M2 M3 M4 L V O S A1 A2 C Q Hc|id c' K S V Hp A1 A2|c' M1 M2 M3 Z H M4 M5 S A|o id e sid evs c' K F Ho V S A|o id e sid hs c' K F Ho V S A|c' K S A1 A2].
  - (* idle *) constructor; auto.
    + intros id. apply (So []); auto; [apply A|apply quiet_raised; auto].
    + apply (Nil []); auto. apply A.
    + eauto.
    + eapply NoR; eauto. intros x Hx; rewrite S; auto.
    + eapply NoM; eauto.
  - (* a first promise *) constructor; auto.
    + eapply Ks; eauto.
    + intros x. destruct (N.eqb_spec x id) as [->|D]; [|apply (So [EvPromise id req hs]); oth].
      pose proof (i4 id) as W. unfold stands in *. rewrite V in W. rewrite S, N.eqb_refl. destruct W as (W1 & W2 & W3). destruct A as [A _]. rewrite A, raised_app, filter_app, W1, W2. cbn.
      splits; auto. exists (EvPromise id req hs). rewrite A, in_app_iff. cbn. auto.
    + destruct A as [-> _]. apply ordered_app; auto. intros a e b x E F. destruct a as [|? [|]]; inversion E; subst; discriminate.
    + eauto.
    + eapply NoR; eauto. intros x Hx; rewrite S. destruct (N.eqb_spec x id); [congruence|auto].
    + eapply NoM; eauto. constructor; [congruence|constructor].
  - (* promised again *) constructor; auto.
    + intros x. destruct (N.eqb_spec x id) as [->|D]; [|apply (So [EvPromise id req hs]); oth].
      pose proof (i4 id) as W. unfold stands in *. rewrite S. destruct A as [A _].
      assert (Pr : promised c' id) by (exists (EvPromise id req hs); rewrite A, in_app_iff; cbn; auto).
      rewrite A, raised_app, filter_app. cbn. rewrite !app_nil_r. destruct V as [V|[sid V]]; rewrite V in *; tauto.
    + destruct A as [-> _]. apply ordered_app; auto. intros a e b x E F. destruct a as [|? [|]]; inversion E; subst; discriminate.
    + eauto.
    + eapply NoR; eauto. intros x Hx; rewrite S; auto.
    + eapply NoM; eauto. constructor; [destruct V as [V|[? V]]; congruence|constructor].
  - (* promised after its stream *)
    pose proof (i4 id) as W. unfold stands in W. rewrite V in W. destruct W as (W1 & W2 & W3 & W4).
    assert (Ab : forall x, x <> id -> Forall (fun e => about e <> x) (EvPromise id req hs :: evs)).
    { intros x D. constructor; [cbn; congruence|]. eapply Forall_impl; [|exact W4]. intros e He. destruct e; cbn in *; try discriminate; apply N.eqb_eq in He; congruence. }
    constructor; auto.
    + eapply Ks; eauto.
    + intros x. destruct (N.eqb_spec x id) as [->|D]; [|apply (So (EvPromise id req hs :: evs)); oth].
      unfold stands. rewrite S, N.eqb_refl. destruct A as [A _]. rewrite A, raised_app, filter_app, W2. cbn. rewrite app_nil_r, W1, (filter_all _ _ W4). split; [reflexivity|].
      exists (EvPromise id req hs). rewrite A, in_app_iff. cbn. auto.
    + destruct A as [-> _]. apply ordered_app; auto. intros a e b x E F. destruct a as [|p a]; [inversion E; subst; discriminate|]. injection E as <- E.
      exists (EvPromise id req hs). split; [apply in_app_iff; right; left; reflexivity|]. cbn. rewrite Forall_forall in W4. specialize (W4 e ltac:(rewrite E; apply in_app_iff; right; left; reflexivity)).
      destruct e; cbn in *; try discriminate; apply N.eqb_eq in F, W4; congruence.
    + eauto.
    + eapply NoR; eauto; [constructor; [exact Logic.I|]; eapply Forall_impl; [|exact W4]; intros [] Hx; cbn in *; auto; discriminate|]. intros x Hx; rewrite S. destruct (N.eqb_spec x id); [congruence|auto].
    + eapply NoM; eauto. constructor; [congruence|]; eapply Forall_impl; [|exact W4]; intros [] Hx; cbn in *; auto; discriminate.
  - (* a first stream *) constructor; auto.
    + eapply Ks; eauto.
    + intros x. destruct (N.eqb_spec x id) as [->|D]; [|apply (So []); oth].
      pose proof (i4 id) as W. unfold stands, promised in *. rewrite V in W. rewrite S, N.eqb_refl. destruct W as (W1 & W2 & W3). destruct A as [A _]. rewrite app_nil_r in A. rewrite A, raised_app, W1, W2. cbn. auto.
    + apply (Nil []); auto. apply A.
    + eauto.
    + eapply NoR; eauto. intros x Hx; rewrite S. destruct (N.eqb_spec x id); [congruence|auto].
    + eapply NoM; eauto.
  - (* a stream after the promise *) constructor; auto.
    + eapply Ks; eauto.
    + intros x. destruct (N.eqb_spec x id) as [->|D]; [|apply (So []); oth].
      pose proof (i4 id) as W. unfold stands, promised in *. rewrite V in W. rewrite S, N.eqb_refl. destruct W as (W1 & W2 & W3). destruct A as [A _]. rewrite app_nil_r in A. rewrite A, raised_app, W1, W2. cbn. auto.
    + apply (Nil []); auto. apply A.
    + eauto.
    + eapply NoR; eauto. intros x Hx; rewrite S. destruct (N.eqb_spec x id); [congruence|auto].
    + eapply NoM; eauto.
  - (* closed *)
    assert (Hs : forall x, x <> id -> view c' x = view c x) by (intros x D; rewrite S; destruct (N.eqb_spec x id); congruence).
    assert (Hi : view c' id = PClosed) by (rewrite S, N.eqb_refl; reflexivity).
    assert (AbP : Forall (fun e => about e = id /\ from_stream id e = false /\ ~ promise_of id e /\ forall x, ~ promise_of x e) P).
    { destruct C as [[-> _]|[[-> _]|[[->|[e ->]] _]]]; repeat constructor; cbn; auto. }
    assert (InE : forall e, In e E -> In e (c_events c)).
    { intros e He. destruct C as [[_ ->]|[[_ ->]|[_ ->]]]; auto; apply kept_in in He; tauto. }
    constructor.
    + intros x Hx. rewrite M2 in Hx. destruct (N.eqb_spec x id) as [->|D]; [|rewrite Hs; auto]. destruct L as [L|L]; [lia|]. elim L. rewrite <- V. auto.
    + rewrite M1, M2, M3. lia.
    + rewrite M2, M4. exact i3.
    + intros x. destruct (N.eqb_spec x id) as [->|D].
      * pose proof (i4 id) as W. unfold stands in *. rewrite Hi. rewrite A1, raised_app, (quiet_raised id o Q), app_nil_r, filter_app.
        assert (Ef : filter (from_stream id) P = []) by (apply filter_none; eapply Forall_impl; [|exact AbP]; cbn; tauto). rewrite Ef, app_nil_r.
        assert (Ep : promised c' id <-> promised c id).
        { unfold promised. rewrite A1. split; intros (e & I & p); [|exists e; rewrite in_app_iff; auto]. apply in_app_iff in I as [I|I]; [eauto|].
          rewrite Forall_forall in AbP. apply AbP in I. tauto. }
        rewrite !Ep. rewrite V in W. destruct v; try congruence; [right|left|right|left]; try tauto. destruct W as (W1 & W2 & W3). rewrite W1, W2. auto.
      * apply (So P); auto; [apply quiet_raised; auto|]. eapply Forall_impl; [|exact AbP]. cbn. intros a Ha. destruct Ha. congruence.
    + rewrite A1. apply ordered_app; auto. intros a e b x Eq F. rewrite Forall_forall in AbP. assert (I : In e P) by (rewrite Eq; apply in_app_iff; right; left; reflexivity). apply AbP in I.
      destruct I as (I1 & I2 & _). exfalso. destruct e; cbn in *; try discriminate; apply N.eqb_eq in F; apply N.eqb_neq in I2; congruence.
    + intros e He. rewrite A2 in He. rewrite A1. apply in_app_iff. apply in_app_iff in He as [He|He]; auto.
    + intros x e He. rewrite A1 in He. apply in_app_iff in He as [He|He].
      * destruct (N.eqb_spec x id) as [->|D]; [auto|]. rewrite Hs by auto. eauto.
      * rewrite Forall_forall in AbP. apply AbP in He as (He & _). cbn in He. congruence.
    + intros x e p He Hp Hq. rewrite A1 in He. rewrite A2 in Hp. apply in_app_iff in Hp as [Hp|Hp]; [|rewrite Forall_forall in AbP; apply AbP in Hp as (_ & _ & _ & Hp); exact (Hp _ Hq)].
      apply in_app_iff in He as [He|He]; [eapply i8; eauto|].
      destruct C as [[-> _]|[[-> _]|[_ ->]]]; [destruct He|destruct He|].
      apply kept_in in Hp as [_ Hp]. rewrite Forall_forall in AbP. apply AbP in He as (He & _). cbn in He. subst x. destruct p; cbn in *; try contradiction. subst. rewrite N.eqb_refl in Hp. discriminate.
  - (* forgotten *) constructor; auto.
    + intros x. apply (So []); auto. rewrite app_nil_r. auto.
    + apply (Nil []); auto. rewrite app_nil_r. auto.
    + intros e He. rewrite A2 in He. apply kept_in in He as [He _]. rewrite A1. auto.
    + intros x e He. rewrite A1 in He. rewrite S. eauto.
    + intros x e p He Hq. rewrite A1 in He. rewrite A2 in Hq. apply kept_in in Hq as [Hq _]. eauto.
  - (* more ids *)
    assert (Lt : c_cur c < c_cur c') by (rewrite M4; pose proof (N.div_lt (c_max c) 2 ltac:(lia) ltac:(lia)); lia).
    constructor; auto.
    + intros x Hx. rewrite S. apply i1. lia.
    + rewrite M1, M2, M4. lia.
    + destruct i3 as (T1 & T2 & _). rewrite M5, max_ids_app. cbn. split; [|split].
      * apply Forall_app. split; [eapply Forall_impl; [|exact T1]; cbn; intros; lia|constructor; [lia|constructor]].
      * apply sorted_snoc; auto. eapply Forall_impl; [|exact T1]. cbn. intros; lia.
      * right. eauto.
    + intros x. apply (So []); auto. apply A.
    + apply (Nil []); auto. apply A.
    + eauto.
    + eapply NoR; eauto. intros x Hx; rewrite S; auto.
    + eapply NoM; eauto.
  - (* held back *)
    assert (Re : raised id [o] = [e]) by (destruct Ho as [(hs & i & f & -> & ->)|[-> ->]]; cbn; rewrite N.eqb_refl; reflexivity).
    assert (Rx : forall x, x <> id -> raised x [o] = []) by (intros x D; destruct Ho as [(hs & i & f & -> & ->)|[-> ->]]; cbn; destruct (N.eqb_spec id x); congruence).
    constructor; auto.
    + eapply Ks; eauto. left. congruence.
    + intros x. destruct (N.eqb_spec x id) as [->|D]; [|apply (So []); oth].
      pose proof (i4 id) as W. unfold stands, promised in *. rewrite V in W. rewrite S, N.eqb_refl. destruct W as (W1 & W2 & W3 & W4). destruct A as [A _]. rewrite app_nil_r in A. rewrite A, raised_app, W1, W2, Re.
      splits; auto. apply Forall_app. auto.
    + apply (Nil []); auto. apply A.
    + eauto.
    + eapply NoR; eauto. intros x Hx; rewrite S. destruct (N.eqb_spec x id); [congruence|auto].
    + eapply NoM; eauto.
  - (* told *)
    assert (Re : raised id [o] = [e]) by (destruct Ho as [(hs' & i & f & -> & ->)|[-> ->]]; cbn; rewrite N.eqb_refl; reflexivity).
    assert (Rx : forall x, x <> id -> raised x [o] = []) by (intros x D; destruct Ho as [(hs' & i & f & -> & ->)|[-> ->]]; cbn; destruct (N.eqb_spec id x); congruence).
    assert (Ae : about e = id) by (destruct Ho as [(hs' & i & f & -> & ->)|[-> ->]]; reflexivity).
    pose proof (i4 id) as W. unfold stands in W. rewrite V in W. destruct W as (W1 & W2).
    constructor; auto.
    + intros x. destruct (N.eqb_spec x id) as [->|D]; [|apply (So [e]); oth].
      unfold stands. rewrite S, V. destruct A as [A _]. rewrite A, raised_app, filter_app, W1, Re. cbn. rewrite F. split; [reflexivity|].
      destruct W2 as (p & W2 & W3). exists p. rewrite A, in_app_iff. auto.
    + destruct A as [-> _]. apply ordered_app; auto. intros a y b x Eq Fy. destruct a as [|? [|]]; [|inversion Eq|inversion Eq]. injection Eq as <- _.
      assert (x = id) by (destruct e; cbn in *; try discriminate; apply N.eqb_eq in F, Fy; congruence). subst x.
      destruct W2 as (p & W2 & W3). exists p. rewrite app_nil_r. auto.
    + eauto.
    + eapply NoR; eauto; [constructor; [|constructor]; destruct e; cbn in *; auto; discriminate|]. intros x Hx; rewrite S; auto.
    + eapply NoM; eauto. constructor; [|constructor]; destruct e; cbn in *; auto; discriminate.
  - (* taken *) constructor; auto.
    + intros x. apply (So []); auto. rewrite app_nil_r. auto.
    + apply (Nil []); auto. rewrite app_nil_r. auto.
    + intros e He. rewrite A2 in He. rewrite A1. apply i6. destruct (c_events c); cbn in *; auto.
    + intros x e He. rewrite A1 in He. rewrite S. eauto.
    + intros x e p He Hp. rewrite A1 in He. rewrite A2 in Hp. eapply i8; eauto. destruct (c_events c); cbn in *; auto.
Qed.
Lemma run_inv os : forall c pre c', pinv c pre -> p_run c os = Some c' -> pinv c' (pre ++ os).
Proof.
  induction os as [|o os IH]; intros c pre c' I; cbn [p_run]; [intros H; injection H as <-; rewrite app_nil_r; auto|].
  destruct (p_step c o) as [[c1 r]|] eqn:E; [|discriminate]. intros H. apply step_tr in E. replace (pre ++ o :: os) with ((pre ++ [o]) ++ os) by (rewrite <- app_assoc; reflexivity).
  eapply IH; [|exact H]. eapply inv_step; eauto.
Qed.
Lemma run_new m os c : p_run (c_new m) os = Some c -> pinv c os.
Proof. intros H. apply (run_inv os (c_new m) [] c (inv_new m) H). Qed.
Lemma run_max os : forall c c', p_run c os = Some c' -> c_max c' = c_max c.
Proof.
  induction os as [|o os IH]; intros c c'; cbn [p_run]; [intros H; injection H as <-; auto|].
  destruct (p_step c o) as [[c1 r]|] eqn:E; [|discriminate]. intros H. apply step_tr in E. rewrite (IH _ _ H). clear H IH.
  destruct E; first [assumption|match goal with K : keeps _ _ |- _ => apply K end].
Qed.
(** Where a push has a stream or is closed, it stays so. *)
Definition had_stream (v : pst) : bool := match v with POnly _ _ | PActive _ _ | PClosed => true | _ => false end.
Lemma step_stays c o c' r id : tr c o c' r -> (had_stream (view c id) = true -> had_stream (view c' id) = true) /\ (view c id = PClosed -> view c' id = PClosed).
Proof.
  intros T. destruct T;
    first [match goal with S : same _ _ |- _ => rewrite (S id); tauto end
    |match goal with S : sets _ _ ?x _ |- _ => rewrite (S id); destruct (N.eqb_spec id x) as [->|]; [|tauto]; split; intros Hx; cbn; auto; match goal with V : view _ _ = _ |- _ => rewrite V in Hx; discriminate end end].
Qed.
Lemma run_stays os : forall c c' id, p_run c os = Some c' -> (had_stream (view c id) = true -> had_stream (view c' id) = true) /\ (view c id = PClosed -> view c' id = PClosed).
Proof.
  induction os as [|o os IH]; intros c c' id; cbn [p_run]; [intros H; injection H as <-; auto|].
  destruct (p_step c o) as [[c1 r]|] eqn:E; [|discriminate]. intros H. apply step_tr in E. destruct (IH _ _ id H) as [A B]. destruct (step_stays _ _ _ _ id E) as [C D]. auto.
Qed.
(** A closed push gets no more events. *)
Lemma step_closed c o c' r id : tr c o c' r -> view c id = PClosed -> (forall e, In e (c_events c) -> about e <> id) ->
  pinv c [] \/ True -> (forall sid evs x, view c x = POnly sid evs -> Forall (fun e => from_stream x e = true) evs) -> forall e, In e (c_events c') -> about e <> id.
Proof.
  intros T V N _ G e He. destruct T.
  all: try (match goal with A : adds _ _ _ |- _ => destruct A as [_ A]; rewrite A in He end; apply in_app_iff in He as [He|He]; [auto|]).
  all: try (destruct He as [<-|[]]; cbn; intros ->; destruct H1; congruence).
  - destruct He.
  - destruct He as [<-|[]]. cbn. congruence.
  - destruct He as [<-|[]]. cbn. destruct H1 as [H1|[? H1]]; congruence.
  - destruct He as [<-|He]; [cbn; congruence|]. pose proof (G _ _ _ H1) as F. rewrite Forall_forall in F. specialize (F _ He).
    destruct e; cbn in *; try discriminate; apply N.eqb_eq in F; congruence.
  - destruct He.
  - destruct He.
  - rewrite H8 in He. apply in_app_iff in He as [He|He].
    + apply N. destruct H9 as [[_ ->]|[[_ ->]|[_ ->]]]; auto; apply kept_in in He; tauto.
    + destruct H9 as [[-> _]|[[-> _]|[[->|[x ->]] _]]]; try destruct He as [<-|[]]; try destruct He; cbn; congruence.
  - rewrite H4 in He. apply kept_in in He as [He _]. auto.
  - destruct He.
  - destruct He.
  - destruct He as [<-|[]]. destruct H1 as [(a & b & f & _ & ->)|[_ ->]]; cbn; congruence.
  - rewrite H2 in He. apply N. destruct (c_events c); cbn in *; auto.
Qed.
