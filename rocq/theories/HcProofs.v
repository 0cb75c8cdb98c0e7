(** Proofs about control frames, SETTINGS and GOAWAY. *)
From Coq Require Import NArith List Bool Lia.
From Verif Require Import Base Lib HfModel HcModel HcSpec.
Import ListNotations.
Open Scope N_scope.

Lemma request_id_bits id : request_id id <-> is_uni id = false /\ is_server id = false.
Proof.
  unfold request_id, is_uni, is_server. rewrite N.bit0_odd. change 1 with (N.succ 0). rewrite N.testbit_succ_r_div2 by lia.
  rewrite N.bit0_odd. rewrite <- !N.negb_even, !negb_false_iff, !N.even_spec, N.div2_div. unfold N.Even.
  split.
  - intro H. pose proof (N.div_mod id 4 ltac:(lia)) as D. rewrite H in D. split.
    + exists (id / 4). rewrite D at 1. rewrite N.add_0_r. replace (4 * (id / 4)) with ((2 * (id / 4)) * 2) by lia. apply N.div_mul. lia.
    + exists (2 * (id / 4)). lia.
  - intros [[a A] [b B]]. rewrite B in A. rewrite N.mul_comm, N.div_mul in A by lia. subst b. rewrite B.
    replace (2 * (2 * a)) with (a * 4) by lia. apply N.mod_mul. lia.
Qed.

(** *** What closing streams leaves alone *)
Definition same (c c' : conn) : Prop := c_role c' = c_role c /\ c_settings c' = c_settings c /\ c_state c' = c_state c /\ c_local c' = c_local c.
Lemma same_refl c : same c c. Proof. unfold same; auto. Qed.
Lemma same_trans a b c : same a b -> same b c -> same a c. Proof. unfold same; intuition congruence. Qed.
Lemma remove_recv_same id c : same c (fst (remove_recv id c)).
Proof. unfold remove_recv, same. destruct (t_get id (c_recv c)) as [[]|]; try destruct (t_has id (c_send c)); cbn; auto. Qed.
Lemma remove_send_same id c : same c (fst (remove_send id c)).
Proof. unfold remove_send, same. destruct (t_get id (c_send c)) as [[]|]; try destruct (t_get id (c_recv c)) as [[]|]; cbn; auto. Qed.
Lemma close_send_same id code c : same c (close_send id code c).
Proof. unfold close_send. pose proof (remove_send_same id c) as S. destruct (remove_send id c) as [c' [k|]]; cbn in *; auto. Qed.
Lemma close_recv_same id code c : same c (fst (close_recv id code c)).
Proof. unfold close_recv. pose proof (remove_recv_same id c) as S. destruct (remove_recv id c) as [c' [[]|]]; cbn in *; auto. Qed.
Lemma stop_dropped_same code c id : same c (stop_dropped code c id).
Proof. unfold stop_dropped. destruct (send_critical id c); [apply same_refl | apply close_send_same]. Qed.
Lemma fold_same (f : conn -> N -> conn) : (forall c i, same c (f c i)) -> forall l c, same c (fold_left f l c).
Proof. intros H l. induction l as [|i l IH]; cbn; intro c; [apply same_refl|]. eapply same_trans; [apply H | apply IH]. Qed.
Lemma goaway_streams_same g c : same c (goaway_streams g c).
Proof.
  unfold goaway_streams. eapply same_trans; apply fold_same; intros; [apply stop_dropped_same | apply close_recv_same].
Qed.

(** *** The two passes over a batch *)
Inductive bfault (old : option settings) (pre : list (env * hframe)) : hframe -> cerr -> Prop :=
  | B_missing f : ~ had_settings pre -> (forall s, f <> FSettings s) -> bfault old pre f CMissingSettings
  | B_twice s : had_settings pre -> bfault old pre (FSettings s) CFrameUnexpected
  | B_settings s x : ~ had_settings pre -> settings_fault old s x -> bfault old pre (FSettings s) x
  | B_data n : had_settings pre -> bfault old pre (FData n) CFrameUnexpected
  | B_headers b : had_settings pre -> bfault old pre (FHeaders b) CFrameUnexpected
  | B_promise i b : had_settings pre -> bfault old pre (FPushPromise i b) CFrameUnexpected
  | B_grease : had_settings pre -> bfault old pre FGrease CFrameUnexpected.
Inductive rfault (r : role) (pre : list (env * hframe)) (e : env) : hframe -> cerr -> Prop :=
  | R_maxpush i : r = Client -> rfault r pre e (FMaxPushId i) CFrameUnexpected
  | R_prioreq i p : r = Client -> rfault r pre e (FPriorityRequest i p) CFrameUnexpected
  | R_priopush i p : r = Client -> rfault r pre e (FPriorityPush i p) CFrameUnexpected
  | R_goaway i : r = Server -> rfault r pre e (FGoaway i) CFrameUnexpected
  | R_cancel i : r = Server -> rfault r pre e (FCancelPush i) CFrameUnexpected
  | R_cancelid i : r = Client -> e_cancel e i = false -> rfault r pre e (FCancelPush i) CId
  | R_goawayid i : r = Client -> ~ request_id i -> rfault r pre e (FGoaway i) CId
  | R_goawayup i e' i' : r = Client -> request_id i -> In (e', FGoaway i') pre -> i' < i -> rfault r pre e (FGoaway i) CGoaway
  | R_prioid i p : r = Server -> ~ request_id i \/ e_allowed e i = false -> rfault r pre e (FPriorityRequest i p) CId.
Lemma fault_split r old pre e f x : fault r old pre e f x <-> bfault old pre f x \/ (had_settings pre /\ rfault r pre e f x).
Proof.
  split.
  - intro H. destruct H; try (left; econstructor; eassumption); right; split; auto; econstructor; eassumption.
  - intros [H|[S H]]; destruct H; econstructor; eassumption.
Qed.

Definition roley (f : hframe) : bool := match f with FGoaway _ | FMaxPushId _ | FCancelPush _ | FPriorityRequest _ _ | FPriorityPush _ _ => true | _ => false end.

Definition Iset (old : option settings) (h : list (env * hframe)) (s : rsettings) : Prop :=
  match s with
  | RReceived s => exists e, In (e, FSettings s) h
  | RZeroRtt o => old = Some o /\ qpack_ok o = true /\ ~ had_settings h
  | RNone => old = None /\ ~ had_settings h
  end.
Definition Igo (h : list (env * hframe)) (s : cstate) : Prop :=
  match s with
  | CGoingAway g => (exists e, In (e, FGoaway g) h) /\ forall e i, In (e, FGoaway i) h -> g <= i
  | CClosing => False
  | _ => forall e i, ~ In (e, FGoaway i) h
  end.

Lemma had_snoc h e f : had_settings (h ++ [(e, f)]) <-> had_settings h \/ exists s, f = FSettings s.
Proof.
  unfold had_settings. split.
  - intros (e' & s & H). apply in_app_or in H. destruct H as [H|[H|[]]]; [left; eauto | right; exists s; congruence].
  - intros [(e' & s & H)|[s ->]]; [exists e', s; apply in_or_app; auto | exists e, s; apply in_or_app; right; left; auto].
Qed.
Lemma Iset_snoc old h s e f : (forall s, f <> FSettings s) -> Iset old h s -> Iset old (h ++ [(e, f)]) s.
Proof.
  intros NF. destruct s; cbn.
  - intros [A B]. split; auto. rewrite had_snoc. intros [C|[s C]]; [auto | eapply NF; eauto].
  - intros (A & B & C). splits; auto. rewrite had_snoc. intros [D|[s' D]]; [auto | eapply NF; eauto].
  - intros [e' A]. exists e'. apply in_or_app; auto.
Qed.
Lemma Iset_had old h s : Iset old h s -> (had_settings h <-> exists x, s = RReceived x).
Proof.
  destruct s; cbn.
  - intros [_ A]. split; [tauto | intros [x B]; discriminate].
  - intros (_ & _ & A). split; [tauto | intros [x B]; discriminate].
  - intros [e A]. split; [eauto | intros _; exists e; eauto].
Qed.

Lemma compare_ok old new : forall ts ch b, compare old new ts ch = inr b ->
  (forall t, In t ts -> s_get old t <= s_get new t) /\ (In MaxTableCapacity ts -> s_get old MaxTableCapacity <> 0 -> s_get old MaxTableCapacity = s_get new MaxTableCapacity)
  /\ (b = false -> ch = false /\ forall t, In t ts -> t = MaxTableCapacity \/ t = BlockedStreams -> s_get old t = s_get new t).
Proof.
  induction ts as [|t r IH]; intros ch b H; cbn [compare] in H.
  - inversion H; subst. splits; [intros ? []| intros [] | intros ->; split; auto; intros ? []].
  - destruct (s_get old t =? s_get new t) eqn:E.
    + apply N.eqb_eq in E. destruct (IH _ _ H) as (A & B & C). splits.
      * intros t' [->|I]; [lia | auto].
      * intros [->|I]; [auto | auto].
      * intros F. destruct (C F) as [C1 C2]. split; auto. intros t' [->|I] K; [auto | auto].
    + apply N.eqb_neq in E. destruct (s_get new t <? s_get old t) eqn:L; [discriminate|]. apply N.ltb_ge in L.
      assert (T : (t = MaxTableCapacity /\ s_get old t = 0 /\ compare old new r true = inr b) \/ (t = BlockedStreams /\ compare old new r true = inr b)
        \/ (t <> MaxTableCapacity /\ t <> BlockedStreams /\ compare old new r ch = inr b)).
      { destruct t; try (right; right; split; [discriminate | split; [discriminate | exact H]]).
        - left. destruct (s_get old MaxTableCapacity =? 0) eqn:Z; cbn [negb] in H; [|discriminate]. apply N.eqb_eq in Z. auto.
        - right; left; auto. }
      destruct T as [(T1 & T2 & T3)|[[T1 T3]|(T1 & T2 & T3)]]; destruct (IH _ _ T3) as (A & B & C).
      * splits; [intros t' [<-|I]; [lia|auto] | intros _ N; subst t; congruence | intro F; destruct (C F); discriminate].
      * splits; [intros t' [<-|I]; [lia|auto] | intros [K|I]; [subst t; discriminate | auto] | intro F; destruct (C F); discriminate].
      * splits; [intros t' [<-|I]; [lia|auto] | intros [K|I]; [congruence | auto] |].
        intro F; destruct (C F) as [C1 C2]; split; auto; intros t' [<-|I] [K|K]; try congruence; auto.
Qed.
Lemma compare_err old new : forall ts ch x, compare old new ts ch = inl x ->
  (x = CSettings /\ exists t, In t ts /\ s_get new t < s_get old t) \/
  (x = CQpackDecoder /\ s_get old MaxTableCapacity <> 0 /\ s_get old MaxTableCapacity < s_get new MaxTableCapacity).
Proof.
  induction ts as [|t r IH]; intros ch x H; cbn [compare] in H; [discriminate|].
  assert (G : forall ch', compare old new r ch' = inl x -> (x = CSettings /\ exists t', In t' (t :: r) /\ s_get new t' < s_get old t') \/
    (x = CQpackDecoder /\ s_get old MaxTableCapacity <> 0 /\ s_get old MaxTableCapacity < s_get new MaxTableCapacity)).
  { intros ch' K. destruct (IH _ _ K) as [[A [t' [B C]]]|A]; [left; split; auto; exists t'; split; auto; right; auto | right; auto]. }
  destruct (s_get old t =? s_get new t) eqn:E; [eauto|]. apply N.eqb_neq in E.
  destruct (s_get new t <? s_get old t) eqn:L.
  - inversion H; subst. apply N.ltb_lt in L. left. split; auto. exists t. split; [left|]; auto.
  - apply N.ltb_ge in L. destruct t; try (eapply G; eassumption).
    destruct (s_get old MaxTableCapacity =? 0) eqn:Z; cbn [negb] in H; [eauto|]. apply N.eqb_neq in Z. inversion H; subst. right. splits; auto. lia.
Qed.
Lemma compared t : In t COMPARED <-> t <> EnableConnect.
Proof. unfold COMPARED. destruct t; cbn; split; try tauto; try discriminate; intuition discriminate. Qed.
Lemma qpack_ok_spec s : qpack_ok s = true <-> s_get s MaxTableCapacity < 2 ^ 30 /\ s_get s BlockedStreams < 2 ^ 16.
Proof. unfold qpack_ok. rewrite andb_true_iff, !N.ltb_lt. tauto. Qed.
Lemma qpack_bad_spec s : qpack_ok s = false -> 2 ^ 30 <= s_get s MaxTableCapacity \/ 2 ^ 16 <= s_get s BlockedStreams.
Proof. unfold qpack_ok. rewrite andb_false_iff, !N.ltb_ge. tauto. Qed.

Lemma settings_step old h c s : Iset old h (c_settings c) ->
  match handle_settings c s with
  | ROk c' => c' = with_settings (RReceived s) c /\ ~ had_settings h /\ forall x, ~ settings_fault old s x
  | RErr x => (had_settings h /\ x = CFrameUnexpected) \/ (~ had_settings h /\ settings_fault old s x)
  | RPanic => False
  end.
Proof.
  intros I. unfold handle_settings. destruct (c_settings c) as [|o|o] eqn:E; cbn in I.
  - destruct I as [-> NH]. destruct (qpack_ok s) eqn:Q.
    + splits; auto. intros x F. apply qpack_ok_spec in Q. destruct F; try discriminate. lia.
    + right. split; auto. apply SF_limit. apply qpack_bad_spec; auto.
  - destruct I as (-> & QO & NH). destruct (compare o s COMPARED false) as [x|ch] eqn:CM.
    + right. split; auto. destruct (compare_err _ _ _ _ _ CM) as [(-> & t & T & L)|(-> & A & B)].
      * eapply SF_less; eauto. apply compared; auto.
      * eapply SF_table; eauto.
    + destruct (ch && negb (qpack_ok s)) eqn:K.
      * right. split; auto. apply andb_true_iff in K. destruct K as [_ K]. apply negb_true_iff in K. apply SF_limit, qpack_bad_spec; auto.
      * destruct (compare_ok _ _ _ _ _ CM) as (A & B & C). splits; auto. intros x F. destruct F as [o' t EO NT L|o' EO NZ L|LM].
        -- inversion EO; subst o'. specialize (A t (proj2 (compared t) NT)). lia.
        -- inversion EO; subst o'. rewrite B in L; [lia | cbn; auto | auto].
        -- apply qpack_ok_spec in QO. destruct (qpack_ok s) eqn:Q; [apply qpack_ok_spec in Q; lia|].
           rewrite andb_true_r in K. destruct (C K) as [_ D].
           pose proof (D MaxTableCapacity ltac:(cbn; auto) ltac:(auto)). pose proof (D BlockedStreams ltac:(cbn; auto) ltac:(auto)). lia.
  - left. split; auto. destruct I as [e I]. exists e, o. auto.
Qed.

Lemma control_step old h c f e : Iset old h (c_settings c) ->
  match handle_control_frame c f with
  | ROk (c', o) => (exists s, c' = with_settings s c) /\ Iset old (h ++ [(e, f)]) (c_settings c') /\ o = (if roley f then Some f else None) /\ forall x, ~ bfault old h f x
  | RErr x => bfault old h f x
  | RPanic => False
  end.
Proof.
  intros I. pose proof (Iset_had _ _ _ I) as HH.
  assert (ID : exists s, c = with_settings s c) by (exists (c_settings c); destruct c; reflexivity).
  destruct f as [n|b|i|s|i b|i|i| |i p|i p]; cbn [handle_control_frame roley].
  4:{ pose proof (settings_step old h c s I) as S. destruct (handle_settings c s) as [c'|x|]; auto.
      - destruct S as (-> & NH & NF). splits.
        + eauto.
        + cbn. exists e. apply in_or_app; right; left; auto.
        + auto.
        + intros x F. inversion F as [? A B|? A|? ? A B| | | |]; subst; [eapply B; eauto | tauto | eapply NF; eauto].
      - destruct S as [[A ->]|[A B]]; [apply B_twice; auto | apply B_settings; auto]. }
  all: destruct (c_settings c) as [|o|o] eqn:E;
    [ apply B_missing; [rewrite HH; intros [x X]; discriminate | discriminate]
    | apply B_missing; [rewrite HH; intros [x X]; discriminate | discriminate] | ].
  all: assert (HS : had_settings h) by (apply HH; eauto).
  all: try (constructor; exact HS).
  all: splits; auto; [rewrite E; apply Iset_snoc; [discriminate | exact I] | intros x F; inversion F; subst; tauto].
Qed.

Lemma with_settings_twice a b c : with_settings a (with_settings b c) = with_settings a c. Proof. reflexivity. Qed.

Lemma base_step old e : forall fs h c, Iset old h (c_settings c) ->
  match base_frames c fs with
  | ROk (c', rest) => (exists s, c' = with_settings s c) /\ Iset old (h ++ map (pair e) fs) (c_settings c') /\ rest = filter roley fs
      /\ forall pre f post x, fs = pre ++ f :: post -> ~ bfault old (h ++ map (pair e) pre) f x
  | RErr x => exists pre f post, fs = pre ++ f :: post /\ bfault old (h ++ map (pair e) pre) f x
  | RPanic => False
  end.
Proof.
  induction fs as [|f r IH]; intros h c I; cbn [base_frames].
  - splits.
    + exists (c_settings c); destruct c; reflexivity.
    + cbn. rewrite app_nil_r. exact I.
    + reflexivity.
    + intros pre f post x K. destruct pre; discriminate.
  - pose proof (control_step old h c f e I) as S. destruct (handle_control_frame c f) as [[c1 o]|x|]; auto.
    + destruct S as ((s1 & C1) & I1 & O & NB). specialize (IH _ _ I1). destruct (base_frames c1 r) as [[c2 rest]|x|]; auto.
      * destruct IH as ((s2 & C2) & I2 & R & NB2). splits.
        -- exists s2. rewrite C2, C1. reflexivity.
        -- rewrite <- app_assoc in I2. exact I2.
        -- rewrite O, R. cbn [filter]. destruct (roley f); reflexivity.
        -- intros pre f' post x K. destruct pre as [|p pre].
           ++ cbn in K. inversion K; subst. cbn. rewrite app_nil_r. apply NB.
           ++ cbn in K. inversion K as [[K1 K2]]; subst p r. specialize (NB2 pre f' post x eq_refl).
              cbn [map]. rewrite <- app_assoc in NB2. exact NB2.
      * destruct IH as (pre & f' & post & -> & B). exists (f :: pre), f', post. split; auto. cbn [map]. rewrite <- app_assoc in B. exact B.
    + exists [], f, r. cbn. rewrite app_nil_r. auto.
Qed.

Lemma bits_ok i : is_uni i || is_server i = false <-> request_id i.
Proof. rewrite request_id_bits, orb_false_iff. tauto. Qed.
Lemma bits_bad i : is_uni i || is_server i = true <-> ~ request_id i.
Proof. rewrite <- bits_ok. destruct (is_uni i || is_server i); split; intro; congruence. Qed.

Lemma Igo_snoc_other h s e f : (forall i, f <> FGoaway i) -> Igo h s -> Igo (h ++ [(e, f)]) s.
Proof.
  intros NF. assert (K : forall e' i, In (e', FGoaway i) (h ++ [(e, f)]) -> In (e', FGoaway i) h).
  { intros e' i H. apply in_app_or in H. destruct H as [H|[H|[]]]; auto. inversion H. exfalso. eapply NF; eauto. }
  destruct s; cbn; auto; try (intros H e' i X; eapply H; eauto).
  intros [[e' A] B]. split; [exists e'; apply in_or_app; auto | intros; eapply B; eauto].
Qed.

Definition live (s : cstate) : Prop := s = CConnected \/ exists g, s = CGoingAway g.

Lemma role_step h c f e : Igo h (c_state c) ->
  match role_frame e c f with
  | ROk c' => c_role c' = c_role c /\ c_settings c' = c_settings c /\ Igo (h ++ [(e, f)]) (c_state c') /\ (live (c_state c) -> live (c_state c')) /\ forall x, ~ rfault (c_role c) h e f x
  | RErr x => rfault (c_role c) h e f x
  | RPanic => roley f = false \/ ~ live (c_state c)
  end.
Proof.
  intros I. unfold role_frame. destruct (c_role c) eqn:R; destruct f as [n|b|i|s|i b|i|i| |i p|i p]; auto.
  - destruct (e_cancel e i) eqn:E.
    + splits; auto. * apply Igo_snoc_other; [discriminate | auto]. * intros x F. inversion F; subst; congruence.
    + apply R_cancelid; auto.
  - unfold handle_goaway. destruct (is_uni i || is_server i) eqn:BT; [apply R_goawayid; [auto | apply bits_bad; auto]|]. apply bits_ok in BT.
    assert (G : forall c0 st', st' = CGoingAway i -> c_role c0 = c_role c -> c_settings c0 = c_settings c -> c_state c0 = st' ->
      (forall e' i', In (e', FGoaway i') h -> i <= i') ->
      c_role (goaway_streams i c0) = Client /\ c_settings (goaway_streams i c0) = c_settings c /\ Igo (h ++ [(e, FGoaway i)]) (c_state (goaway_streams i c0)) /\
      (live (c_state c) -> live (c_state (goaway_streams i c0))) /\ (forall x, ~ rfault Client h e (FGoaway i) x)).
    { intros c0 st' -> RC SC STC MIN. destruct (goaway_streams_same i c0) as (A & B & C & D). rewrite A, B, C, STC. splits.
      - congruence.
      - congruence.
      - cbn. split; [exists e; apply in_or_app; right; left; auto|]. intros e' i' H. apply in_app_or in H.
        destruct H as [H|[H|[]]]; [eauto | inversion H; lia].
      - intros _. right. eauto.
      - intros x F. inversion F; subst; try congruence; try tauto. match goal with H : In _ h |- _ => apply MIN in H end. lia. }
    destruct (c_state c) as [| | |g|] eqn:ST; cbn in I.
    + right. intros [K|[g K]]; discriminate.
    + right. intros [K|[g K]]; discriminate.
    + eapply (G (with_state (CGoingAway i) c) _ eq_refl); auto. intros e' i' H. exfalso. eapply I; eauto.
    + destruct I as [[e' A] B]. destruct (g <? i) eqn:L.
      * apply N.ltb_lt in L. eapply R_goawayup; eauto.
      * apply N.ltb_ge in L. eapply (G (with_state (CGoingAway i) c) _ eq_refl); auto. intros e'' i' H. apply B in H. lia.
    + destruct I.
  - apply R_maxpush; auto.
  - apply R_prioreq; auto.
  - apply R_priopush; auto.
  - apply R_cancel; auto.
  - apply R_goaway; auto.
  - splits; auto. + apply Igo_snoc_other; [discriminate | auto]. + intros x F. inversion F; subst; congruence.
  - destruct (is_uni i || is_server i || negb (e_allowed e i)) eqn:B.
    + apply R_prioid; auto. apply orb_true_iff in B. destruct B as [B|B]; [left; apply bits_bad; auto | right; apply negb_true_iff; auto].
    + apply orb_false_iff in B. destruct B as [B1 B2]. apply bits_ok in B1. apply negb_false_iff in B2. splits; auto.
      * apply Igo_snoc_other; [discriminate | auto].
      * intros x F. inversion F; subst; intuition congruence.
  - splits; auto. + apply Igo_snoc_other; [discriminate | auto]. + intros x F. inversion F; subst; congruence.
Qed.

Lemma rfault_roley r h e f x : rfault r h e f x -> roley f = true.
Proof. destruct 1; reflexivity. Qed.
Lemma not_roley_goaway f : roley f = false -> forall i, f <> FGoaway i.
Proof. intros H i ->. discriminate. Qed.

Lemma roles_step e : forall fs h c, Igo h (c_state c) ->
  match role_frames e c (filter roley fs) with
  | ROk c' => c_role c' = c_role c /\ c_settings c' = c_settings c /\ Igo (h ++ map (pair e) fs) (c_state c') /\ (live (c_state c) -> live (c_state c'))
      /\ forall pre f post x, fs = pre ++ f :: post -> ~ rfault (c_role c) (h ++ map (pair e) pre) e f x
  | RErr x => exists pre f post, fs = pre ++ f :: post /\ rfault (c_role c) (h ++ map (pair e) pre) e f x
  | RPanic => ~ live (c_state c)
  end.
Proof.
  induction fs as [|f r IH]; intros h c I; cbn [filter role_frames].
  - cbn. rewrite app_nil_r. splits; auto. intros pre f post x K. destruct pre; discriminate.
  - assert (TAIL : forall c1, c_role c1 = c_role c -> c_settings c1 = c_settings c -> Igo (h ++ [(e, f)]) (c_state c1) -> (live (c_state c) -> live (c_state c1)) ->
      (forall x, ~ rfault (c_role c) h e f x) ->
      match role_frames e c1 (filter roley r) with
      | ROk c' => c_role c' = c_role c /\ c_settings c' = c_settings c /\ Igo (h ++ map (pair e) (f :: r)) (c_state c') /\ (live (c_state c) -> live (c_state c'))
          /\ forall pre f' post x, f :: r = pre ++ f' :: post -> ~ rfault (c_role c) (h ++ map (pair e) pre) e f' x
      | RErr x => exists pre f' post, f :: r = pre ++ f' :: post /\ rfault (c_role c) (h ++ map (pair e) pre) e f' x
      | RPanic => ~ live (c_state c)
      end).
    { intros c1 RC SC I1 L1 NF. specialize (IH _ _ I1). destruct (role_frames e c1 (filter roley r)) as [c2|x|].
      - destruct IH as (A & B & C & D & E). splits.
        + congruence.
        + congruence.
        + rewrite <- app_assoc in C. exact C.
        + auto.
        + intros pre f' post x K. destruct pre as [|p pre]; cbn in K.
          * inversion K; subst. cbn. rewrite app_nil_r. apply NF.
          * inversion K as [[K1 K2]]; subst p r. specialize (E pre f' post x eq_refl). rewrite RC, <- app_assoc in E. exact E.
      - destruct IH as (pre & f' & post & -> & E). exists (f :: pre), f', post. split; auto. rewrite RC, <- app_assoc in E. exact E.
      - tauto. }
    destruct (roley f) eqn:RF.
    + cbn [role_frames]. pose proof (role_step h c f e I) as S. destruct (role_frame e c f) as [c1|x|].
      * destruct S as (A & B & C & D & E). apply TAIL; auto.
      * exists [], f, r. cbn. rewrite app_nil_r. auto.
      * destruct S as [S|S]; [congruence | auto].
    + apply TAIL; auto.
      * apply Igo_snoc_other; [apply not_roley_goaway; auto | auto].
      * intros x F. apply rfault_roley in F. congruence.
Qed.

(** *** Runs *)
Definition legal (r : role) (old : option settings) (h : list (env * hframe)) : Prop :=
  forall pre e f post x, h = pre ++ (e, f) :: post -> ~ fault r old pre e f x.
Definition Inv r old h c : Prop := c_role c = r /\ Iset old h (c_settings c) /\ Igo h (c_state c) /\ legal r old h.

Lemma map_split {A B} (g : A -> B) : forall l pre y post, map g l = pre ++ y :: post -> exists p x q, l = p ++ x :: q /\ map g p = pre /\ g x = y.
Proof.
  induction l as [|a l IH]; intros pre y post H; [destruct pre; discriminate|]. destruct pre as [|b pre]; cbn in H.
  - inversion H. exists [], a, l. auto.
  - inversion H as [[H1 H2]]. destruct (IH _ _ _ H2) as (p & x & q & -> & <- & <-). exists (a :: p), x, q. auto.
Qed.
Lemma app_split {A} : forall (l1 l2 pre : list A) y post, l1 ++ l2 = pre ++ y :: post ->
  (exists q, l1 = pre ++ y :: q) \/ (exists p q, l2 = p ++ y :: q /\ pre = l1 ++ p).
Proof.
  induction l1 as [|a l1 IH]; intros l2 pre y post H; cbn in H.
  - right. exists pre, post. auto.
  - destruct pre as [|b pre]; cbn in H.
    + inversion H. left. exists l1. auto.
    + inversion H as [[H1 H2]]. destruct (IH _ _ _ _ H2) as [[q ->]|(p & q & -> & ->)]; [left; exists q; auto | right; exists p, q; auto].
Qed.

Lemma frames_step r old h c e fs : Inv r old h c ->
  match base_frames c fs with
  | ROk (c', rest) =>
      match role_frames e c' rest with
      | ROk c'' => Inv r old (h ++ map (pair e) fs) c''
      | RErr x => exists pre f post, map (pair e) fs = pre ++ (e, f) :: post /\ fault r old (h ++ pre) e f x
      | RPanic => ~ live (c_state c)
      end
  | RErr x => exists pre f post, map (pair e) fs = pre ++ (e, f) :: post /\ fault r old (h ++ pre) e f x
  | RPanic => False
  end.
Proof.
  intros (RC & IS & IG & LG). pose proof (base_step old e fs h c IS) as B. destruct (base_frames c fs) as [[c1 rest]|x|]; auto.
  - destruct B as ((s1 & C1) & I1 & -> & NB).
    assert (IG1 : Igo h (c_state c1)) by (rewrite C1; exact IG). assert (RC1 : c_role c1 = r) by (rewrite C1; exact RC).
    assert (HS : forall pre f post, fs = pre ++ f :: post -> roley f = true -> had_settings (h ++ map (pair e) pre)).
    { intros pre f post K RF. pose proof (NB pre f post CMissingSettings K) as N1.
      assert (D : had_settings (h ++ map (pair e) pre) \/ ~ had_settings (h ++ map (pair e) pre)).
      { generalize (h ++ map (pair e) pre). clear. intro l. induction l as [|[e' f] l IH].
        - right. intros (a & b & []).
        - destruct IH as [(a & s & IH)|IH]; [left; exists a, s; right; auto|].
          destruct f; try (right; intros (a' & s' & [X|X]); [discriminate | apply IH; exists a', s'; auto]). left. exists e', s. left; auto. }
      destruct D as [D|D]; auto. exfalso. apply N1. apply B_missing; auto. intros s ->. discriminate. }
    pose proof (roles_step e fs h c1 IG1) as R. destruct (role_frames e c1 (filter roley fs)) as [c2|x|].
    + destruct R as (A & B & C & D & E). unfold Inv. splits.
      * congruence.
      * rewrite B. exact I1.
      * exact C.
      * intros pre e' f post x K F. apply app_split in K. destruct K as [[q K]|(p & q & K & ->)].
        -- eapply LG; eauto.
        -- apply map_split in K. destruct K as (p' & f' & q' & K & <- & K2). inversion K2; subst e' f'. apply fault_split in F.
           destruct F as [F|[_ F]]; [eapply NB; eauto | rewrite RC1 in E; eapply E; eauto].
    + destruct R as (pre & f & post & K & F). exists (map (pair e) pre), f, (map (pair e) post). split; [rewrite K, map_app; reflexivity|].
      apply fault_split. right. split; [eapply HS; [exact K | eapply rfault_roley; exact F] | rewrite RC1 in F; exact F].
    + intro L. apply R. rewrite C1. exact L.
  - destruct B as (pre & f & post & K & F). exists (map (pair e) pre), f, (map (pair e) post). split; [rewrite K, map_app; reflexivity|].
    apply fault_split. left. exact F.
Qed.

Lemma inv_same r old h c c' : same c c' -> Inv r old h c -> Inv r old h c'.
Proof. intros (A & B & C & D) (E & F & G & H). unfold Inv. rewrite A, B, C. auto. Qed.

Lemma step_inv r old h c o : Inv r old h c ->
  let (x, c') := step c o in final x = false -> Inv r old (h ++ heard_one (o, x)) c'.
Proof.
  intros I. assert (S0 : forall c', same c c' -> Inv r old (h ++ []) c') by (intros c' S; rewrite app_nil_r; eapply inv_same; eauto).
  destruct o as [id|id t|id e fs|id x|id|id code|id code| |id ss|id code|id code]; cbn [step].
  - intros _. apply S0. repeat split.
  - destruct (t_get id (c_recv c)) as [[]|]; try (intros _; apply S0; apply same_refl).
    destruct t; cbn [new_stream]; unfold new_critical;
      try (destruct (exists_kind _ _); intro F; [discriminate F | apply S0; repeat split]).
    + destruct (c_role _); intro F; [discriminate F | apply S0; repeat split].
    + destruct (c_role _); intro F; [apply S0; repeat split | discriminate F].
    + destruct (t_get s _) as [[]|]; try destruct (is_uni id); intro F; apply S0; repeat split.
    + intro F; apply S0; repeat split.
  - destruct (t_get id (c_recv c)) as [[]|]; try (intros _; apply S0; apply same_refl).
    pose proof (frames_step r old h c e fs I) as S. destruct (base_frames c fs) as [[c1 rest]|y|]; try (intro F; discriminate F).
    destruct (role_frames e c1 rest) as [c2|y|]; try (intro F; discriminate F). intros _. exact S.
  - destruct (recv_critical id c); intro F; [discriminate F | apply S0, same_refl].
  - destruct (recv_critical id c); intros _; apply S0; [apply same_refl | apply remove_recv_same].
  - pose proof (close_recv_same id code c) as S. destruct (close_recv id code c) as [c' b]. destruct b; intro F; [apply S0; exact S | discriminate F].
  - destruct (send_critical id c); intro F; [discriminate F | apply S0, close_send_same].
  - destruct (c_state c) eqn:ST; intro F; try discriminate F; destruct I as (A & B & C & D); cbn [heard_one]; rewrite app_nil_r; unfold Inv; splits; auto; rewrite ST in C; exact C.
  - destruct (c_state c) eqn:ST; intros _; apply S0; repeat split.
  - destruct (send_critical id c); intros _; apply S0; [apply same_refl | apply close_send_same].
  - destruct (recv_critical id c); intros _; apply S0; [apply same_refl | apply close_recv_same].
Qed.

Lemma run_inv r old : forall ops h c t c', Inv r old h c -> run c ops = (t, c') -> clean t -> Inv r old (h ++ heard t) c'.
Proof.
  induction ops as [|o ops IH]; intros h c t c' I R CL; cbn [run] in R.
  - inversion R; subst. cbn. rewrite app_nil_r. exact I.
  - pose proof (step_inv r old h c o I) as S. destruct (step c o) as [x c1]. destruct (final x) eqn:F.
    + inversion R; subst. specialize (CL o x (or_introl eq_refl)). congruence.
    + destruct (run c1 ops) as [t2 c2] eqn:R2. inversion R; subst. specialize (S eq_refl).
      replace (h ++ heard ((o, x) :: t2)) with ((h ++ heard_one (o, x)) ++ heard t2) by (unfold heard; cbn [flat_map]; rewrite app_assoc; reflexivity).
      eapply IH; eauto. intros o' x' H. apply (CL o' x'). right; auto.
Qed.

Lemma init_inv r old local c : init r old local = Some c -> Inv r old [] c.
Proof.
  unfold init. destruct old as [s|].
  - destruct (qpack_ok s) eqn:Q; [|discriminate]. intro H. inversion H; subst. unfold Inv. splits; cbn.
    + reflexivity.
    + splits; auto. intros (e & s' & []).
    + intros e i [].
    + intros pre e f post x K. destruct pre; discriminate.
  - intro H. inversion H; subst. unfold Inv. splits; cbn; auto. + split; auto. intros (e & s' & []). + intros pre e f post x K. destruct pre; discriminate.
Qed.

Lemma run_snoc : forall ops c t c', run c ops = (t, c') -> forall t0 o x, t = t0 ++ [(o, x)] -> final x = true ->
  exists ops0 c0, run c ops0 = (t0, c0) /\ clean t0 /\ step c0 o = (x, c').
Proof.
  induction ops as [|o1 ops IH]; intros c t c' R t0 o x E F; cbn [run] in R.
  - inversion R; subst. destruct t0; discriminate.
  - destruct (step c o1) as [x1 c1] eqn:S. destruct (final x1) eqn:F1.
    + inversion R; subst. destruct t0 as [|? [|? ?]]; try discriminate. inversion H0; subst. exists [], c. cbn. splits; auto. intros ? ? [].
    + destruct (run c1 ops) as [t2 c2] eqn:R2. inversion R; subst. destruct t0 as [|p t0]; cbn in H0.
      * inversion H0; subst. congruence.
      * inversion H0 as [[H1 H2]]. destruct (IH _ _ _ R2 t0 o x H2 F) as (ops0 & c0 & A & B & D). exists (o1 :: ops0), c0. splits; auto.
        -- cbn [run]. rewrite S, F1, A. reflexivity.
        -- intros o' x' [K|K]; [inversion K; subst; auto | eauto].
Qed.
