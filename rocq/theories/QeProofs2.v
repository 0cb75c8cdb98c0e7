From Verif Require Import Base Lib QpTables QiModel QiSpec QiProofs QiProofs2 QbModel QbSpec QbProofs QbProofs2 QeModel QeProofs.
From Coq Require Import Permutation.
Open Scope N_scope.
Open Scope list_scope.
Import ListNotations.

Ltac dev V := destruct V as [ev_t0 ev_base0 ev_refs0 ev_nd0 ev_ne0 ev_keys0 ev_lists0 ev_old0 ev_acked0 ev_cnt0 ev_cntb0 ev_maxb0 ev_ent0 ev_cap0 ev_next0 ev_reader0].
(** *** Looking up *)
Lemma leqb_eq : forall a b, leqb a b = true <-> a = b.
Proof.
  induction a as [|x a IH]; destruct b as [|y b]; cbn [leqb]; split; intros H; try discriminate; auto.
  - apply andb_prop in H. destruct H as (H1 & H2). apply N.eqb_eq in H1. apply IH in H2. congruence.
  - injection H as -> ->. rewrite N.eqb_refl. apply IH. auto.
Qed.
Lemma static_scan_spec : forall l k name value nm i m, (forall j, nth_error STATIC (N.to_nat k + j) = nth_error l j) -> (forall j, nm = Some j -> exists v, nth_error STATIC (N.to_nat j) = Some (name, v)) ->
  static_scan l k name value nm = Some (i, m) -> exists v, nth_error STATIC (N.to_nat i) = Some (name, v) /\ (m = true -> v = value).
Proof.
  induction l as [|(n, v) l IH]; intros k name value nm i m HL HN E; cbn [static_scan] in E.
  - destruct nm as [j|]; [|discriminate]. injection E as <- <-. destruct (HN j eq_refl) as (v & V). exists v. split; auto. discriminate.
  - assert (H0 : nth_error STATIC (N.to_nat k) = Some (n, v)) by (rewrite <- (Nat.add_0_r (N.to_nat k)), HL; auto).
    assert (HL' : forall j, nth_error STATIC (N.to_nat (k + 1) + j) = nth_error l j) by (intros j; replace (N.to_nat (k + 1) + j)%nat with (N.to_nat k + S j)%nat by lia; rewrite HL; auto).
    destruct (leqb n name) eqn:L1.
    + apply leqb_eq in L1. subst n. destruct (leqb v value) eqn:L2.
      * apply leqb_eq in L2. injection E as <- <-. exists v. auto.
      * refine (IH (k + 1) name value _ i m HL' _ E). intros j J. destruct nm as [j'|]; apply some_inj in J; subst j; eauto.
    + exact (IH (k + 1) name value nm i m HL' HN E).
Qed.
Lemma static_len : forall i e, nth_error STATIC (N.to_nat i) = Some e -> i < 2 ^ 63.
Proof. intros i e H. assert (N.to_nat i < length STATIC)%nat by (apply nth_error_Some; congruence). change (length STATIC) with 99%nat in H0. change (2 ^ 63) with 9223372036854775808. lia. Qed.
Lemma static_lookup_eq : forall name value, static_lookup name value = static_scan STATIC 0 name value None. Proof. reflexivity. Qed.
Lemma static_lookup_spec : forall name value i m, static_lookup name value = Some (i, m) -> exists v, nth_error STATIC (N.to_nat i) = Some (name, v) /\ (m = true -> v = value) /\ i < 2 ^ 63.
Proof.
  intros name value i m E. rewrite static_lookup_eq in E. assert (HL : forall j, nth_error STATIC (N.to_nat 0 + j) = nth_error STATIC j) by (intros j; f_equal). generalize dependent (static_scan_spec STATIC 0 name value None i m HL). intros Q. specialize (Q ltac:(discriminate) E). rename Q into E0. clear E. rename E0 into E. destruct E as (v & A & B). exists v. splits; auto. eapply static_len; eauto.
Qed.
Global Opaque static_lookup STATIC.
(** What a lookup finds. *)
Definition found_ok (H : list header) (t : table) (name value : list N) (cb : bool) (r : found) : Prop :=
  if f_static r then exists v, nth_error STATIC (N.to_nat (f_index r)) = Some (name, v) /\ (f_match r = true -> v = value) /\ f_index r < 2 ^ 63
  else exists v, nth_error H (N.to_nat (f_index r)) = Some (name, v) /\ (f_match r = true -> v = value) /\ pres t (f_index r) /\ (cb = false -> f_index r < t_acked t).
Lemma dyn_scan_spec : forall H t name value cb l nm r, win H (t_base t) (t_dyn t) -> (forall e, In e l -> In e (t_dyn t)) -> (forall j, nm = Some j -> found_ok H t name value cb j) ->
  dyn_scan l (t_acked t) name value cb nm = Some r -> found_ok H t name value cb r.
Proof.
  intros H t name value cb. induction l as [|e l IH]; intros nm r W HI HN E; cbn [dyn_scan] in E; auto.
  assert (HI' : forall e, In e l -> In e (t_dyn t)) by (intros x X; apply HI; right; auto).
  destruct (negb cb && (t_acked t <=? x_base e)) eqn:SK; [eapply IH; eauto|].
  assert (FE : leqb (x_name e) name = true -> forall m, (m = true -> x_value e = value) -> found_ok H t name value cb (mkFd (x_base e) false m)).
  { intros L m M. apply leqb_eq in L. unfold found_ok. cbn [f_static f_index f_match]. pose proof (HI e ltac:(left; auto)) as IE. exists (x_value e).
    pose proof (win_in _ _ _ _ W IE) as B. destruct (get_abs_good H t (x_base e) W) as (e2 & _ & I2 & B2 & N2); [unfold pres, oldest; lia|]. rewrite (win_inj _ _ _ e2 e W I2 IE B2) in N2. rewrite L in N2. splits; auto.
    all: try (unfold pres, oldest; lia). all: intros ->; cbn [negb andb] in SK; apply N.leb_gt in SK; auto. }
  destruct (leqb (x_name e) name) eqn:L1; [|eapply IH; eauto]. destruct (leqb (x_value e) value) eqn:L2.
  - apply some_inj in E. subst r. apply FE; auto. intros _. apply leqb_eq. auto.
  - refine (IH _ r W HI' _ E). intros j J. destruct nm as [j'|]; apply some_inj in J; subst j; auto. apply FE; auto. discriminate.
Qed.
Lemma lookup_spec : forall H t name value cb r, win H (t_base t) (t_dyn t) -> lookup t name value cb = Some r -> found_ok H t name value cb r.
Proof.
  intros H t name value cb r W E. unfold lookup in E. destruct (static_lookup name value) as [(i, m)|] eqn:S.
  - pose proof (static_lookup_spec _ _ _ _ S) as (v & A & B & C). destruct m.
    + apply some_inj in E. subst r. unfold found_ok. cbn [f_static f_index f_match]. exists v. auto.
    + refine (dyn_scan_spec H t name value cb (t_dyn t) _ r W (fun e I => I) _ E). intros j J. apply some_inj in J. subst j. unfold found_ok. cbn [f_static f_index f_match]. exists v. auto.
  - refine (dyn_scan_spec H t name value cb (t_dyn t) None r W (fun e I => I) _ E). discriminate.
Qed.

(** *** What the instructions do to a table at the other end *)
Definition t_exec (t : table) (i : einstr) : rres table :=
  match i with ECapacity v => set_capacity t v | EInsertLiteral n v => rbind (insert t n v) (fun '(t', _) => Good t') | _ => Bad end.
Fixpoint t_exec_all (t : table) (l : list einstr) : rres table := match l with [] => Good t | i :: l' => rbind (t_exec t i) (fun t' => t_exec_all t' l') end.
Lemma t_exec_app : forall a b t, t_exec_all t (a ++ b) = rbind (t_exec_all t a) (fun t' => t_exec_all t' b).
Proof. induction a as [|i a IH]; intros b t; cbn [t_exec_all List.app]; auto. destruct (t_exec t i); cbn [rbind]; auto. Qed.
Definition mirrors (t1 : table) (l : list einstr) (t2 : table) : Prop := forall td, same t1 td -> free td -> exists td', t_exec_all td l = Good td' /\ same t2 td' /\ free td'.
Lemma mirrors_nil : forall t1 t2, tlike t1 t2 -> mirrors t1 [] t2. Proof. intros t1 t2 L td S F. exists td. splits; auto; try apply F. eapply tlike_same; eauto. Qed.
Lemma mirrors_app : forall t1 a t2 b t3, mirrors t1 a t2 -> mirrors t2 b t3 -> mirrors t1 (a ++ b) t3.
Proof. intros t1 a t2 b t3 M1 M2 td S F. destruct (M1 td S F) as (t & E & S1 & F1). destruct (M2 t S1 F1) as (t' & E2 & S2 & F2). exists t'. rewrite t_exec_app, E. cbn [rbind]. auto. Qed.
Lemma same_win : forall H t1 t2, same t1 t2 -> win H (t_base t1) (t_dyn t1) -> win H (t_base t2) (t_dyn t2).
Proof. intros H t1 t2 (S1 & S2 & S3 & S4) W. rewrite <- S4. eapply map_strip_win; eauto. Qed.
Lemma mirrors_insert : forall H t n v t' i, t_ok H t -> t_base t < 2 ^ 64 -> insert t n v = Good (t', i) -> mirrors t [EInsertLiteral n v] t'.
Proof.
  intros H t n v t' i O B E td S F. pose proof S as (_ & _ & _ & S4). destruct (insert_same H t td n v t' i E S F) as (t2 & i2 & E2 & S2 & F2); [eapply same_win; eauto; apply O | congruence|].
  exists t2. cbn [t_exec_all t_exec]. rewrite E2. cbn [rbind]. auto.
Qed.
Lemma mirrors_capacity : forall H t c t', t_ok H t -> t_base t < 2 ^ 64 -> set_capacity t c = Good t' -> mirrors t [ECapacity c] t'.
Proof.
  intros H t c t' O B E td S F. pose proof S as (_ & _ & _ & S4). destruct (set_capacity_same H t td c t' E S F) as (t2 & E2 & S2 & F2); [eapply same_win; eauto; apply O | congruence|].
  exists t2. cbn [t_exec_all t_exec]. rewrite E2. cbn [rbind]. auto.
Qed.
Fixpoint inserts (l : list einstr) : list header := match l with [] => [] | EInsertLiteral n v :: l' => (n, v) :: inserts l' | _ :: l' => inserts l' end.
Lemma inserts_app : forall a b, inserts (a ++ b) = inserts a ++ inserts b.
Proof. induction a as [|i a IH]; intros b; cbn [inserts List.app]; auto. destruct i; cbn [List.app]; rewrite IH; auto. Qed.
Lemma e_marshals_snoc : forall h l i w w2, e_marshals h l = Some w -> e_marshal h i = Some w2 -> e_marshals h (l ++ [i]) = Some (w ++ w2).
Proof.
  intros h. induction l as [|x l IH]; intros i w w2 E E2; cbn [e_marshals List.app] in *.
  - apply some_inj in E. subst w. rewrite E2. cbn [oapp]. rewrite app_nil_r. auto.
  - destruct (e_marshal h x) as [a|]; [|discriminate]. destruct (e_marshals h l) as [b|] eqn:EB; [|discriminate]. cbn [oapp] in E. apply some_inj in E. subst w. erewrite IH; eauto. cbn [oapp]. rewrite app_assoc. auto.
Qed.

(** *** Sending the capacity *)
Definition wrote (huff : bool) (S : N) (x x' : io) (l : list einstr) : Prop := exists w, e_marshals huff l = Some w /\ snd x' = snd x ++ w /\ Forall (i_fits huff) l /\ Forall (fun i => match i with ECapacity c => c <= S | _ => True end) l.
Lemma wrote_nil : forall h S x b, wrote h S x (b, snd x) []. Proof. intros. exists []. splits; auto. cbn. rewrite app_nil_r. auto. Qed.
(** [S]: no capacity beyond it. *)
Definition cap_ok (S : N) (e : encoder) : Prop := forall c, n_next e = Some c -> c <= S.
Lemma send_cases : forall x b, (exists l, send x b = ((l, snd x ++ b), true)) \/ (exists l, send x b = ((l, snd x), false)).
Proof. intros (l, w) b. destruct l as [|[] l]; cbn; eauto. Qed.
Lemma set_next_ev : forall H R e l, einv H R e -> einv H R (with_local l e).
Proof. intros H R e l V. dev V. constructor; auto. Qed.
Definition efixed (e e' : encoder) : Prop := n_max_table e' = n_max_table e /\ n_maxb e' = n_maxb e /\ n_maxt e' = n_maxt e /\ n_huff e' = n_huff e /\ n_reader e' = n_reader e /\ n_unacked e' = n_unacked e /\ n_cnt e' = n_cnt e /\ t_acked (n_table e') = t_acked (n_table e).
Lemma refs_kept : forall t t' B, (forall e, In e (t_dyn t') -> In e (t_dyn t)) -> (forall e, In e (t_dyn t) -> x_base e < oldest t' -> can_reduce e (t_acked t) = true) -> t_base t <= t_base t' ->
  (forall H, t_ok H t -> True) -> forall H, t_ok H t -> refs_ok t B -> refs_ok t' B.
Proof.
  intros t t' B I1 I2 TB _ H O (R & F). split; [intros e I; apply R; auto|]. rewrite Forall_forall in F |- *. intros b IB. specialize (F b IB). rewrite Forall_forall in F |- *. intros i II. destruct (F i II) as (P1 & P2).
  destruct (get_abs_good H t i (proj1 O) (conj P1 P2)) as (e & _ & IE & XE & _). split; [|lia]. destruct (N.le_gt_cases (oldest t') i) as [L|L]; auto. exfalso. subst i.
  pose proof (I2 e IE L) as C. unfold can_reduce in C. apply andb_prop in C. destruct C as (C & _). apply N.eqb_eq in C. rewrite (R e IE) in C. pose proof (cntb_in (x_base e) B b IB II). lia.
Qed.
Lemma change_capacity_spec : forall H S e x, einv H [] e -> lenN H < 2 ^ 63 -> cap_ok S e -> exists e' x' ok l, change_capacity e x = Good (e', x', ok) /\ einv H [] e' /\ efixed e e' /\ n_local e' = n_local e /\ wrote (n_huff e) S x x' l /\ inserts l = [] /\ mirrors (n_table e) l (n_table e') /\ cap_ok S e' /\
  (n_table e' = n_table e /\ n_max_entries e' = n_max_entries e \/ t_cap (n_table e') <= S /\ Some (t_cap (n_table e')) = n_next e) /\ (n_next e' = n_next e \/ n_next e' = None).
Proof.
  intros H S e x V LB CO. pose proof V as V0. dev V. unfold change_capacity. destruct (n_next e) as [cap|] eqn:NX.
  2:{ exists e, x, true, []. splits; auto; try (unfold efixed; auto 10); [destruct x; apply wrote_nil | apply mirrors_nil, tlike_refl]. }
  destruct (can_evict_good (n_table e) cap) as (b & CE & CG); [apply ev_t0|].
  assert (Q : exists ok, (if cap <? t_cap (n_table e) then can_evict_to (n_table e) cap else Good true) = Good ok /\ (ok = true -> exists t', set_capacity (n_table e) cap = Good t')).
  { destruct (N.ltb_spec cap (t_cap (n_table e))).
    - exists b. split; auto. intros B. destruct (CG B) as (t' & T). unfold set_capacity. rewrite T. cbn [rbind]. eauto.
    - exists true. split; auto. intros _. unfold set_capacity, evict_to. destruct (evictable_ok (rev (t_dyn (n_table e))) (t_used (n_table e)) cap (t_acked (n_table e))) as (l' & u & EL); [rewrite sizes_rev; apply ev_t0 | destruct ev_t0 as (_ & _ & X & _); lia|].
      rewrite EL. cbn [rbind]. eauto. }
  destruct Q as (ok & -> & QT). cbn [rbind]. destruct ok; cbn [negb].
  2:{ exists e, x, false, []. splits; auto; try (unfold efixed; auto 10); [destruct x; apply wrote_nil | apply mirrors_nil, tlike_refl]. }
  destruct (QT eq_refl) as (t' & ST). assert (FT : i_fits (n_huff e) (ECapacity cap)) by (cbn; specialize (ev_next0 cap eq_refl); change (2 ^ 30) with 1073741824 in ev_next0; change (2 ^ 64) with 18446744073709551616; lia).
  destruct (e_trip (n_huff e) (ECapacity cap) [] FT) as (w & EW & _). rewrite EW. destruct (send_cases x w) as [(l & ->)|(l & ->)]; cbn [negb].
  2:{ exists e, (l, snd x), false, []. splits; auto; try (unfold efixed; auto 10); [apply wrote_nil | apply mirrors_nil, tlike_refl]. }
  rewrite ST. pose proof (set_capacity_spec H (n_table e) cap ev_t0) as SP. rewrite ST in SP. destruct SP as (OT & B1 & A1 & C1 & O1 & I1 & I2 & I3).
  eexists _, _, _, [ECapacity cap]. split; [reflexivity|]. cbn [with_next with_entries with_table n_table n_max_entries n_local n_next]. splits.
  - constructor; cbn [with_next with_entries with_table n_table n_max_entries n_local n_next n_unacked n_cnt n_maxb n_reader]; rewrite ?B1, ?A1, ?C1; auto; try congruence.
    eapply (refs_kept (n_table e)); eauto. lia.
  - unfold efixed. cbn. auto 10.
  - auto.
  - exists w. cbn [snd e_marshals]. rewrite EW. cbn [oapp]. rewrite app_nil_r. splits; auto.
  - auto.
  - eapply mirrors_capacity; eauto. rewrite ev_base0. change (2 ^ 64) with (2 ^ 63 + 2 ^ 63). lia.
  - intros c C. discriminate C.
  - right. rewrite C1. split; auto.
  - auto.
Qed.
Lemma send_updates_spec : forall H S e x, einv H [] e -> lenN H < 2 ^ 63 -> cap_ok S e -> exists e' x' ok l, send_updates e x = Good (e', x', ok) /\ einv H [] e' /\ efixed e e' /\ (n_local e = NoStream -> n_local e' = NoStream) /\ (n_local e <> NoStream -> n_local e' <> NoStream) /\ wrote (n_huff e) S x x' l /\ inserts l = [] /\ mirrors (n_table e) l (n_table e') /\ cap_ok S e' /\
  (n_table e' = n_table e /\ n_max_entries e' = n_max_entries e \/ t_cap (n_table e') <= S /\ Some (t_cap (n_table e')) = n_next e) /\ (n_next e' = n_next e \/ n_next e' = None).
Proof.
  intros H S e x V LB CO. unfold send_updates. destruct (n_local e) eqn:NL.
  - exists e, x, true, []. splits; auto; try (unfold efixed; auto 10); [destruct x; apply wrote_nil | apply mirrors_nil, tlike_refl].
  - destruct (send_cases x []) as [(l & ->)|(l & ->)]; cbn [negb].
    + rewrite app_nil_r. destruct (change_capacity_spec H S (with_local Init e) (l, snd x) (set_next_ev _ _ _ _ V) LB CO) as (e' & x' & ok & l' & E & V' & F & L & W & I & M & C & D & NX). exists e', x', ok, l'. rewrite E. splits; auto.
      * intros X. discriminate.
      * intros _. rewrite L. discriminate.
    + exists e, (l, snd x), false, []. splits; auto; try (unfold efixed; auto 10); try congruence; [apply wrote_nil | apply mirrors_nil, tlike_refl].
  - destruct (change_capacity_spec H S e x V LB CO) as (e' & x' & ok & l & E & V' & F & L & W & I & M & C & D & NX). exists e', x', ok, l. rewrite E. splits; auto; congruence.
Qed.
