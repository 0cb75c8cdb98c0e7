(** Loss recovery: the invariant and what one operation does to each space. *)
From Coq Require Import Sorted Permutation.
From Verif Require Import Base Lib FcModel LrModel LrSpec LrProofs.

Lemma get_set sp sp' x r : get_sp sp' (set_sp sp x r) = if space_eqb sp' sp then x else get_sp sp' r.
Proof. destruct sp, sp'; reflexivity. Qed.
Lemma get_set_pto sp p r : get_sp sp (set_pto p r) = get_sp sp r.
Proof. destruct sp; reflexivity. Qed.
Lemma get_set_stats sp st r : get_sp sp (set_stats st r) = get_sp sp r.
Proof. destruct sp; reflexivity. Qed.
Lemma space_eqb_refl sp : space_eqb sp sp = true.
Proof. destruct sp; reflexivity. Qed.
Lemma space_eqb_eq a b : space_eqb a b = true <-> a = b.
Proof. destruct a, b; cbn; split; congruence. Qed.
Lemma tracked_set sp sp' s r : tracked sp' (set_sp sp (Some s) r) = if space_eqb sp' sp then l_pkts s else tracked sp' r.
Proof. unfold tracked. rewrite get_set. destruct (space_eqb sp' sp); reflexivity. Qed.
Lemma tracked_set_none sp sp' r : tracked sp' (set_sp sp None r) = if space_eqb sp' sp then [] else tracked sp' r.
Proof. unfold tracked. rewrite get_set. destruct (space_eqb sp' sp); reflexivity. Qed.
Lemma tracked_pto sp p r : tracked sp (set_pto p r) = tracked sp r.
Proof. unfold tracked. rewrite get_set_pto. reflexivity. Qed.
Lemma tracked_stats sp st r : tracked sp (set_stats st r) = tracked sp r.
Proof. unfold tracked. rewrite get_set_stats. reflexivity. Qed.

(** ** Counting *)
Definition nlost (l : list pkt) : N := lenN (filter is_lost l).
Definition blost (l : list pkt) : N := total_len (filter is_lost l).
Lemma count_ae_app a b : count_ae (a ++ b) = count_ae a + count_ae b.
Proof. unfold count_ae. rewrite filter_app, lenN_app. reflexivity. Qed.
Lemma total_len_app a b : total_len (a ++ b) = total_len a + total_len b.
Proof. unfold total_len. induction a as [|x a IH]; cbn [app fold_right]; [symmetry; apply N.add_0_l|]. rewrite IH. lia. Qed.
Lemma nlost_app a b : nlost (a ++ b) = nlost a + nlost b.
Proof. unfold nlost. rewrite filter_app, lenN_app. reflexivity. Qed.
Lemma blost_app a b : blost (a ++ b) = blost a + blost b.
Proof. unfold blost. rewrite filter_app, total_len_app. reflexivity. Qed.
Lemma perm_filter {A} (f : A -> bool) l : Permutation l (filter f l ++ filter (fun x => negb (f x)) l).
Proof.
  induction l as [|x l IH]; cbn; [constructor|]. destruct (f x); cbn.
  - constructor. exact IH.
  - apply Permutation_cons_app. exact IH.
Qed.
Lemma total_len_perm a b : Permutation a b -> total_len a = total_len b.
Proof. induction 1; cbn; try lia. unfold total_len in *. lia. Qed.
Lemma perm_filter_map {A} (f : A -> bool) a b : Permutation a b -> Permutation (filter f a) (filter f b).
Proof.
  induction 1 as [|x a b H IH|x y a|a b c H1 IH1 H2 IH2]; cbn; [constructor| | |eapply Permutation_trans; eauto].
  - destruct (f x); [constructor|]; exact IH.
  - destruct (f x), (f y); try reflexivity. apply perm_swap.
Qed.
Lemma lenN_perm {A} (a b : list A) : Permutation a b -> lenN a = lenN b.
Proof. intros H. unfold lenN. rewrite (Permutation_length H). reflexivity. Qed.
Lemma count_ae_perm a b : Permutation a b -> count_ae a = count_ae b.
Proof. intros H. apply lenN_perm, perm_filter_map, H. Qed.
Lemma nlost_perm a b : Permutation a b -> nlost a = nlost b.
Proof. intros H. apply lenN_perm, perm_filter_map, H. Qed.
Lemma blost_perm a b : Permutation a b -> blost a = blost b.
Proof. intros H. apply total_len_perm, perm_filter_map, H. Qed.
Lemma count_ae_split f l : count_ae l = count_ae (filter f l) + count_ae (filter (fun x => negb (f x)) l).
Proof. rewrite <- count_ae_app. apply count_ae_perm, perm_filter. Qed.
Lemma nlost_split f l : nlost l = nlost (filter f l) + nlost (filter (fun x => negb (f x)) l).
Proof. rewrite <- nlost_app. apply nlost_perm, perm_filter. Qed.
Lemma blost_split f l : blost l = blost (filter f l) + blost (filter (fun x => negb (f x)) l).
Proof. rewrite <- blost_app. apply blost_perm, perm_filter. Qed.
Lemma count_ae_rev l : count_ae (rev l) = count_ae l.
Proof. apply count_ae_perm, Permutation_sym, Permutation_rev. Qed.
Lemma nlost_rev l : nlost (rev l) = nlost l.
Proof. apply nlost_perm, Permutation_sym, Permutation_rev. Qed.
Lemma blost_rev l : blost (rev l) = blost l.
Proof. apply blost_perm, Permutation_sym, Permutation_rev. Qed.
Lemma count_ae_cons p l : count_ae (p :: l) = (if p_ae p then 1 else 0) + count_ae l.
Proof. unfold count_ae. cbn [filter]. destruct (p_ae p); rewrite ?lenN_cons; lia. Qed.
Lemma nlost_cons p l : nlost (p :: l) = (if is_lost p then 1 else 0) + nlost l.
Proof. unfold nlost. cbn [filter]. destruct (is_lost p); rewrite ?lenN_cons; lia. Qed.
Lemma blost_cons p l : blost (p :: l) = (if is_lost p then p_len p else 0) + blost l.
Proof. unfold blost, total_len. cbn [filter]. destruct (is_lost p); cbn [fold_right]; lia. Qed.
Lemma sum_len_total l : sum_len l = total_len l.
Proof. reflexivity. Qed.

Lemma count_acked_ok l : forall out st,
  count_ae l <= out -> nlost l <= st_lost st -> blost l <= st_bytes_lost st ->
  exists st', count_acked l out st = Some (out - count_ae l, st', existsb p_ae l) /\
    st_lost st' = st_lost st - nlost l /\ st_bytes_lost st' = st_bytes_lost st - blost l /\
    st_late st' = st_late st + nlost l /\ st_pto_ack st' = st_pto_ack st + lenN (filter p_pto l).
Proof.
  induction l as [|p l IH]; intros out st A B C.
  - exists st. cbn. rewrite !N.sub_0_r. splits; try reflexivity; unfold nlost, blost, lenN; cbn; lia.
  - rewrite count_ae_cons in A. rewrite nlost_cons in B. rewrite blost_cons in C.
    cbn [count_acked].
    assert (E1 : (if p_ae p then csub out 1 else Some out) = Some (out - (if p_ae p then 1 else 0))).
    { destruct (p_ae p); [|rewrite N.sub_0_r; reflexivity]. unfold csub. destruct (N.leb_spec 1 out); [reflexivity|lia]. }
    rewrite E1.
    set (st1 := if is_lost p then mkLst (st_lost st - 1) (st_bytes_lost st - p_len p) (st_late st + 1) (st_pto_ack st) else st).
    assert (E2 : (if is_lost p then match csub (st_lost st) 1, csub (st_bytes_lost st) (p_len p) with
                                   | Some a, Some b => Some (mkLst a b (st_late st + 1) (st_pto_ack st))
                                   | _, _ => None end else Some st) = Some st1).
    { unfold st1. destruct (is_lost p); [|reflexivity]. unfold csub.
      destruct (N.leb_spec 1 (st_lost st)); [|lia]. destruct (N.leb_spec (p_len p) (st_bytes_lost st)); [reflexivity|lia]. }
    rewrite E2. clear E1 E2.
    set (st2 := if p_pto p then mkLst (st_lost st1) (st_bytes_lost st1) (st_late st1) (st_pto_ack st1 + 1) else st1).
    assert (L2 : st_lost st2 = st_lost st - (if is_lost p then 1 else 0)) by (unfold st2, st1; destruct (p_pto p), (is_lost p); cbn; lia).
    assert (B2 : st_bytes_lost st2 = st_bytes_lost st - (if is_lost p then p_len p else 0)) by (unfold st2, st1; destruct (p_pto p), (is_lost p); cbn; lia).
    assert (T2 : st_late st2 = st_late st + (if is_lost p then 1 else 0)) by (unfold st2, st1; destruct (p_pto p), (is_lost p); cbn; lia).
    assert (P2 : st_pto_ack st2 = st_pto_ack st + (if p_pto p then 1 else 0)) by (unfold st2, st1; destruct (p_pto p), (is_lost p); cbn; lia).
    destruct (IH (out - (if p_ae p then 1 else 0)) st2) as (st' & E & X1 & X2 & X3 & X4).
    { destruct (p_ae p); lia. } { destruct (is_lost p); lia. } { destruct (is_lost p); lia. }
    exists st'. rewrite E. rewrite count_ae_cons, nlost_cons, blost_cons. cbn [existsb filter]. splits.
    + do 3 f_equal. lia.
    + destruct (is_lost p); lia.
    + destruct (is_lost p); lia.
    + destruct (is_lost p); lia.
    + destruct (p_pto p); rewrite ?lenN_cons; lia.
Qed.

(** ** One space *)
Definition sp_ok (T : N) (last : option N) (sp : space) (s : lsp) : Prop :=
  l_space s = sp /\ lost_sorted (l_pkts s) /\ Forall (pk_ok T last) (l_pkts s) /\
  Forall (fun p => of_space sp p = true) (l_pkts s) /\ l_out s = count_ae (l_pkts s) /\
  (0 < l_out s -> l_last_ae s <> None).
Definition shouldO (now ld : N) (la : option N) (p : pkt) : bool := match la with Some la => should now ld la p | None => false end.
Definition markO (now ld : N) (la : option N) (p : pkt) : pkt := match la with Some la => mark now ld la p | None => p end.
Lemma shouldO_spec now ld la p : shouldO now ld la p = true <-> lost_by now ld la p.
Proof.
  unfold shouldO, lost_by, should, PACKET_THRESHOLD. destruct la; [|split; [discriminate|contradiction]].
  rewrite andb_true_iff, orb_true_iff, N.ltb_lt, !N.leb_le. tauto.
Qed.
Lemma markO_pn now ld la p : p_pn (markO now ld la p) = p_pn p.
Proof. destruct la; [apply mark_pn|reflexivity]. Qed.
Lemma markO_type now ld la p : p_type (markO now ld la p) = p_type p.
Proof. destruct la; [apply mark_type|reflexivity]. Qed.
Lemma markO_ae now ld la p : p_ae (markO now ld la p) = p_ae p.
Proof. destruct la; [apply mark_ae|reflexivity]. Qed.
Lemma markO_len now ld la p : p_len (markO now ld la p) = p_len p.
Proof. destruct la; [apply mark_len|reflexivity]. Qed.
Lemma markO_is_lost now ld la p : is_lost (markO now ld la p) = shouldO now ld la p || is_lost p.
Proof. destruct la; [apply mark_is_lost|reflexivity]. Qed.
Lemma of_space_markO sp now ld la p : of_space sp (markO now ld la p) = of_space sp p.
Proof. unfold of_space. rewrite markO_type. reflexivity. Qed.
Lemma filter_map_comm {A B} (f : B -> bool) (g : A -> B) l : filter f (map g l) = map g (filter (fun x => f (g x)) l).
Proof. induction l as [|x l IH]; cbn; [reflexivity|]. destruct (f (g x)); cbn; rewrite IH; reflexivity. Qed.
Lemma count_ae_markO now ld la l : count_ae (map (markO now ld la) l) = count_ae l.
Proof.
  unfold count_ae. rewrite filter_map_comm. unfold lenN. rewrite map_length. f_equal. f_equal.
  apply filter_ext. intros p. apply markO_ae.
Qed.
Lemma Forall_filter {A} (P : A -> Prop) f l : Forall P l -> Forall P (filter f l).
Proof. rewrite !Forall_forall. intros H x Hx. apply filter_In in Hx. apply H. tauto. Qed.

Definition after_detect (now ld cd : N) (la : option N) (l : list pkt) : list pkt :=
  map (markO now ld la) (filter (fun p => negb (expired now cd p)) l).
Definition lost_detect (now ld cd : N) (la : option N) (l : list pkt) : list pkt :=
  map (markO now ld la) (filter (fun p => shouldO now ld la p && negb (is_lost p)) (filter (fun p => negb (expired now cd p)) l)).
Definition ooo_detect (now ld cd : N) (la : option N) (l : list pkt) : option N :=
  match filter (fun p => match la with Some x => (p_pn p <? x) | None => false end && negb (shouldO now ld la p)) (filter (fun p => negb (expired now cd p)) l) with
  | p :: _ => Some (p_time p) | [] => None end.

Lemma detect_lost_ok T last sp now ld cd s :
  sp_ok T last sp s -> T <= now ->
  exists s', detect_lost now ld cd s = Some (s', lost_detect now ld cd (l_largest s) (l_pkts s), filter (expired now cd) (l_pkts s)) /\
    sp_ok now last sp s' /\ l_pkts s' = after_detect now ld cd (l_largest s) (l_pkts s) /\
    l_ooo s' = ooo_detect now ld cd (l_largest s) (l_pkts s) /\
    l_largest s' = l_largest s /\ l_largest_time s' = l_largest_time s /\ l_last_ae s' = l_last_ae s.
Proof.
  intros (Z & S & F & G & O & LA) HT. unfold detect_lost, remove_old_lost.
  rewrite remove_expired_ok by exact S.
  pose proof (count_ae_split (expired now cd) (l_pkts s)) as Hc.
  unfold csub. destruct (N.leb_spec (count_ae (filter (expired now cd) (l_pkts s))) (l_out s)); [|lia].
  assert (S' : lost_sorted (filter (fun p => negb (expired now cd p)) (l_pkts s))) by (apply ss_filter; exact S).
  assert (F' : Forall (pk_ok T last) (filter (fun p => negb (expired now cd p)) (l_pkts s))) by (apply Forall_filter; exact F).
  assert (G' : Forall (fun p => of_space sp p = true) (filter (fun p => negb (expired now cd p)) (l_pkts s))) by (apply Forall_filter; exact G).
  cbn [with_pkts l_space l_largest l_largest_time l_last_ae l_out l_pkts l_ooo].
  destruct (l_largest s) as [la|] eqn:EL.
  - rewrite detect_loop_ok by exact S'. eexists. split; [reflexivity|].
    cbn [l_space l_largest l_largest_time l_last_ae l_out l_pkts l_ooo]. splits; try reflexivity.
    unfold sp_ok. cbn [l_space l_largest l_largest_time l_last_ae l_out l_pkts l_ooo]. splits.
    + exact Z.
    + eapply mark_sorted; eauto.
    + rewrite Forall_forall in *. intros x Hx. apply in_map_iff in Hx. destruct Hx as (y & <- & Hy). eapply mark_ok; eauto.
    + rewrite Forall_forall in *. intros x Hx. apply in_map_iff in Hx. destruct Hx as (y & <- & Hy). unfold of_space. rewrite mark_type. apply G'. exact Hy.
    + pose proof (count_ae_markO now ld (Some la) (filter (fun p => negb (expired now cd p)) (l_pkts s))) as Q. change (markO now ld (Some la)) with (mark now ld la) in Q. rewrite Q. lia.
    + intros H1. apply LA. lia.
  - eexists. split; [unfold lost_detect; cbn [shouldO andb]; rewrite (filter_none (fun _ : pkt => false)) by (rewrite Forall_forall; reflexivity); reflexivity|].
    cbn [l_space l_largest l_largest_time l_last_ae l_out l_pkts l_ooo]. 
    assert (M : after_detect now ld cd None (l_pkts s) = filter (fun p => negb (expired now cd p)) (l_pkts s)) by (unfold after_detect; cbn [markO]; apply map_id).
    rewrite M. splits; try reflexivity.
    + unfold sp_ok. cbn [l_space l_largest l_largest_time l_last_ae l_out l_pkts l_ooo]. splits; try assumption.
      * eapply Forall_impl; [|exact F']. intros p (A & B & C). unfold pk_ok. splits; [lia| |exact C]. destruct (p_lost p) as [[t ?]|]; [lia|exact Logic.I].
      * lia.
      * intros H1. apply LA. lia.
    + unfold ooo_detect. cbn [andb]. rewrite (filter_none (fun _ : pkt => false)) by (rewrite Forall_forall; reflexivity). reflexivity.
Qed.

(** ** The invariant *)
Definition tot (f : list pkt -> N) (r : lr) : N := f (tracked SpInitial r) + f (tracked SpHandshake r) + f (tracked SpApp r).
Definition INV (T : N) (last : space -> option N) (gone : spset) (r : lr) : Prop :=
  (forall sp, match get_sp sp r with
              | Some s => sp_in sp gone = false /\ sp_ok T (last sp) sp s
              | None => sp_in sp gone = true
              end) /\
  in_a gone = false /\ (r_confirmed r = None <-> in_h gone = false) /\
  tot nlost r <= st_lost (r_stats r) /\ tot blost r <= st_bytes_lost (r_stats r).
(** What a step does to the packets of one space: [a] before, [b] after. *)
Definition eff (sp : space) (a b : list pkt) (out : lout) : Prop :=
  Permutation (map p_pn a ++ pns sp (ev_sent (o_cc out)))
              (pns sp (o_acked out) ++ pns sp (o_gone out) ++ pns sp (o_dropped out) ++ map p_pn b) /\
  NoDup (pns sp (filter is_lost (o_lost out))) /\
  (forall n, In n (pns sp (filter is_lost (o_lost out))) -> (exists p, In p a /\ p_pn p = n /\ is_lost p = false) /\ In n (map p_pn b)) /\
  (forall p, In p b -> (is_lost p = true <-> In (p_pn p) (pns sp (filter is_lost (o_lost out))) \/ exists q, In q a /\ p_pn q = p_pn p /\ is_lost q = true)) /\
  (forall n, In n (pns sp (o_gone out)) -> exists q, In q a /\ p_pn q = n /\ is_lost q = true) /\
  (forall n, In n (map p_pn b) -> In n (map p_pn a) \/ In n (pns sp (ev_sent (o_cc out)))).

Lemma pns_same sp l : Forall (fun p => of_space sp p = true) l -> pns sp l = map p_pn l.
Proof. intros F. unfold pns. rewrite filter_all; [reflexivity|exact F]. Qed.
Lemma pns_other sp sp' l : sp' <> sp -> Forall (fun p => of_space sp p = true) l -> pns sp' l = [].
Proof.
  intros Nq F. unfold pns. rewrite filter_none; [reflexivity|].
  eapply Forall_impl; [|exact F]. unfold of_space. intros p H. apply space_eqb_eq in H. rewrite H.
  destruct (space_eqb sp sp') eqn:E; [|reflexivity]. apply space_eqb_eq in E. congruence.
Qed.
Lemma pns_app sp a b : pns sp (a ++ b) = pns sp a ++ pns sp b.
Proof. unfold pns. rewrite filter_app, map_app. reflexivity. Qed.
Lemma ev_sent_map_discard l : ev_sent (map CcDiscard l) = [].
Proof. induction l; cbn; auto. Qed.

Lemma NoDup_map_inj {A B} (f : A -> B) l x y : NoDup (map f l) -> In x l -> In y l -> f x = f y -> x = y.
Proof.
  induction l as [|a l IH]; cbn; [tauto|]. intros H [->|Hx] [->|Hy] E; inv H.
  - reflexivity.
  - exfalso. apply H2. rewrite E. apply in_map. exact Hy.
  - exfalso. apply H2. rewrite <- E. apply in_map. exact Hx.
  - apply IH; assumption.
Qed.

(** Nothing happens to a space. *)
Lemma eff_id sp a b out :
  map p_pn a = map p_pn b -> map is_lost a = map is_lost b -> NoDup (map p_pn a) ->
  pns sp (ev_sent (o_cc out)) = [] -> pns sp (o_acked out) = [] -> pns sp (o_gone out) = [] -> pns sp (o_dropped out) = [] ->
  pns sp (filter is_lost (o_lost out)) = [] -> eff sp a b out.
Proof.
  intros E1 E2 Nd H1 H2 H3 H4 H5. unfold eff. rewrite H1, H2, H3, H4, H5, E1, app_nil_r. cbn [app]. splits.
  - reflexivity.
  - constructor.
  - intros n [].
  - intros p Hp. assert (exists q, In q a /\ p_pn q = p_pn p /\ is_lost q = is_lost p) as (q & A & B & C).
    { clear -E1 E2 Hp. revert b E1 E2 Hp. induction a as [|x a IH]; intros [|y b] E1 E2 Hp; cbn in *; try discriminate; [contradiction|].
      assert (p_pn x = p_pn y) by congruence. assert (is_lost x = is_lost y) by congruence.
      assert (map p_pn a = map p_pn b) by congruence. assert (map is_lost a = map is_lost b) by congruence.
      destruct Hp as [->|Hp]; [exists x; auto|]. destruct (IH b) as (q & ? & ? & ?); try assumption. exists q; auto. }
    split.
    + intros L. right. exists q. splits; [exact A|exact B|congruence].
    + intros [[]|(q' & A' & B' & C')]. assert (q' = q); [|congruence].
      eapply NoDup_map_inj; eauto. congruence.
  - intros n [].
  - intros n Hn. left. exact Hn.
Qed.
Lemma core_pn l l' : Forall2 same_core l l' -> map p_pn l = map p_pn l'.
Proof. apply core_map. intros a b (_ & H & _). exact H. Qed.
Lemma core_lost l l' : Forall2 same_core l l' -> map is_lost l = map is_lost l'.
Proof. apply core_map. intros a b (_ & _ & _ & _ & H & _). unfold is_lost. rewrite H. reflexivity. Qed.

(** Everything in the space is dropped. *)
Lemma eff_drop sp a out :
  pns sp (ev_sent (o_cc out)) = [] -> pns sp (o_acked out) = [] -> pns sp (o_gone out) = [] -> pns sp (o_dropped out) = map p_pn a ->
  pns sp (filter is_lost (o_lost out)) = [] -> eff sp a [] out.
Proof.
  intros H1 H2 H3 H4 H5. unfold eff. rewrite H1, H2, H3, H4, H5, !app_nil_r. cbn [app]. splits; try (intros ? []); [reflexivity|constructor].
Qed.
Lemma eff_sent sp a p out :
  of_space sp p = true -> is_lost p = false -> (forall q, In q a -> p_pn q < p_pn p) -> NoDup (map p_pn a) ->
  out = mkOut [] [] [] [] [CcSent p] -> eff sp a (a ++ [p]) out.
Proof.
  intros H1 H2 H3 H4 ->. unfold eff. cbn. unfold pns. cbn. rewrite H1. cbn. rewrite map_app. cbn. splits.
  - reflexivity.
  - constructor.
  - intros n [].
  - intros p0 H. split.
    + intros L. right. exists p0. apply in_app_iff in H. destruct H as [H|[<-|[]]]; [auto|congruence].
    + intros [[]|(q & A & B & C)]. apply in_app_iff in H. destruct H as [H|[<-|[]]].
      * assert (q = p0) by (eapply NoDup_map_inj; eauto). congruence.
      * specialize (H3 q A). lia.
  - intros n [].
  - intros n Hn. apply in_app_iff in Hn. exact Hn.
Qed.

Definition taken (rs : list (N * N)) (l : list pkt) := rev (filter (fun p => in_ranges rs (p_pn p)) l).
Definition untaken (rs : list (N * N)) (l : list pkt) := filter (fun p => negb (in_ranges rs (p_pn p))) l.
Lemma untaken_nil l : untaken [] l = l.
Proof. unfold untaken. apply filter_all. rewrite Forall_forall. reflexivity. Qed.
Lemma taken_nil l : taken [] l = [].
Proof. unfold taken. rewrite filter_none; [reflexivity|]. rewrite Forall_forall. reflexivity. Qed.

Lemma lost_detect_all now ld cd la l : filter is_lost (lost_detect now ld cd la l) = lost_detect now ld cd la l.
Proof.
  unfold lost_detect. rewrite filter_map_comm. f_equal. apply filter_all. rewrite Forall_forall. intros p Hp.
  apply filter_In in Hp. destruct Hp as [_ Hp]. apply andb_true_iff in Hp. rewrite markO_is_lost. destruct Hp as [-> _]. reflexivity.
Qed.

(** Acknowledging (possibly nothing), forgetting, and declaring lost. *)
Lemma eff_detect sp rs now ld cd la a b out :
  StronglySorted before a -> Forall (fun p => of_space sp p = true) a ->
  Forall2 same_core (after_detect now ld cd la (untaken rs a)) b ->
  pns sp (ev_sent (o_cc out)) = [] -> pns sp (o_acked out) = map p_pn (taken rs a) ->
  pns sp (o_gone out) = map p_pn (filter (expired now cd) (untaken rs a)) -> pns sp (o_dropped out) = [] ->
  pns sp (filter is_lost (o_lost out)) = map p_pn (lost_detect now ld cd la (untaken rs a)) ->
  eff sp a b out.
Proof.
  intros S G C H1 H2 H3 H4 H5. unfold eff. rewrite H1, H2, H3, H4, H5, app_nil_r. cbn [app].
  rewrite <- (core_pn _ _ C).
  set (X := untaken rs a) in *. set (Y := filter (fun p => negb (expired now cd p)) X).
  assert (EY : map p_pn (after_detect now ld cd la X) = map p_pn Y).
  { unfold after_detect. rewrite map_map. apply map_ext. intros p. apply markO_pn. }
  assert (EL : map p_pn (lost_detect now ld cd la X) = map p_pn (filter (fun p => shouldO now ld la p && negb (is_lost p)) Y)).
  { unfold lost_detect. rewrite map_map. apply map_ext. intros p. apply markO_pn. }
  rewrite EY, EL.
  pose proof (ss_nodup _ S) as Nd.
  assert (SX : StronglySorted before X) by (unfold X, untaken; apply ss_filter; exact S).
  assert (SY : StronglySorted before Y) by (unfold Y; apply ss_filter; exact SX).
  assert (InY : forall p, In p Y -> In p a).
  { intros p Hp. unfold Y, X, untaken in Hp. rewrite !filter_In in Hp. tauto. }
  splits.
  - rewrite <- !map_app. apply Permutation_map.
    eapply Permutation_trans; [apply (perm_filter (fun p => in_ranges rs (p_pn p)))|].
    apply Permutation_app; [apply Permutation_rev|]. apply perm_filter.
  - apply ss_nodup, ss_filter. exact SY.
  - intros n Hn. apply in_map_iff in Hn. destruct Hn as (p & <- & Hp). apply filter_In in Hp. destruct Hp as [Hp Hq].
    apply andb_true_iff in Hq. destruct Hq as [_ Hq]. apply negb_true_iff in Hq. split.
    + exists p. auto.
    + apply in_map. exact Hp.
  - intros p' Hp'.
    assert (exists p, In p Y /\ p_pn p = p_pn p' /\ is_lost p' = shouldO now ld la p || is_lost p) as (p & A & B & D).
    { assert (exists q, In q (after_detect now ld cd la X) /\ same_core q p') as (q & Hq & (_ & Q1 & _ & _ & Q2 & _)).
      { clear -C Hp'. revert Hp'. induction C as [|x y l l' K C IH]; cbn; [tauto|]. intros [->|H]; [exists x; auto|].
        destruct (IH H) as (q & ? & ?). exists q; auto. }
      unfold after_detect in Hq. apply in_map_iff in Hq. destruct Hq as (p & <- & Hp). exists p. rewrite markO_pn in Q1.
      splits; [exact Hp|exact Q1|]. rewrite <- markO_is_lost. unfold is_lost. rewrite Q2. reflexivity. }
    rewrite D, <- B. destruct (is_lost p) eqn:EP.
    + rewrite orb_true_r. split; [|reflexivity]. intros _. right. exists p. auto.
    + rewrite orb_false_r. split.
      * intros Hs. left. apply in_map, filter_In. rewrite Hs, EP. auto.
      * intros [Hi|(q & Q1 & Q2 & Q3)].
        -- apply in_map_iff in Hi. destruct Hi as (q & Q1 & Q2). apply filter_In in Q2. destruct Q2 as [Q2 Q3].
           assert (q = p) by (eapply NoDup_map_inj; [exact Nd| | |]; eauto). subst q. apply andb_true_iff in Q3. tauto.
        -- assert (q = p) by (eapply NoDup_map_inj; [exact Nd| | |]; eauto). congruence.
  - intros n Hn. apply in_map_iff in Hn. destruct Hn as (p & <- & Hp). apply filter_In in Hp. destruct Hp as [Hp Hq].
    exists p. splits; [|reflexivity|].
    + unfold X, untaken in Hp. apply filter_In in Hp. tauto.
    + unfold expired, is_lost in *. destruct (p_lost p); [reflexivity|discriminate].
  - intros n Hn. left. apply in_map_iff in Hn. destruct Hn as (p & <- & Hp). apply in_map. auto.
Qed.
