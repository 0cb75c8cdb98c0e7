(** C74: the paths of a connection; C28: a path that failed is not used. *)
From Coq Require Import Permutation.
From Verif Require Import Base Lib PathModel PathProps.

(** ** Lists of paths *)
Definition shape (l : list path) : list (N * bool) := map (fun p => (p_id p, p_prim p)) l.
Definition ids (l : list path) : list N := map p_id l.
Definition flags_off (l : list path) : Prop := Forall (fun p => p_prim p = false) l.
Definition prim_ok (prim : option N) (l : list path) : Prop :=
  match prim with Some i => exists p r, l = p :: r /\ p_id p = i /\ p_prim p = true /\ flags_off r | None => flags_off l end.
Definition ps_inv (s : paths) : Prop := NoDup (ids (ps_paths s)) /\ lenN (ps_paths s) <= 15 /\ prim_ok (ps_prim s) (ps_paths s).

Lemma shape_ids : forall l l', shape l = shape l' -> ids l = ids l'.
Proof. induction l as [|p l IH]; intros [|p' l'] H; try discriminate; [reflexivity|]. cbn in *. inv H. f_equal; auto. Qed.
Lemma shape_flags : forall l l', shape l = shape l' -> flags_off l -> flags_off l'.
Proof. induction l as [|p l IH]; intros [|p' l'] H F; try discriminate; [constructor|]. cbn in H. inv H. inv F. constructor; [congruence|]. apply IH; auto. Qed.
Lemma shape_prim : forall l l' prim, shape l = shape l' -> prim_ok prim l -> prim_ok prim l'.
Proof.
  intros l l' [i|] H P; cbn in *; [|eapply shape_flags; eauto]. destruct P as (p & r & -> & E1 & E2 & F). destruct l' as [|p' r']; [discriminate|]. cbn in H. inv H. exists p', r'. splits; auto; try congruence. eapply shape_flags; eauto.
Qed.
Lemma shape_len : forall l l', shape l = shape l' -> lenN l = lenN l'.
Proof. intros l l' H. unfold lenN. f_equal. rewrite <- (map_length (fun p => (p_id p, p_prim p)) l), <- (map_length (fun p => (p_id p, p_prim p)) l'). unfold shape in H. now rewrite H. Qed.
Lemma shape_inv : forall s s', shape (ps_paths s) = shape (ps_paths s') -> ps_prim s = ps_prim s' -> ps_inv s -> ps_inv s'.
Proof. intros s s' H E (A & B & C). unfold ps_inv. rewrite <- (shape_ids _ _ H), <- (shape_len _ _ H), <- E. splits; auto. eapply shape_prim; eauto. Qed.
Lemma upd_shape : forall i f l, (forall p, In p l -> p_id p = i -> p_id (f p) = p_id p /\ p_prim (f p) = p_prim p) -> shape (upd i f l) = shape l.
Proof.
  intros i f l H. unfold shape, upd. rewrite map_map. apply map_ext_in. intros p I. destruct (N.eqb_spec (p_id p) i); [|reflexivity]. destruct (H p I e). congruence.
Qed.
Lemma upd_ids : forall i f l, (forall p, p_id (f p) = p_id p) -> ids (upd i f l) = ids l.
Proof. intros i f l H. unfold ids, upd. rewrite map_map. apply map_ext. intros p. now destruct (p_id p =? i). Qed.
Lemma unique : forall l p q, NoDup (ids l) -> In p l -> In q l -> p_id p = p_id q -> p = q.
Proof.
  induction l as [|x l IH]; intros p q Nd I F1 E; [destruct I|]. cbn in Nd. inv Nd. destruct I as [->|I], F1 as [->|F1]; auto; [destruct H1; rewrite E; now apply in_map|destruct H1; rewrite <- E; now apply in_map].
Qed.
Lemma find_some : forall i l p, find_id i l = Some p -> In p l /\ p_id p = i.
Proof. intros i l p H. apply find_some in H. destruct H as [H E]. apply N.eqb_eq in E. auto. Qed.
Lemma find_in : forall i l, In i (ids l) -> exists p, find_id i l = Some p.
Proof.
  intros i l H. destruct (find_id i l) eqn:E; [eauto|]. apply in_map_iff in H. destruct H as (p & Ep & I). pose proof (find_none _ _ E p I) as X. cbn in X. apply N.eqb_neq in X. congruence.
Qed.
Lemma place_perm : forall i x l y, find_id i l = Some y -> Permutation (x :: l) (y :: place i x l).
Proof.
  induction l as [|z l IH]; intros y H; [discriminate|]. cbn in *. destruct (p_id z =? i).
  - inv H. apply perm_swap.
  - transitivity (z :: x :: l); [apply perm_swap|]. transitivity (z :: y :: place i x l); [constructor; auto|apply perm_swap].
Qed.
Lemma swap0_perm : forall i l, Permutation l (swap0 i l).
Proof. intros i [|x l]; [constructor|]. cbn. destruct (_ =? _); [reflexivity|]. destruct (find_id i l) eqn:E; [|reflexivity]. now apply place_perm. Qed.
Lemma swap0_head : forall i l y, find_id i l = Some y -> exists r, swap0 i l = y :: r.
Proof. intros i [|x l] y H; [discriminate|]. cbn in *. destruct (p_id x =? i) eqn:E; [inv H; eauto|]. unfold find_id. rewrite H. eauto. Qed.
Lemma off_upd : forall o l, prim_ok (Some o) l -> flags_off (upd o (set_primary false) l).
Proof.
  intros o l (p & r & -> & E1 & E2 & F). cbn. rewrite E1, N.eqb_refl. constructor; [reflexivity|]. unfold flags_off, upd in *. rewrite Forall_map. eapply Forall_impl; [|exact F]. intros q Q. cbn in *. now destruct (p_id q =? o).
Qed.
Definition cleared (s : paths) : list path := match ps_prim s with Some o => upd o (set_primary false) (ps_paths s) | None => ps_paths s end.
Lemma cleared_off : forall s, prim_ok (ps_prim s) (ps_paths s) -> flags_off (cleared s) /\ ids (cleared s) = ids (ps_paths s).
Proof. intros s H. unfold cleared. destruct (ps_prim s); [split; [now apply off_upd|now apply upd_ids]|auto]. Qed.
(** Choosing a path that is there: it comes first, and is the only one marked. *)
Lemma select_spec : forall i s, NoDup (ids (ps_paths s)) -> prim_ok (ps_prim s) (ps_paths s) -> In i (ids (ps_paths s)) ->
  let s' := fst (select_primary i s) in
  snd (select_primary i s) = ps_prim s /\ ps_prim s' = Some i /\ ps_target s' = ps_target s /\ ps_retire s' = ps_retire s /\ Permutation (ids (ps_paths s)) (ids (ps_paths s')) /\ prim_ok (Some i) (ps_paths s') /\
  (forall p', In p' (ps_paths s') -> exists p, In p (ps_paths s) /\ p_id p' = p_id p /\ p_cid p' = p_cid p /\ p_state p' = p_state p /\ p_valid p' = p_valid p) /\
  (forall p, In p (ps_paths s) -> exists p', In p' (ps_paths s') /\ p_id p' = p_id p /\ p_cid p' = p_cid p /\ p_state p' = p_state p /\ p_valid p' = p_valid p).
Proof.
  intros i s Nd Po Ii. destruct (cleared_off s Po) as [Fo Ei]. unfold select_primary. fold (cleared s). destruct (find_in i (cleared s)) as [y Fy]; [now rewrite Ei|]. rewrite Fy. cbn [fst snd ps_prim ps_target ps_retire ps_paths].
  pose proof (swap0_perm i (cleared s)) as Pm. destruct (swap0_head i _ y Fy) as [r Hr]. destruct (find_some _ _ _ Fy) as [Iy Ey].
  assert (NdS : NoDup (ids (swap0 i (cleared s)))) by (eapply Permutation_NoDup; [apply Permutation_map, Pm|unfold ids in *; now rewrite Ei]).
  splits; auto.
  - rewrite upd_ids by reflexivity. rewrite <- Ei. now apply Permutation_map.
  - rewrite Hr in *. exists (set_primary true y), r. cbn [upd map]. rewrite Ey, N.eqb_refl. cbn in NdS. inv NdS. splits; auto.
    + f_equal. transitivity (map (fun p => p) r); [|apply map_id]. apply map_ext_in. intros q Q. destruct (N.eqb_spec (p_id q) (p_id y)); [|reflexivity]. destruct H1. rewrite <- e. now apply in_map.
    + unfold flags_off in *. rewrite Forall_forall in *. intros q Q. apply Fo. eapply Permutation_in; [symmetry; exact Pm|now right].
  - intros p' I. apply in_map_iff in I. destruct I as (q & Eq & I). apply (Permutation_in _ (Permutation_sym Pm)) in I. assert (X : exists p, In p (ps_paths s) /\ p_id q = p_id p /\ p_cid q = p_cid p /\ p_state q = p_state p /\ p_valid q = p_valid p).
    { unfold cleared in I. destruct (ps_prim s); [|eauto 8]. apply in_map_iff in I. destruct I as (p & Ep & I). exists p. destruct (p_id p =? n); subst q; auto 8. }
    destruct X as (p & I' & X1 & X2 & X3 & X4). exists p. destruct (p_id q =? i); subst p'; auto 8.
  - intros p I. assert (X : exists q, In q (cleared s) /\ p_id q = p_id p /\ p_cid q = p_cid p /\ p_state q = p_state p /\ p_valid q = p_valid p).
    { unfold cleared. destruct (ps_prim s) as [n|]; [|eauto 8]. exists (if p_id p =? n then set_primary false p else p). split; [apply in_map_iff; exists p; auto|]. destruct (p_id p =? n); auto 8. }
    destruct X as (q & I' & X1 & X2 & X3 & X4). apply (Permutation_in _ Pm) in I'. exists (if p_id q =? i then set_primary true q else q). split; [apply in_map_iff; exists q; auto|]. destruct (p_id q =? i); auto 8.
Qed.
Lemma perm_len : forall (a b : list path), Permutation (ids a) (ids b) -> lenN a = lenN b.
Proof. intros a b P. apply Permutation_length in P. unfold ids in P. rewrite !map_length in P. unfold lenN. now rewrite P. Qed.
Lemma select_inv : forall i s, ps_inv s -> In i (ids (ps_paths s)) -> ps_inv (fst (select_primary i s)).
Proof.
  intros i s (A & B & C) I. destruct (select_spec i s A C I) as (_ & E1 & _ & _ & P & Po & _). unfold ps_inv. rewrite E1. splits; auto.
  - eapply Permutation_NoDup; eauto.
  - now rewrite <- (perm_len _ _ P).
Qed.
(** [sweep] keeps those paths whose timeout says so. *)
Lemma sweep_spec : forall now pto l, sweep now pto l = (map (fun p => fst (p_timeout now pto p)) (filter (fun p => snd (p_timeout now pto p)) l), map (fun p => fst (p_timeout now pto p)) (filter (fun p => negb (snd (p_timeout now pto p))) l)).
Proof. induction l as [|p l IH]; [reflexivity|]. cbn [sweep filter]. rewrite IH. destruct (p_timeout now pto p) as [p' b] eqn:E. cbn [snd]. destruct b; cbn [negb map]; rewrite E; reflexivity. Qed.
Lemma timeout_same : forall now pto p, let q := fst (p_timeout now pto p) in p_id q = p_id p /\ p_prim q = p_prim p /\ p_cid q = p_cid p /\ is_valid q = is_valid p.
Proof. intros now pto p. cbn. destruct (probe_state p) as (V & _ & A & B & C). destruct (p_state p); auto. destruct (_ <=? _); auto. Qed.
Lemma nodup_filter : forall (f : path -> bool) l, NoDup (ids l) -> NoDup (ids (filter f l)).
Proof. induction l as [|p l IH]; intros H; [exact H|]. inv H. cbn. destruct (f p); [|auto]. constructor; [|auto]. intros I. apply H2. apply in_map_iff in I. destruct I as (q & <- & I). apply filter_In in I. apply in_map. tauto. Qed.
Lemma len_filter : forall (f : path -> bool) l, lenN (filter f l) <= lenN l.
Proof. induction l as [|p l IH]; [reflexivity|]. cbn [filter]. destruct (f p); rewrite ?lenN_cons; lia. Qed.
Lemma shape_timeouts : forall now pto l, shape (map (fun p => fst (p_timeout now pto p)) l) = shape l.
Proof. intros. unfold shape. rewrite map_map. apply map_ext. intros p. destruct (timeout_same now pto p) as (-> & -> & _). reflexivity. Qed.
Lemma off_filter : forall f l, flags_off l -> flags_off (filter f l).
Proof. intros f l H. unfold flags_off in *. rewrite Forall_forall in *. intros p I. apply filter_In in I. now apply H. Qed.
Lemma off_exists : forall l, existsb p_prim l = false <-> flags_off l.
Proof. induction l as [|p l IH]; cbn; [split; [constructor|auto]|]. rewrite orb_false_iff. split; [intros [A B]; constructor; [auto|now apply IH]|intros H; inv H; split; [auto|now apply IH]]. Qed.
Lemma timeout_inv : forall now pto s, ps_inv s -> ps_inv (fst (ps_timeout now pto s)).
Proof.
  intros now pto s (A & B & C). unfold ps_timeout. rewrite sweep_spec. set (F := fun p => snd (p_timeout now pto p)). set (keep := map _ (filter F (ps_paths s))). set (dead := map _ (filter (fun p => negb _) (ps_paths s))).
  assert (Sk : shape keep = shape (filter F (ps_paths s))) by apply shape_timeouts. assert (Sd : shape dead = shape (filter (fun p => negb (F p)) (ps_paths s))) by apply shape_timeouts.
  assert (Nk : NoDup (ids keep)) by (rewrite (shape_ids _ _ Sk); now apply nodup_filter). assert (Lk : lenN keep <= 15) by (rewrite (shape_len _ _ Sk); pose proof (len_filter F (ps_paths s)); lia). clearbody keep dead.
  destruct (existsb p_prim dead) eqn:Ex.
  - assert (Ok : flags_off keep).
    { apply (shape_flags _ _ (eq_sym Sk)). destruct (ps_prim s) as [i|]; cbn [prim_ok] in C; [|now apply off_filter]. destruct C as (p & r & Ep & E1 & E2 & Fr). rewrite Ep in *. cbn [filter] in *. destruct (F p) eqn:Fp; [|now apply off_filter].
      exfalso. assert (flags_off dead) as X by (apply (shape_flags _ _ (eq_sym Sd)); now apply off_filter). apply off_exists in X. congruence. }
    destruct (find is_valid (rev keep)) as [p|] eqn:Fv; cbn [fst].
    + apply select_inv; [unfold ps_inv; cbn; auto|]. cbn. apply List.find_some in Fv. apply in_map. apply in_rev. tauto.
    + unfold ps_inv. cbn. auto.
  - cbn [fst]. unfold ps_inv. cbn [ps_paths ps_prim]. splits; auto. apply off_exists in Ex. apply (shape_prim _ _ _ (eq_sym Sk)). destruct (ps_prim s) as [i|]; cbn [prim_ok] in *; [|now apply off_filter]. destruct C as (p & r & Ep & E1 & E2 & Fr). rewrite Ep in *. cbn [filter] in *.
    destruct (F p) eqn:Fp; [|exfalso; cbn [negb] in Sd; apply (shape_flags _ _ Sd) in Ex; unfold flags_off in Ex; inv Ex; congruence]. exists p, (filter F r). splits; auto. now apply off_filter.
Qed.
Lemma respond_spec : forall d now l, let '(l', hit) := respond d now l in
  shape l' = shape l /\ map p_cid l' = map p_cid l /\ match hit with Some i => In i (ids l) /\ exists p, In p l' /\ p_id p = i /\ is_valid p = true | None => True end.
Proof.
  induction l as [|p l IH]; cbn; [auto|]. assert (X : let '(p', b) := p_response d now p in p_id p' = p_id p /\ p_prim p' = p_prim p /\ p_cid p' = p_cid p /\ (b = true -> is_valid p' = true)).
  { unfold p_response. destruct (p_state p) as [| |c data mtu t|]; [splits; auto; discriminate|splits; auto; discriminate| |splits; auto; discriminate]. destruct (d =? data); [|splits; auto; discriminate]. destruct mtu; [auto|]. destruct (probe_state (set_valid now p)) as (V & _ & P1 & P2 & P3). rewrite V, P1, P2, P3. auto. }
  destruct (p_response d now p) as [p' b]. destruct X as (X1 & X2 & X3 & X4). destruct b; [cbn; rewrite X1, X2, X3; splits; auto; exists p'; auto|]. destruct (respond d now l) as [l' hit]. destruct IH as (H1 & H2 & H3). change (shape (p' :: l')) with ((p_id p', p_prim p') :: shape l'). change (shape (p :: l)) with ((p_id p, p_prim p) :: shape l). cbn [map]. rewrite X1, X2, X3, H1, H2. splits; auto. destruct hit; [|exact Logic.I]. destruct H3 as (H3 & q & H4 & H5). split; [now right|]. exists q. split; [now right|auto].
Qed.
Inductive rc (prior : N) : list path -> list path -> list path -> list N -> Prop :=
| rc_nil : rc prior [] [] [] []
| rc_keep : forall p l k d r, (match p_cid p with Some (seq, false) => prior <= seq | _ => True end) -> rc prior l k d r -> rc prior (p :: l) (p :: k) d r
| rc_new : forall p l k d r seq c, p_cid p = Some (seq, false) -> seq < prior -> rc prior l k d r -> rc prior (p :: l) (with_cid (Some c) p :: k) d (seq :: r)
| rc_drop : forall p l k d r seq, p_cid p = Some (seq, false) -> seq < prior -> rc prior l k d r -> rc prior (p :: l) k (p :: d) (seq :: r).
Lemma recid_rc : forall prior l store, let '(k, d, r) := recid prior l store in rc prior l k d r.
Proof.
  induction l as [|p l IH]; intros store; cbn; [constructor|]. destruct (p_cid p) as [[seq []]|] eqn:E.
  - specialize (IH store). destruct (recid prior l store) as [[k d] r]. constructor; [now rewrite E|exact IH].
  - destruct (N.ltb_spec seq prior).
    + destruct store as [|c store]; [specialize (IH [])|specialize (IH store)]; [destruct (recid prior l []) as [[k d] r]|destruct (recid prior l store) as [[k d] r]]; econstructor; eauto.
    + specialize (IH store). destruct (recid prior l store) as [[k d] r]. constructor; [now rewrite E|exact IH].
  - specialize (IH store). destruct (recid prior l store) as [[k d] r]. constructor; [now rewrite E|exact IH].
Qed.
Lemma rc_facts : forall prior l k d r, rc prior l k d r -> (forall i, In i (ids k) -> In i (ids l)) /\ (NoDup (ids l) -> NoDup (ids k)) /\ lenN k <= lenN l /\ (flags_off l -> flags_off k) /\
  (forall i, prim_ok (Some i) l -> flags_off d -> prim_ok (Some i) k) /\
  (forall p seq, In p l -> p_cid p = Some (seq, false) -> In seq r \/ exists p', In p' k /\ p_id p' = p_id p /\ p_cid p' = p_cid p).
Proof.
  induction 1 as [|p l k d r Hc H (A & B & C & D & E & G)|p l k d r seq c Hc Hs H (A & B & C & D & E & G)|p l k d r seq Hc Hs H (A & B & C & D & E & G)].
  - splits; auto; try lia; intros ? ? [].
  - splits.
    + intros i [<-|I]; [now left|right; auto].
    + intros Nd. inv Nd. constructor; auto.
    + rewrite !lenN_cons. lia.
    + intros F. inv F. constructor; auto. now apply D.
    + intros i (q & r' & Eq & E1 & E2 & F) Fd. inv Eq. exists q, k. splits; auto.
    + intros q seq [<-|I] Q; [right; exists p; split; [now left|auto]|]. destruct (G q seq I Q) as [X|(p' & X1 & X2)]; [auto|right; exists p'; split; [now right|auto]].
  - splits.
    + intros i [<-|I]; [now left|right; auto].
    + intros Nd. inv Nd. constructor; auto.
    + rewrite !lenN_cons. lia.
    + intros F. inv F. constructor; auto. now apply D.
    + intros i (q & r' & Eq & E1 & E2 & F) Fd. inv Eq. exists (with_cid (Some c) q), k. splits; auto.
    + intros q s [<-|I] Q; [left; rewrite Hc in Q; inv Q; now left|]. destruct (G q s I Q) as [X|(p' & X1 & X2)]; [left; now right|right; exists p'; split; [now right|auto]].
  - splits.
    + intros i I. right. auto.
    + intros Nd. inv Nd. auto.
    + rewrite lenN_cons. lia.
    + intros F. inv F. now apply D.
    + intros i (q & r' & Eq & E1 & E2 & F) Fd. inv Eq. inv Fd. congruence.
    + intros q s [<-|I] Q; [left; rewrite Hc in Q; inv Q; now left|]. destruct (G q s I Q) as [X|(p' & X1 & X2)]; [left; now right|right; eauto].
Qed.
Lemma own_step : forall p o p' out, own_op o = true -> p_step p o = Some (p', out) -> p_id p' = p_id p /\ p_prim p' = p_prim p /\ p_cid p' = p_cid p.
Proof.
  intros p o p' out Ow S. destruct o as [d|d now| |room rd m' now|now pto|now|now|b|mm|b|n|n cwnd pto rec paced pm]; cbn in Ow; try discriminate; cbn [p_step] in S; try (apply some_inj in S; apply pair_equal_spec in S; destruct S as [<- _]; cbn; auto; fail).
  - unfold p_write, p_challenge in S. destruct (_ <? _); [inv S; auto|]. destruct (p_chal p); [destruct (_ <? _); [inv S; auto|]; cbn in S; destruct (p_state p); inv S; auto|destruct (p_state p); inv S; auto].
  - destruct (_ <=? _); [|discriminate]. inv S. auto.
Qed.
Lemma perm_spec : forall p cid s, ps_inv s -> (forall q, In q (ps_paths s) -> p_id q <> p_id p) -> p_prim p = false -> ps_inv (make_permanent p cid s).
Proof.
  intros p cid s (A & B & C) Fr Pp. unfold make_permanent.
  set (s1 := if MAX_PATHS <=? lenN (ps_paths s) then _ else s). assert (H1 : NoDup (ids (ps_paths s1)) /\ lenN (ps_paths s1) <= 14 /\ prim_ok (ps_prim s1) (ps_paths s1) /\ (forall q, In q (ps_paths s1) -> p_id q <> p_id p)).
  { unfold s1, MAX_PATHS. destruct (N.leb_spec 15 (lenN (ps_paths s))); [|splits; auto; lia]. destruct (ps_paths s) as [|x [|r l]] eqn:E; [change (lenN (@nil path)) with 0 in *; lia|rewrite lenN_cons, lenN_nil in *; lia|]. cbn [ps_paths ps_prim]. rewrite !lenN_cons in *. splits.
    - cbn in *. inv A. inv H3. constructor; auto. intros X. apply H2. now right.
    - lia.
    - destruct (ps_prim s); cbn in *; [|inv C; inv H3; constructor; auto]. destruct C as (q & t & Eq & E1 & E2 & F). inv Eq. exists q, l. splits; auto. now inv F.
    - intros q [<-|I]; [apply Fr; now left|apply Fr; right; now right]. }
  clearbody s1. destruct H1 as (H1 & H2 & H3 & H4). set (s2 := mkPs _ _ _ _).
  assert (H5 : ps_inv s2).
  { unfold s2, ps_inv. cbn [ps_paths ps_prim]. splits.
    - unfold ids. rewrite map_app. cbn. apply nodup_snoc; [exact H1|]. intros X. apply in_map_iff in X. destruct X as (q & E & I). exact (H4 q I E).
    - rewrite lenN_app, lenN_cons, lenN_nil. lia.
    - destruct (ps_prim s1); cbn in *.
      + destruct H3 as (q & t & -> & E1 & E2 & F). exists q, (t ++ [with_cid (Some cid) p]). splits; auto. apply Forall_app. split; [exact F|]. constructor; [exact Pp|constructor].
      + apply Forall_app. split; [exact H3|]. constructor; [exact Pp|constructor]. }
  destruct (ps_prim s2) eqn:E; [exact H5|]. apply select_inv; [exact H5|]. unfold s2, ids. cbn. rewrite map_app. apply in_or_app. right. now left.
Qed.
Lemma probe_shape : forall i l, shape (upd i probe l) = shape l.
Proof. intros. apply upd_shape. intros p _ _. destruct (probe_state p) as (_ & _ & A & B & _). auto. Qed.
Lemma step_inv : forall s o s', ps_step s o = Some s' -> ps_inv s -> ps_inv s'.
Proof.
  intros s o s' H J. destruct o as [p cid|i force mark now|now pto|i now|d now|prior released store|k|n|n|i o]; cbn [ps_step] in H.
  - destruct (existsb _ _ || _) eqn:E; [discriminate|]. apply orb_false_iff in E. destruct E as [E1 E2]. inv H. apply perm_spec; auto. intros q I X. assert (existsb (fun q => p_id q =? p_id p) (ps_paths s) = true); [|congruence]. apply existsb_exists. exists q. split; [exact I|now apply N.eqb_eq].
  - unfold migrate in H. destruct (find_id i (ps_paths s)) as [p|] eqn:F; [|discriminate]. apply some_inj in H. subst s'. set (s0 := mkPs (upd i (with_mark mark) (ps_paths s)) _ _ _).
    assert (J0 : ps_inv s0) by (eapply shape_inv; [| |exact J]; [cbn; symmetry; apply upd_shape; auto|reflexivity]). assert (I0 : In i (ids (ps_paths s0))) by (unfold s0; cbn; rewrite upd_ids by reflexivity; apply find_some in F; destruct F as [F1 <-]; now apply in_map).
    clearbody s0. set (s1 := if force || is_valid p then _ else _). assert (J1 : ps_inv s1).
    { unfold s1. destruct (force || is_valid p); [|exact J0]. eapply shape_inv; [| |apply (select_inv i (mkPs (upd i (set_valid now) (ps_paths s0)) (ps_prim s0) (ps_target s0) (ps_retire s0)))]; try reflexivity.
      - eapply shape_inv; [| |exact J0]; [cbn; symmetry; apply upd_shape; auto|reflexivity].
      - cbn. now rewrite upd_ids by reflexivity. }
    clearbody s1. eapply shape_inv; [| |exact J1]; [cbn; symmetry; apply probe_shape|reflexivity].
  - inv H. now apply timeout_inv.
  - unfold handle_migration in H. destruct (find_id i (ps_paths s)) as [p|] eqn:F; [|discriminate]. destruct (p_prim p).
    + inv H. eapply shape_inv; [| |exact J]; [cbn; symmetry; apply upd_shape; auto|reflexivity].
    + assert (I0 : In i (ids (ps_paths s))) by (apply find_some in F; destruct F as [F1 <-]; now apply in_map). pose proof (select_inv i s J I0) as J1. destruct (select_primary i s) as [s1 old]. cbn [fst] in J1. apply some_inj in H. subst s'. destruct old as [o|]; [|exact J1]. eapply shape_inv; [| |exact J1]; [cbn; symmetry; apply probe_shape|reflexivity].
  - inv H. unfold ps_response. pose proof (respond_spec d now (ps_paths s)) as R. destruct (respond d now (ps_paths s)) as [l hit]. destruct R as (R1 & _ & R2). assert (J1 : forall t, ps_inv (mkPs l (ps_prim s) t (ps_retire s))) by (intros t; eapply shape_inv; [| |exact J]; [cbn; now symmetry|reflexivity]).
    destruct hit as [i|]; [|apply J1]. destruct (opt_eqb _ _); [|apply J1]. apply select_inv; [apply J1|]. cbn [ps_paths]. rewrite (shape_ids _ _ R1). tauto.
  - unfold retire_cids in H. pose proof (recid_rc prior (ps_paths s) store) as R. destruct (recid prior (ps_paths s) store) as [[k d] r]. destruct (existsb p_prim d) eqn:Ex; [discriminate|]. inv H. apply rc_facts in R. destruct R as (A & B & C & D & E & _). destruct J as (J1 & J2 & J3). unfold ps_inv. cbn. splits; auto; [lia|]. apply off_exists in Ex. destruct (ps_prim s); [now apply E|now apply D].
  - inv H. exact J.
  - inv H. exact J.
  - inv H. exact J.
  - destruct (own_op o) eqn:Ow; [|discriminate]. destruct (find_id i (ps_paths s)) as [p|] eqn:F; [|discriminate]. destruct (p_step p o) as [[p' out]|] eqn:S; [|discriminate]. inv H. eapply shape_inv; [| |exact J]; [cbn; symmetry|reflexivity]. destruct (own_step _ _ _ _ Ow S) as (O1 & O2 & _).
    apply upd_shape. intros q I Eq. destruct J as (Nd & _). apply find_some in F. destruct F as [F1 F2]. assert (q = p); [|subst; auto].
    apply (unique (ps_paths s)); auto; congruence.
Qed.
Lemma new_inv : ps_inv ps_new.
Proof. unfold ps_inv. cbn. splits; [apply NoDup_nil|lia|constructor]. Qed.
Lemma ps_run_inv : forall ops s s', ps_run s ops = Some s' -> ps_inv s -> ps_inv s'.
Proof. induction ops as [|o ops IH]; intros s s' H J; cbn in H; [now inv H|]. destruct (ps_step s o) as [s1|] eqn:S; [|discriminate]. eapply IH; eauto. eapply step_inv; eauto. Qed.

(** ** Theorems *)
(** C74: whatever happens, at most fifteen paths are kept, no path twice, and the primary path is among them: it is never dropped to make room,
    and no other path takes itself for the primary. *)
Theorem primary_is_kept : forall ops s, ps_run ps_new ops = Some s ->
  lenN (ps_paths s) <= 15 /\ NoDup (map p_id (ps_paths s)) /\
  (forall i, ps_prim s = Some i <-> exists p, In p (ps_paths s) /\ p_id p = i /\ p_prim p = true).
Proof.
  intros ops s H. destruct (ps_run_inv _ _ _ H new_inv) as (A & B & C). splits; auto. intros i. destruct (ps_prim s) as [j|]; cbn in C.
  - destruct C as (p & r & E & E1 & E2 & F). split.
    + intros X. inv X. exists p. rewrite E. splits; auto. now left.
    + intros (q & I & Q1 & Q2). rewrite E in I. destruct I as [<-|I]; [congruence|]. unfold flags_off in F. rewrite Forall_forall in F. specialize (F q I). congruence.
  - split; [discriminate|]. intros (q & I & _ & Q2). unfold flags_off in C. rewrite Forall_forall in C. specialize (C q I). congruence.
Qed.
Print Assumptions primary_is_kept.
Lemma in_upd : forall i f l p, In p l -> In (if p_id p =? i then f p else p) (upd i f l).
Proof. intros i f l p I. apply in_map_iff. exists p. auto. Qed.
(** C74: a connection ID in use on a path stays in use on it or is put up for retirement: none is forgotten when a path is dropped. *)
Theorem cid_kept_or_retired : forall s o s' p seq, ps_inv s -> ps_step s o = Some s' -> In p (ps_paths s) -> p_cid p = Some (seq, false) ->
  (exists p', In p' (ps_paths s') /\ p_id p' = p_id p /\ p_cid p' = Some (seq, false)) \/ In seq (ps_retire s').
Proof.
  intros s o s' p seq J H I C. destruct o as [p0 cid|i force mark now|now pto|i now|d now|prior released store|k|n|n|i o]; cbn [ps_step] in H.
  - destruct (existsb _ _ || _) eqn:E; [discriminate|]. apply orb_false_iff in E. destruct E as [E1 E2]. inv H. unfold make_permanent. set (s1 := if MAX_PATHS <=? lenN (ps_paths s) then _ else s).
    assert (H1 : In p (ps_paths s1) \/ In seq (ps_retire s1)).
    { unfold s1. destruct (_ <=? _); [|auto]. destruct (ps_paths s) as [|x [|r l]] eqn:E; [destruct I|left; now rewrite E|]. cbn. destruct I as [->|[->|I]]; [auto|right; apply in_or_app; right; unfold retired; rewrite C; now left|auto]. }
    set (s2 := mkPs (ps_paths s1 ++ _) _ _ _). destruct (ps_prim s2) eqn:Pr.
    + destruct H1 as [H1|H1]; [left; exists p; splits; auto; apply in_or_app; now left|right; exact H1].
    + assert (R2 : ps_retire (fst (select_primary (p_id p0) s2)) = ps_retire s1) by (unfold select_primary; rewrite Pr; destruct (find_id _ _); reflexivity). rewrite R2. destruct H1 as [H1|H1]; [left|now right].
      unfold select_primary. rewrite Pr. destruct (find_id _ _); cbn [fst ps_paths]; [|exists p; splits; auto; apply in_or_app; now left]. pose proof (swap0_perm (p_id p0) (ps_paths s2)) as Pm. assert (I2 : In p (ps_paths s2)) by (apply in_or_app; now left). apply (Permutation_in _ Pm) in I2. eexists. split; [apply in_upd, I2|]. destruct (_ =? _); auto.
  - unfold migrate in H. destruct (find_id i (ps_paths s)) as [q|] eqn:F; [|discriminate]. apply some_inj in H. subst s'. left. destruct J as (Nd & _ & Po).
    assert (X : exists p1, In p1 (ps_paths (mkPs (upd i (with_mark mark) (ps_paths s)) (ps_prim s) (ps_target s) (ps_retire s))) /\ p_id p1 = p_id p /\ p_cid p1 = Some (seq, false)) by (cbn; eexists; split; [apply in_upd, I|]; destruct (_ =? _); auto).
    assert (S0 : shape (upd i (with_mark mark) (ps_paths s)) = shape (ps_paths s)) by (apply upd_shape; auto). destruct (force || is_valid q).
    + cbn [ps_paths ps_prim ps_target ps_retire] in *. destruct X as (p1 & I1 & X1 & X2). set (s2 := mkPs (upd i (set_valid now) _) _ _ _).
      assert (S2 : shape (ps_paths s2) = shape (ps_paths s)) by (unfold s2; cbn; rewrite upd_shape; auto).
      destruct (select_spec i s2) as (_ & _ & _ & _ & _ & _ & _ & K).
      * rewrite (shape_ids _ _ S2). exact Nd.
      * eapply shape_prim; [symmetry; exact S2|exact Po].
      * rewrite (shape_ids _ _ S2). apply find_some in F. destruct F as [F1 <-]. now apply in_map.
      * destruct (K (if p_id p1 =? i then set_valid now p1 else p1)) as (p2 & I2 & Y1 & Y2 & _); [apply in_upd, I1|]. eexists. split; [apply in_upd, I2|]. destruct (probe_state p2) as (_ & _ & Z1 & _ & Z2). destruct (p_id p2 =? i); rewrite ?Z1, ?Z2, Y1, Y2; destruct (p_id p1 =? i); auto.
    + cbn [ps_paths]. destruct X as (p1 & I1 & X1 & X2). eexists. split; [apply in_upd, I1|]. destruct (probe_state p1) as (_ & _ & Z1 & _ & Z2). destruct (p_id p1 =? i); rewrite ?Z1, ?Z2; auto.
  - apply some_inj in H. subst s'. unfold ps_timeout. rewrite sweep_spec. set (keep := map _ (filter (fun p => snd _) _)). set (dead := map _ (filter (fun p => negb _) _)).
    assert (X : (exists p1, In p1 keep /\ p_id p1 = p_id p /\ p_cid p1 = Some (seq, false)) \/ In seq (ps_retire s ++ flat_map retired dead)).
    { destruct (timeout_same now pto p) as (T1 & _ & T2 & _). destruct (snd (p_timeout now pto p)) eqn:E.
      - left. exists (fst (p_timeout now pto p)). rewrite T1, T2. splits; auto. apply (in_map (fun p => fst (p_timeout now pto p))). apply filter_In. auto.
      - right. apply in_or_app. right. apply in_flat_map. exists (fst (p_timeout now pto p)). split; [apply (in_map (fun p => fst (p_timeout now pto p))), filter_In; rewrite E; auto|]. unfold retired. rewrite T2, C. now left. }
    pose proof (timeout_inv now pto s J) as J'. unfold ps_timeout in J'. rewrite sweep_spec in J'. fold keep dead in J'. clearbody keep dead. destruct (existsb p_prim dead); [|exact X]. destruct (find is_valid (rev keep)) as [v|] eqn:Fv; [|exact X]. cbn [fst] in *. clear J'.
    unfold select_primary. cbn [ps_prim ps_paths ps_target ps_retire]. destruct (find_id (p_id v) keep); cbn [fst ps_paths ps_retire]; [|exact X]. destruct X as [(p1 & I1 & X1 & X2)|X]; [left|now right]. apply (Permutation_in _ (swap0_perm (p_id v) keep)) in I1. eexists. split; [apply in_upd, I1|]. destruct (_ =? _); auto.
  - unfold handle_migration in H. destruct (find_id i (ps_paths s)) as [q|] eqn:F; [|discriminate]. left. destruct J as (Nd & _ & Po). destruct (p_prim q).
    + inv H. cbn. eexists. split; [apply in_upd, I|]. destruct (_ =? _); auto.
    + destruct (select_spec i s Nd Po) as (_ & _ & _ & _ & _ & _ & _ & K); [apply find_some in F; destruct F as [F1 <-]; now apply in_map|]. destruct (select_primary i s) as [s1 old]. cbn [fst] in K. apply some_inj in H. subst s'. destruct (K p I) as (p1 & I1 & X1 & X2 & _). rewrite C in X2. destruct old as [o|]; [|eauto].
      cbn. eexists. split; [apply in_upd, I1|]. destruct (probe_state p1) as (_ & _ & Z1 & _ & Z2). destruct (p_id p1 =? o); rewrite ?Z1, ?Z2; auto.
  - apply some_inj in H. subst s'. left. unfold ps_response. pose proof (respond_spec d now (ps_paths s)) as R. destruct (respond d now (ps_paths s)) as [l hit]. destruct R as (R1 & R2 & R3).
    assert (X : exists p1, In p1 l /\ p_id p1 = p_id p /\ p_cid p1 = Some (seq, false)).
    { clear -R1 R2 I C. revert l R1 R2. induction (ps_paths s) as [|x m IH]; intros l R1 R2; [destruct I|]. destruct l as [|y l]; [discriminate|]. cbn in *. inv R1. inv R2. destruct I as [->|I]; [exists y; splits; auto; congruence|]. destruct (IH I l) as (p1 & I1 & X); auto. exists p1. auto. }
    destruct hit as [j|]; [|exact X]. destruct (opt_eqb _ _); [|exact X]. destruct X as (p1 & I1 & X1 & X2). destruct J as (Nd & _ & Po). destruct (select_spec j (mkPs l (ps_prim s) None (ps_retire s))) as (_ & _ & _ & _ & _ & _ & _ & K); cbn [ps_paths ps_prim].
    * rewrite (shape_ids _ _ R1). exact Nd.
    * eapply shape_prim; [symmetry; exact R1|exact Po].
    * rewrite (shape_ids _ _ R1). tauto.
    * destruct (K p1 I1) as (p2 & I2 & Y1 & Y2 & _). exists p2. rewrite Y1, Y2. auto.
  - unfold retire_cids in H. pose proof (recid_rc prior (ps_paths s) store) as R. destruct (recid prior (ps_paths s) store) as [[k d] r]. destruct (existsb p_prim d) eqn:Ex; [discriminate|]. inv H. apply rc_facts in R. destruct R as (_ & _ & _ & _ & _ & G). cbn. destruct (G p seq I C) as [X|(p' & X1 & X2 & X3)].
    + right. apply in_or_app. right. apply in_or_app. now right.
    + left. exists p'. splits; auto. congruence.
  - inv H. left. eauto.
  - inv H. left. eauto.
  - inv H. left. eauto.
  - destruct (own_op o) eqn:Ow; [|discriminate]. destruct (find_id i (ps_paths s)) as [q|] eqn:F; [|discriminate]. destruct (p_step q o) as [[p' out]|] eqn:S; [|discriminate]. inv H. left. cbn. eexists. split; [apply in_upd, I|]. destruct (own_step _ _ _ _ Ow S) as (O1 & _ & O3). destruct (N.eqb_spec (p_id p) i); [|auto].
    apply find_some in F. destruct F as [F1 F2]. assert (q = p); [|subst q; rewrite O1, O3; auto]. destruct J as (Nd & _). apply (unique (ps_paths s)); auto; congruence.
Qed.
Print Assumptions cid_kept_or_retired.
(** C74: unless the peer moves, the primary path changes only to one that was validated. *)
Theorem moves_only_to_valid : forall s o s' i j, ps_inv s -> ps_step s o = Some s' -> (forall k now, o <> QHandle k now) -> ps_prim s = Some i -> ps_prim s' = Some j -> i <> j ->
  exists p, In p (ps_paths s') /\ p_id p = j /\ is_valid p = true.
Proof.
  intros s o s' i j J H No Pi Pj Ne. destruct o as [p0 cid|k force mark now|now pto|k now|d now|prior released store|k|n|n|k o]; cbn [ps_step] in H.
  - destruct (existsb _ _ || _) eqn:E; [discriminate|]. inv H. exfalso. apply Ne. unfold make_permanent in Pj. set (s1 := if MAX_PATHS <=? lenN (ps_paths s) then _ else s) in Pj. assert (X : ps_prim s1 = Some i) by (unfold s1; destruct (_ <=? _); [destruct (ps_paths s) as [|? [|? ?]]|]; exact Pi). cbn [ps_prim] in Pj. rewrite X in Pj. cbn in Pj. congruence.
  - unfold migrate in H. destruct (find_id k (ps_paths s)) as [q|] eqn:F; [|discriminate]. apply some_inj in H. subst s'. cbn [ps_prim ps_paths] in *. destruct J as (Nd & _ & Po). destruct (force || is_valid q); [|cbn in Pj; congruence]. cbn [ps_prim ps_paths] in *. set (s2 := mkPs (upd k (set_valid now) _) _ _ _) in *.
    assert (S2 : shape (ps_paths s2) = shape (ps_paths s)) by (unfold s2; cbn [ps_paths]; rewrite upd_shape; auto; apply upd_shape; auto).
    destruct (select_spec k s2) as (_ & E1 & _ & _ & _ & _ & _ & K).
    + rewrite (shape_ids _ _ S2). exact Nd.
    + eapply shape_prim; [symmetry; exact S2|exact Po].
    + rewrite (shape_ids _ _ S2). apply find_some in F. destruct F as [F1 <-]. now apply in_map.
    + rewrite E1 in Pj. inv Pj. apply find_some in F. destruct F as [F1 F2]. destruct (K (set_valid now (with_mark mark q))) as (p2 & I2 & Y1 & _ & _ & Y3).
      { unfold s2. cbn. pose proof (in_upd j (set_valid now) _ _ (in_upd j (with_mark mark) _ _ F1)) as X. rewrite F2, N.eqb_refl in X. cbn [p_id with_mark] in X. rewrite F2, N.eqb_refl in X. exact X. }
      cbn in Y1. exists (if p_id p2 =? j then probe p2 else p2). split; [apply in_upd, I2|]. destruct (probe_state p2) as (V & _ & Z & _). destruct (_ =? _); rewrite ?V, ?Z; (split; [congruence|]); unfold is_valid; now rewrite Y3.
  - apply some_inj in H. subst s'. unfold ps_timeout in *. rewrite sweep_spec in *. set (keep := map _ (filter (fun p => snd _) _)) in *. set (dead := map _ (filter (fun p => negb _) _)) in *. destruct (existsb p_prim dead); [|cbn in Pj; congruence]. destruct (find is_valid (rev keep)) as [v|] eqn:Fv; [|discriminate].
    apply List.find_some in Fv. destruct Fv as [Iv Vv]. apply in_rev in Iv. cbn [fst] in *. unfold select_primary in *. cbn [ps_prim ps_paths ps_target ps_retire] in *. destruct (find_id (p_id v) keep) eqn:Ff; cbn [fst ps_prim ps_paths] in *; inv Pj; [|eauto].
    apply (Permutation_in _ (swap0_perm (p_id v) keep)) in Iv. exists (set_primary true v). split; [|auto]. pose proof (in_upd (p_id v) (set_primary true) _ _ Iv) as X. now rewrite N.eqb_refl in X.
  - destruct (No k now eq_refl).
  - apply some_inj in H. subst s'. unfold ps_response in *. pose proof (respond_spec d now (ps_paths s)) as R. destruct (respond d now (ps_paths s)) as [l hit]. destruct R as (R1 & _ & R3). destruct hit as [k|]; [|cbn in Pj; congruence]. destruct (opt_eqb _ _); [|cbn in Pj; congruence]. destruct J as (Nd & _ & Po).
    destruct (select_spec k (mkPs l (ps_prim s) None (ps_retire s))) as (_ & E1 & _ & _ & _ & _ & _ & K); cbn [ps_paths ps_prim].
    + rewrite (shape_ids _ _ R1). exact Nd.
    + eapply shape_prim; [symmetry; exact R1|exact Po].
    + rewrite (shape_ids _ _ R1). tauto.
    + rewrite E1 in Pj. inv Pj. destruct R3 as (_ & p & I & E & V). destruct (K p I) as (p2 & I2 & Y1 & _ & _ & Y3). exists p2. splits; auto; [congruence|]. unfold is_valid in *. now rewrite Y3.
  - unfold retire_cids in H. destruct (recid prior (ps_paths s) store) as [[k d] r]. destruct (existsb p_prim d); [discriminate|]. inv H. cbn in Pj. congruence.
  - inv H. cbn in Pj. congruence.
  - inv H. cbn in Pj. congruence.
  - inv H. cbn in Pj. congruence.
  - destruct (own_op o); [|discriminate]. destruct (find_id k (ps_paths s)); [|discriminate]. destruct (p_step p o) as [[p' out]|]; [|discriminate]. inv H. cbn in Pj. congruence.
Qed.
Print Assumptions moves_only_to_valid.
(** C74: if the primary path fails and another validated path is kept, the connection goes on, on such a path; otherwise it is told there is none. *)
Theorem fails_over : forall now pto s s' ok p, ps_inv s -> ps_timeout now pto s = (s', ok) -> In p (ps_paths s) -> p_prim p = true -> snd (p_timeout now pto p) = false ->
  (ok = true -> exists q, In q (ps_paths s') /\ ps_prim s' = Some (p_id q) /\ p_id q <> p_id p /\ is_valid q = true) /\
  (ok = false -> ps_prim s' = None /\ forall q, In q (ps_paths s') -> is_valid q = false).
Proof.
  intros now pto s s' ok p J H I Pp Dd. unfold ps_timeout in H. rewrite sweep_spec in H. set (keep := map _ (filter (fun p => snd _) _)) in *. set (dead := map _ (filter (fun p => negb _) _)) in *.
  assert (Ex : existsb p_prim dead = true). { apply existsb_exists. exists (fst (p_timeout now pto p)). destruct (timeout_same now pto p) as (_ & -> & _). split; [|exact Pp]. apply (in_map (fun p => fst (p_timeout now pto p))), filter_In. rewrite Dd. auto. }
  rewrite Ex in H. assert (Nk : forall q, In q keep -> p_id q <> p_id p).
  { intros q Q E. apply in_map_iff in Q. destruct Q as (q0 & <- & Q). apply filter_In in Q. destruct Q as [Q1 Q2]. destruct (timeout_same now pto q0) as (T & _). rewrite T in E. assert (q0 = p); [|congruence]. destruct J as (Nd & _). apply (unique (ps_paths s)); auto. }
  clearbody keep dead. destruct (find is_valid (rev keep)) as [v|] eqn:Fv; inv H; split; intros K; try discriminate.
  - apply List.find_some in Fv. destruct Fv as [Iv Vv]. apply in_rev in Iv. unfold select_primary. cbn [ps_prim ps_paths ps_target ps_retire]. destruct (find_id (p_id v) keep) eqn:Ff; cbn [fst ps_prim ps_paths]; [|eauto 8].
    pose proof (Permutation_in _ (swap0_perm (p_id v) keep) Iv) as Iv'. exists (set_primary true v). split; [|split; [reflexivity|split; [exact (Nk v Iv)|exact Vv]]]. pose proof (in_upd (p_id v) (set_primary true) _ _ Iv') as X. now rewrite N.eqb_refl in X.
  - split; [reflexivity|]. cbn. intros q Q. apply in_rev in Q. exact (find_none _ _ Fv q Q).
Qed.
Print Assumptions fails_over.
(** C28: after timeouts are processed no failed path is left. *)
Theorem no_failed_path_left : forall now pto s p, In p (ps_paths (fst (ps_timeout now pto s))) -> p_state p <> PFailed.
Proof.
  intros now pto s p I. unfold ps_timeout in I. rewrite sweep_spec in I. set (keep := map _ (filter (fun p => snd _) _)) in *. set (dead := map _ (filter (fun p => negb _) _)) in *.
  assert (K : forall q, In q keep -> p_state q <> PFailed). { intros q Q E. apply in_map_iff in Q. destruct Q as (q0 & <- & Q). apply filter_In in Q. destruct Q as [_ Q]. unfold p_timeout in *. cbn [fst snd] in *. rewrite E in Q. discriminate. }
  clearbody keep dead. destruct (existsb p_prim dead); [|now apply K]. destruct (find is_valid (rev keep)) as [v|]; [|now apply K]. cbn [fst] in I. unfold select_primary in I. cbn [ps_prim ps_paths ps_target ps_retire] in I. destruct (find_id (p_id v) keep); cbn [fst ps_paths] in I; [|now apply K].
  apply in_map_iff in I. destruct I as (q & E & I). apply (Permutation_in _ (Permutation_sym (swap0_perm (p_id v) keep))) in I. specialize (K q I). destruct (_ =? _); subst p; exact K.
Qed.
Print Assumptions no_failed_path_left.
Lemma ids_step : forall s o s' j, ps_inv s -> ps_step s o = Some s' -> In j (ids (ps_paths s')) -> In j (ids (ps_paths s)) \/ exists p c, o = QPerm p c /\ p_id p = j.
Proof.
  intros s o s' j J H I. pose proof (step_inv _ _ _ H J) as J'. destruct o as [p0 cid|k force mark now|now pto|k now|d now|prior released store|k|n|n|k o]; cbn [ps_step] in H.
  - destruct (existsb _ _ || _) eqn:E; [discriminate|]. inv H. unfold make_permanent in I. set (s1 := if MAX_PATHS <=? lenN (ps_paths s) then _ else s) in I. assert (X : forall x, In x (ids (ps_paths s1)) -> In x (ids (ps_paths s))).
    { unfold s1. destruct (_ <=? _); [|auto]. destruct (ps_paths s) as [|a [|b l]] eqn:El; [intros x X; now rewrite El in X|intros x X; now rewrite El in X|]. cbn. tauto. }
    assert (Y : In j (ids (ps_paths s1 ++ [with_cid (Some cid) p0]))).
    { cbn [ps_prim] in I. destruct (ps_prim s1) eqn:Pr; [exact I|]. unfold select_primary in I. cbn [ps_prim ps_paths] in I. destruct (find_id _ _); cbn [fst ps_paths] in I; [|exact I]. rewrite upd_ids in I by reflexivity. unfold ids in I. eapply Permutation_in; [|exact I]. apply Permutation_map. symmetry. apply swap0_perm. }
    unfold ids in Y. rewrite map_app in Y. apply in_app_or in Y. destruct Y as [Y|[Y|[]]]; [left; apply X; exact Y|right; exists p0, cid; auto].
  - unfold migrate in H. destruct (find_id k (ps_paths s)) as [q|] eqn:F; [|discriminate]. apply some_inj in H. subst s'. left. cbn [ps_paths] in I. rewrite (shape_ids _ _ (probe_shape _ _)) in I. destruct J as (Nd & _ & Po). destruct (force || is_valid q); cbn [ps_paths] in I; [|rewrite upd_ids in I by reflexivity; exact I].
    set (s2 := mkPs (upd k (set_valid now) _) _ _ _) in *. assert (S2 : shape (ps_paths s2) = shape (ps_paths s)) by (unfold s2; cbn [ps_paths]; rewrite upd_shape; auto; apply upd_shape; auto).
    destruct (select_spec k s2) as (_ & _ & _ & _ & P & _).
    + rewrite (shape_ids _ _ S2). exact Nd.
    + eapply shape_prim; [symmetry; exact S2|exact Po].
    + rewrite (shape_ids _ _ S2). apply find_some in F. destruct F as [F1 <-]. now apply in_map.
    + apply (Permutation_in _ (Permutation_sym P)) in I. now rewrite (shape_ids _ _ S2) in I.
  - apply some_inj in H. subst s'. left. unfold ps_timeout in I. rewrite sweep_spec in I. set (keep := map _ (filter (fun p => snd _) _)) in *. set (dead := map _ (filter (fun p => negb _) _)) in *.
    assert (K : forall x, In x (ids keep) -> In x (ids (ps_paths s))). { intros x X. unfold keep in X. rewrite (shape_ids _ _ (shape_timeouts now pto _)) in X. apply in_map_iff in X. destruct X as (q & <- & X). apply filter_In in X. apply in_map. tauto. }
    clearbody keep dead. destruct (existsb p_prim dead); [|now apply K]. destruct (find is_valid (rev keep)) as [v|]; [|now apply K]. cbn [fst] in I. unfold select_primary in I. cbn [ps_prim ps_paths ps_target ps_retire] in I. destruct (find_id (p_id v) keep); cbn [fst ps_paths] in I; [|now apply K].
    apply K. rewrite upd_ids in I by reflexivity. unfold ids in I. eapply Permutation_in; [|exact I]. apply Permutation_map. symmetry. apply swap0_perm.
  - unfold handle_migration in H. destruct (find_id k (ps_paths s)) as [q|] eqn:F; [|discriminate]. left. destruct J as (Nd & _ & Po). destruct (p_prim q).
    + inv H. cbn in I. now rewrite upd_ids in I by reflexivity.
    + destruct (select_spec k s Nd Po) as (_ & _ & _ & _ & P & _); [apply find_some in F; destruct F as [F1 <-]; now apply in_map|]. destruct (select_primary k s) as [s1 old]. cbn [fst] in P. apply some_inj in H. subst s'. eapply Permutation_in; [symmetry; exact P|]. destruct old; [cbn in I; now rewrite (shape_ids _ _ (probe_shape _ _)) in I|exact I].
  - apply some_inj in H. subst s'. left. unfold ps_response in I. pose proof (respond_spec d now (ps_paths s)) as R. destruct (respond d now (ps_paths s)) as [l hit]. destruct R as (R1 & _ & R3). rewrite <- (shape_ids _ _ R1). destruct hit as [k|]; [|exact I]. destruct (opt_eqb _ _); [|exact I]. destruct J as (Nd & _ & Po).
    destruct (select_spec k (mkPs l (ps_prim s) None (ps_retire s))) as (_ & _ & _ & _ & P & _); cbn [ps_paths ps_prim].
    + rewrite (shape_ids _ _ R1). exact Nd.
    + eapply shape_prim; [symmetry; exact R1|exact Po].
    + rewrite (shape_ids _ _ R1). tauto.
    + eapply Permutation_in; [symmetry; exact P|exact I].
  - unfold retire_cids in H. pose proof (recid_rc prior (ps_paths s) store) as R. destruct (recid prior (ps_paths s) store) as [[k d] r]. destruct (existsb p_prim d); [discriminate|]. inv H. left. apply rc_facts in R. destruct R as (R & _). now apply R.
  - inv H. now left.
  - inv H. now left.
  - inv H. now left.
  - destruct (own_op o) eqn:Ow; [|discriminate]. destruct (find_id k (ps_paths s)) eqn:F; [|discriminate]. destruct (p_step p o) as [[p' out]|] eqn:S; [|discriminate]. inv H. left. cbn in I. destruct (own_step _ _ _ _ Ow S) as (O1 & _). apply find_some in F. destruct F as [F1 F2]. unfold ids, upd in I. rewrite map_map in I. apply in_map_iff in I. destruct I as (q & E & I). destruct (N.eqb_spec (p_id q) k); subst j; [rewrite O1; now apply in_map|now apply in_map].
Qed.
(** C28: a path that was dropped is not sent on again, nor made primary, whatever happens (a new path from the same address is another path). *)
Theorem dropped_path_not_used : forall ops s i, ps_inv s -> ~ In i (map p_id (ps_paths s)) -> (forall p c, In (QPerm p c) ops -> p_id p <> i) ->
  forall s', ps_run s ops = Some s' -> select_path s' <> Some i /\ ps_prim s' <> Some i.
Proof.
  induction ops as [|o ops IH]; intros s i J Ni Nq s' H; cbn in H.
  - inv H. destruct J as (_ & _ & Po). assert (X : ps_prim s' <> Some i). { intros E. rewrite E in Po. destruct Po as (p & r & Ep & E1 & _). apply Ni. rewrite Ep. now left. }
    split; [|exact X]. unfold select_path. destruct (find has_probe (ps_paths s')) as [p|] eqn:F; [|exact X]. intros E. inv E. apply List.find_some in F. apply Ni. now apply in_map.
  - destruct (ps_step s o) as [s1|] eqn:S; [|discriminate]. eapply (IH s1 i); eauto.
    + eapply step_inv; eauto.
    + intros I. destruct (ids_step _ _ _ _ J S I) as [X|(p & c & -> & X)]; [auto|]. exact (Nq p c (or_introl eq_refl) X).
    + intros p c I. apply (Nq p c). now right.
Qed.
Print Assumptions dropped_path_not_used.
(** C28 does not hold in full: a path whose last probe failed because the peer moved, not by a timeout, is taken up again. *)
Theorem failed_path_revived_refuted : exists ops1 ops2 s1 s2, ps_run ps_new ops1 = Some s1 /\ (exists p, find_id 1 (ps_paths s1) = Some p /\ p_state p = PFailed) /\
  ps_run s1 ops2 = Some s2 /\ select_path s2 = Some 1 /\ (exists p, find_id 1 (ps_paths s2) = Some p /\ p_state p = PNeed 0).
Proof.
  exists [QPerm (p_new 1 1200) (0, false); QPath 1 (OSetValid 0); QPerm (p_new 2 1200) (1, false); QHandle 2 0; QPath 1 (OWrite 100 5 true 0); QTimeout 10 10; QPath 1 (OWrite 100 6 true 10); QTimeout 20 10; QPath 1 (OWrite 100 7 true 20); QHandle 1 21; QPath 2 (OWrite 100 8 true 21); QHandle 2 22],
    [QHandle 1 23; QPath 2 (OWrite 100 10 true 23); QHandle 2 24]. do 2 eexists. splits; try (vm_compute; reflexivity); try (eexists; vm_compute; split; reflexivity).
Qed.
Print Assumptions failed_path_revived_refuted.
(** C74: a response on the path to migrate to makes it the primary path. *)
Theorem migration_completes : forall s i d now p c m t, ps_inv s -> ps_target s = Some i -> In p (ps_paths s) -> p_id p = i -> p_state p = PProbing c d m t ->
  (forall q c' m' t', In q (ps_paths s) -> p_state q = PProbing c' d m' t' -> q = p) -> ps_prim (ps_response d now s) = Some i /\ ps_target (ps_response d now s) = None.
Proof.
  intros s i d now p c m t J Tg I Ei St U. unfold ps_response. assert (X : snd (respond d now (ps_paths s)) = Some i).
  { clear J. induction (ps_paths s) as [|q l IH]; [destruct I|]. cbn. unfold p_response. destruct (p_state q) as [|cq|cq dq mq tq|] eqn:E; cbv iota beta.
    - destruct (respond d now l) as [r o] eqn:R. cbn in *. destruct I as [->|I]; [congruence|]. apply IH; auto. intros q' c' m' t' I'. apply U. now right.
    - destruct (respond d now l) as [r o] eqn:R. cbn in *. destruct I as [->|I]; [congruence|]. apply IH; auto. intros q' c' m' t' I'. apply U. now right.
    - destruct (N.eqb_spec d dq).
      + subst dq. assert (q = p) by (eapply U; [now left|exact E]). subst q. cbn. congruence.
      + destruct (respond d now l) as [r o] eqn:R. cbn in *. destruct I as [->|I]; [congruence|]. apply IH; auto. intros q' c' m' t' I'. apply U. now right.
    - destruct (respond d now l) as [r o] eqn:R. cbn in *. destruct I as [->|I]; [congruence|]. apply IH; auto. intros q' c' m' t' I'. apply U. now right. }
  pose proof (respond_spec d now (ps_paths s)) as R. destruct (respond d now (ps_paths s)) as [l hit]. cbn in X. subst hit. destruct R as (R1 & _ & R3). rewrite Tg. cbn [opt_eqb]. rewrite N.eqb_refl. destruct J as (Nd & _ & Po).
  destruct (select_spec i (mkPs l (ps_prim s) None (ps_retire s))) as (_ & E1 & E2 & _); cbn [ps_paths ps_prim]; auto.
  - rewrite (shape_ids _ _ R1). exact Nd.
  - eapply shape_prim; [symmetry; exact R1|exact Po].
  - rewrite (shape_ids _ _ R1). tauto.
Qed.
Print Assumptions migration_completes.
(** A client moves to a second path once it has answered. *)
Example migration_story : match ps_run ps_new [QPerm (p_new 1 1200) (0, false); QPath 1 (OSetValid 0); QPerm (p_new 2 1200) (1, false); QMigrate 2 false false 1; QPath 2 (OWrite 100 9 true 1)] with
  | Some s => ps_prim s = Some 1 /\ ps_target s = Some 2 /\ ps_prim (ps_response 9 2 s) = Some 2 /\ ps_prim (ps_response 8 2 s) = Some 1 | None => False end.
Proof. vm_compute. auto. Qed.

(** The RETIRE_CONNECTION_ID frames written in a history. *)
Fixpoint retire_frames (s : paths) (ops : list qop) : list N :=
  match ops with
  | [] => []
  | o :: ops' => (match o with QWrite k => snd (retire_write k s) | _ => [] end) ++ match ps_step s o with Some s' => retire_frames s' ops' | None => [] end
  end.
Lemma select_retire : forall i s, ps_retire (fst (select_primary i s)) = ps_retire s.
Proof. intros i s. unfold select_primary. destruct (find_id i _); reflexivity. Qed.
Lemma pending_kept : forall s o s' n, ps_step s o = Some s' -> o <> QAcked n -> In n (ps_retire s) -> In n (match o with QWrite k => snd (retire_write k s) | _ => [] end) \/ In n (ps_retire s').
Proof.
  intros s o s' n H Na I. destruct o as [p cid|i force mark now|now pto|i now|d now|prior released store|k|m|m|i o]; cbn [ps_step] in H.
  - right. destruct (existsb _ _ || _); [discriminate|]. apply some_inj in H. subst s'. unfold make_permanent. set (s1 := if MAX_PATHS <=? lenN (ps_paths s) then _ else s).
    assert (I1 : In n (ps_retire s1)) by (unfold s1; destruct (_ <=? _); [|exact I]; destruct (ps_paths s) as [|? [|? ?]]; auto; cbn; apply in_or_app; auto).
    cbn [ps_prim]. destruct (ps_prim s1); [exact I1|]. rewrite select_retire. exact I1.
  - right. unfold migrate in H. destruct (find_id i _) as [p|]; [|discriminate]. apply some_inj in H. subst s'. cbn [ps_retire]. destruct (force || _); cbn [ps_retire]; rewrite ?select_retire; exact I.
  - right. apply some_inj in H. subst s'. unfold ps_timeout. destruct (sweep _ _ _) as [keep dead]. destruct (existsb p_prim dead).
    + destruct (find is_valid _); cbn [fst]; rewrite ?select_retire; cbn; apply in_or_app; auto.
    + cbn. apply in_or_app. auto.
  - right. unfold handle_migration in H. destruct (find_id i _) as [p|]; [|discriminate]. destruct (p_prim p); [apply some_inj in H; subst s'; exact I|].
    pose proof (select_retire i s) as E. destruct (select_primary i s) as [s1 old]. cbn [fst] in E. apply some_inj in H. subst s'. destruct old; cbn [ps_retire]; rewrite E; exact I.
  - right. apply some_inj in H. subst s'. unfold ps_response. destruct (respond _ _ _) as [l hit]. destruct hit as [j|]; [|exact I]. destruct (opt_eqb _ _); [rewrite select_retire|]; exact I.
  - right. unfold retire_cids in H. destruct (recid _ _ _) as [[keep dead] r]. destruct (existsb _ _); [discriminate|]. apply some_inj in H. subst s'. cbn. apply in_or_app. auto.
  - apply some_inj in H. subst s'. unfold retire_write. cbn [fst snd ps_retire]. apply in_rev in I. rewrite <- (firstn_skipn k (rev (ps_retire s))) in I. apply in_app_or in I. destruct I as [I|I]; [left; exact I|right; apply in_rev in I; exact I].
  - right. apply some_inj in H. subst s'. cbn. apply in_or_app. auto.
  - right. apply some_inj in H. subst s'. cbn. apply filter_In. split; [exact I|]. apply negb_true_iff, N.eqb_neq. congruence.
  - right. destruct (own_op o); [|discriminate]. destruct (find_id i _) as [p|]; [|discriminate]. destruct (p_step p o) as [[p' out]|]; [|discriminate]. apply some_inj in H. subst s'. exact I.
Qed.
(** C74: a connection ID that was in use on a path, or whose retirement is due (for the first time or because it was lost), is still in use, still due,
    or the peer was told, unless an acknowledgement of its retirement came. *)
Theorem retirements_reach_the_peer : forall ops s s' n, ps_inv s -> ps_run s ops = Some s' -> ~ In (QAcked n) ops ->
  In n (ps_retire s) \/ (exists p, In p (ps_paths s) /\ p_cid p = Some (n, false)) ->
  In n (retire_frames s ops) \/ In n (ps_retire s') \/ (exists p, In p (ps_paths s') /\ p_cid p = Some (n, false)).
Proof.
  induction ops as [|o ops IH]; intros s s' n J H Na D; cbn [ps_run retire_frames] in *; [apply some_inj in H; subst s'; auto|].
  destruct (ps_step s o) as [s1|] eqn:St; [|discriminate].
  assert (D1 : In n (match o with QWrite k => snd (retire_write k s) | _ => [] end) \/ In n (ps_retire s1) \/ (exists p, In p (ps_paths s1) /\ p_cid p = Some (n, false))).
  { destruct D as [D|(p & I & C)].
    - destruct (pending_kept s o s1 n St) as [X|X]; auto. intros ->. apply Na. now left.
    - destruct (cid_kept_or_retired s o s1 p n J St I C) as [(p' & I' & _ & C')|X]; eauto 6. }
  destruct D1 as [D1|D1]; [left; apply in_or_app; auto|].
  destruct (IH s1 s' n) as [X|X]; auto.
  - eapply step_inv; eauto.
  - intros X. apply Na. now right.
  - left. apply in_or_app. auto.
Qed.
Print Assumptions retirements_reach_the_peer.
Theorem lost_retirement_is_due : forall s n s', ps_step s (QLost n) = Some s' -> In n (ps_retire s').
Proof. intros s n s' H. cbn in H. apply some_inj in H. subst s'. cbn. apply in_or_app. right. now left. Qed.
Print Assumptions lost_retirement_is_due.
(** Three retirements are due, two frames fit, one is lost: it is written again with the third. *)
Example retire_story : let s := mkPs [] None None [4; 5; 6] in
  match ps_run s [QWrite 2; QLost 5; QWrite 5] with Some s' => ps_retire s' = [] /\ retire_frames s [QWrite 2; QLost 5; QWrite 5] = [6; 5; 5; 4] | None => False end.
Proof. vm_compute. auto. Qed.
