(** Passes over the groups, and calls one after the other. *)
From Verif Require Import Base Lib SchModel SchSpec SchProofs SchProofs2.
From Coq Require Import ZArith Sorted Permutation.
Open Scope N_scope.
Open Scope list_scope.
Import ListNotations.

Definition bks (gs : list (N * pgq)) : list og := concat (map (fun e => og_list (snd e)) gs).
(** What does not change: the groups, and the members of their queues. *)
Definition shape (gs : list (N * pgq)) : list (N * list (list N)) := map (fun e => (fst e, vv (snd e))) gs.
Definition keys (gs : list (N * pgq)) : list (N * list Z) := map (fun e => (fst e, map fst (ordered (snd e)))) gs.
Record trn := mkT { tr_gid : N; tr_vs : list (list N); tr_o : list offer; tr_e : tend }.
Definition tr_ok (t : trn) : Prop := turn_ok (tr_vs t) (tr_o t) (tr_e t).
Definition offers_of (ts : list trn) : list offer := concat (map tr_o ts).
Definition tkey (t : trn) : N * list (list N) := (tr_gid t, tr_vs t).

Lemma replace_split : forall A i (a b : A) l, nth_error l i = Some b -> l = firstn i l ++ b :: skipn (S i) l /\ replace i a l = firstn i l ++ a :: skipn (S i) l.
Proof.
  intros A i a b l. unfold replace. revert l. induction i as [|i IH]; intros [|c l] H; cbn in *; try discriminate.
  - inv H. auto.
  - destruct (IH l H) as (E & _). split; auto. f_equal. auto.
Qed.
Lemma bks_app : forall a b, bks (a ++ b) = bks a ++ bks b.
Proof. intros. unfold bks. rewrite map_app, concat_app. auto. Qed.
Lemma in_bks : forall g gs, In g (bks gs) <-> exists h q, In (h, q) gs /\ In g (og_list q).
Proof.
  intros g gs. unfold bks. rewrite in_concat. split.
  - intros (l & I & J). apply in_map_iff in I. destruct I as ((h, q) & <- & I). eauto.
  - intros (h & q & I & J). exists (og_list q). split; auto. apply in_map_iff. exists (h, q). auto.
Qed.
Lemma replace_spec : forall gs idx h q q' o, nth_error gs idx = Some (h, q) -> disj (bks gs) -> map fst (ordered q') = map fst (ordered q) ->
  RR o (og_list q) (og_list q') -> (forall x, In x o -> In x (concat (vv q))) ->
  shape (replace idx (h, q') gs) = shape gs /\ keys (replace idx (h, q') gs) = keys gs /\ RR o (bks gs) (bks (replace idx (h, q') gs)) /\ length (replace idx (h, q') gs) = length gs.
Proof.
  intros gs idx h q q' o E D K R I.
  assert (exists a b, gs = a ++ (h, q) :: b /\ replace idx (h, q') gs = a ++ (h, q') :: b) as (a & b & E1 & E2).
  { destruct (replace_split _ idx (h, q') (h, q) gs E). eauto. }
  rewrite E2. clear E2 E. subst gs.
  pose proof (RR_vecs _ _ _ R) as V. split; [|split; [|split]].
  - unfold shape. rewrite !map_app. cbn [map fst snd]. unfold vv in *. rewrite V. reflexivity.
  - unfold keys. rewrite !map_app. cbn [map fst snd]. rewrite K. reflexivity.
  - rewrite bks_app in D |- *. change (bks ((h, q) :: b)) with (og_list q ++ bks b) in *. rewrite bks_app. change (bks ((h, q') :: b)) with (og_list q' ++ bks b).
    destruct (disj_app _ _ D) as (_ & D2 & D3). destruct (disj_app _ _ D2) as (_ & _ & D4).
    apply RR_app_l; [|apply RR_app_l; auto].
    + apply RR_same. intros g x Ig Ix X. apply I in Ix. apply in_concat in Ix. destruct Ix as (v & Iv & Xv). unfold vv in Iv. apply in_map_iff in Iv. destruct Iv as (g2 & <- & Ig2).
      apply (D3 g g2 x Ig (in_or_app _ _ _ (or_introl Ig2)) X Xv).
    + apply RR_same. intros g x Ig Ix X. apply I in Ix. apply in_concat in Ix. destruct Ix as (v & Iv & Xv). unfold vv in Iv. apply in_map_iff in Iv. destruct Iv as (g2 & <- & Ig2).
      apply (D4 g2 g x Ig2 Ig Xv X).
  - rewrite !app_length. reflexivity.
Qed.
Lemma RR_disj : forall o l l', RR o l l' -> disj l -> disj l'.
Proof. intros o l l' R D. unfold disj. rewrite (RR_vecs _ _ _ R). auto. Qed.
Lemma RR_lives : forall o l l' live, RR o l l' -> lives live l -> lives live l'.
Proof.
  intros o l l' live R. induction R as [|g g' l l' (V & _) R IH]; intros LV x y I J; [destruct I|]. destruct I as [<-|I].
  - apply (LV g y); [left; auto | rewrite <- V; auto].
  - apply (IH (fun a b Ia => LV a b (or_intror Ia)) x y I J).
Qed.
Lemma RR_nil : forall l, RR [] l l.
Proof. intros l. apply RR_same. intros g x _ []. Qed.
Lemma nth_shape : forall gs i h q, nth_error gs i = Some (h, q) -> nth_error (shape gs) i = Some (h, vv q).
Proof. intros gs i h q E. unfold shape. rewrite nth_error_map, E. reflexivity. Qed.

Lemma pass_spec : forall W (k : writer W) p live start todo i any gs w, takes_room k -> lives live (bks gs) -> disj (bks gs) -> gs <> [] ->
  exists gs' w' o a f ts, pass k p live start i todo any gs w = Some (gs', w', o, a, f) /\ shape gs' = shape gs /\ keys gs' = keys gs /\ RR (ids o) (bks gs) (bks gs') /\
    o = offers_of ts /\ Forall tr_ok ts /\ (room k w' <= room k w)%nat /\
    match f with
    | None => cyc (shape gs) (Nat.modulo (start + i) (length gs)) (map tkey ts) (Nat.modulo (start + i + todo) (length gs)) /\ length ts = todo /\ Forall (fun t => tr_e t <> TFull) ts /\
        (a = any \/ (a = true /\ (room k w' < room k w)%nat)) /\ (a = false -> Forall (fun t => tr_e t = TDone) ts)
    | Some idx => cyc (shape gs) (Nat.modulo (start + i) (length gs)) (map tkey ts) (Nat.modulo (S idx) (length gs)) /\
        exists ts' t, ts = ts' ++ [t] /\ tr_e t = TFull /\ Forall (fun t => tr_e t <> TFull) ts'
    end.
Proof.
  intros W k p live start todo. induction todo as [|todo IH]; intros i any gs w TR LV D NE; cbn [pass].
  - exists gs, w, [], any, None, []. split; [reflexivity|]. split; auto. split; auto. split; [apply RR_nil|]. split; auto. split; [constructor|]. split; [lia|].
    split; [rewrite Nat.add_0_r; constructor|]. split; auto.
  - assert (length gs <> 0%nat) as N0 by (destruct gs; [congruence | discriminate]).
    set (idx := Nat.modulo (start + i) (length gs)). assert (idx < length gs)%nat as Li by (apply Nat.mod_upper_bound; auto).
    destruct (nth_error gs idx) as [(h, q)|] eqn:En; [|apply nth_error_None in En; lia].
    assert (In (h, q) gs) as Iq by (eapply nth_error_In; eauto).
    assert (lives live (og_list q)) as LVq by (intros g x Ig; apply LV, in_bks; eauto).
    assert (disj (og_list q)) as Dq.
    { destruct (replace_split _ idx (h, q) (h, q) gs En) as (E1 & _). rewrite E1, bks_app in D. apply disj_app in D. destruct D as (_ & D & _).
      change (bks ((h, q) :: ?b)) with (og_list q ++ bks b) in D. apply disj_app in D. tauto. }
    destruct (turn_spec W k p live q w TR LVq Dq) as (q1 & w1 & o1 & e1 & E1 & K1 & R1 & T1 & Sp1). rewrite E1.
    destruct (replace_spec gs idx h q q1 (ids o1) En D K1 R1 (t_in _ _ _ T1)) as (Sh & Ky & RRg & Lg).
    assert (S idx mod length gs = (start + S i) mod length gs)%nat as Ei.
    { unfold idx. rewrite <- (Nat.add_1_r (_ mod _)), Nat.add_mod_idemp_l by auto. f_equal. lia. }
    assert (length (shape gs) = length gs) as Ls by (unfold shape; apply map_length).
    pose proof (nth_shape _ _ _ _ En) as Ns. destruct e1.
    + exists (replace idx (h, q1) gs), w1, o1, any, (Some idx), [mkT h (vv q) o1 TFull]. split; [reflexivity|]. split; auto. split; auto. split; auto.
      split; [unfold offers_of; cbn; rewrite app_nil_r; auto|]. split; [constructor; auto|]. split; [apply Sp1|].
      split; [cbn [map tkey tr_gid tr_vs]; econstructor; [exact Ns | rewrite Ls; constructor]|].
      exists [], (mkT h (vv q) o1 TFull). split; auto.
    + destruct (IH (S i) (any || true) (replace idx (h, q1) gs) w1 TR) as (gs2 & w2 & o2 & a & f & ts & E2 & Sh2 & Ky2 & R2 & Eo & Tk & Rm & F);
        [eapply RR_lives; eauto | eapply RR_disj; eauto | intros Z; rewrite Z in Lg; cbn in Lg; lia|].
      rewrite E2. exists gs2, w2, (o1 ++ o2), a, f, (mkT h (vv q) o1 TWrote :: ts). split; [reflexivity|]. split; [congruence|]. split; [congruence|].
      split; [unfold ids; rewrite map_app; eapply RR_app_o; eauto|]. split; [unfold offers_of in *; cbn; rewrite Eo; auto|]. split; [constructor; auto|].
      destruct Sp1 as (Sa & Sb). specialize (Sb eq_refl). split; [lia|]. rewrite Lg, Sh in F. destruct f as [idx'|].
      * destruct F as (C & ts' & t & -> & Et & Ft). split; [cbn [map tkey tr_gid tr_vs]; econstructor; [exact Ns | rewrite Ls, Ei; exact C]|].
        exists (mkT h (vv q) o1 TWrote :: ts'), t. split; auto. split; auto. constructor; auto. discriminate.
      * destruct F as (C & Lt & Ft & A & B). rewrite orb_true_r in A. split; [cbn [map tkey tr_gid tr_vs]; econstructor; [exact Ns | rewrite Ls, Ei; replace (start + i + S todo)%nat with (start + S i + todo)%nat by lia; exact C]|].
        split; [cbn; auto|]. split; [constructor; auto; discriminate|]. assert (a = true) as -> by (destruct A as [A|(A & _)]; auto). split; [right; split; auto; lia | discriminate].
    + destruct (IH (S i) (any || false) (replace idx (h, q1) gs) w1 TR) as (gs2 & w2 & o2 & a & f & ts & E2 & Sh2 & Ky2 & R2 & Eo & Tk & Rm & F);
        [eapply RR_lives; eauto | eapply RR_disj; eauto | intros Z; rewrite Z in Lg; cbn in Lg; lia|].
      rewrite E2. exists gs2, w2, (o1 ++ o2), a, f, (mkT h (vv q) o1 TDone :: ts). split; [reflexivity|]. split; [congruence|]. split; [congruence|].
      split; [unfold ids; rewrite map_app; eapply RR_app_o; eauto|]. split; [unfold offers_of in *; cbn; rewrite Eo; auto|]. split; [constructor; auto|].
      destruct Sp1 as (Sa & Sb). split; [lia|]. rewrite Lg, Sh in F. destruct f as [idx'|].
      * destruct F as (C & ts' & t & -> & Et & Ft). split; [cbn [map tkey tr_gid tr_vs]; econstructor; [exact Ns | rewrite Ls, Ei; exact C]|].
        exists (mkT h (vv q) o1 TDone :: ts'), t. split; auto. split; auto. constructor; auto. discriminate.
      * destruct F as (C & Lt & Ft & A & B). rewrite orb_false_r in A. split; [cbn [map tkey tr_gid tr_vs]; econstructor; [exact Ns | rewrite Ls, Ei; replace (start + i + S todo)%nat with (start + S i + todo)%nat by lia; exact C]|].
        split; [cbn; auto|]. split; [constructor; auto; discriminate|]. split; [destruct A as [A|(A & A')]; [auto | right; split; auto; lia]|]. intros Ea. constructor; auto.
Qed.
Lemma passes_spec : forall W (k : writer W) p live start fuel gs w, takes_room k -> lives live (bks gs) -> disj (bks gs) -> gs <> [] -> (start < length gs)%nat -> (room k w < fuel)%nat ->
  exists gs' w' o f ts, passes k p live start fuel gs w = Some (gs', w', o, f) /\ shape gs' = shape gs /\ keys gs' = keys gs /\ RR (ids o) (bks gs) (bks gs') /\
    o = offers_of ts /\ Forall tr_ok ts /\
    match f with
    | None => cyc (shape gs) start (map tkey ts) start /\ Forall (fun t => tr_e t <> TFull) ts /\
        exists ts1 ts2, ts = ts1 ++ ts2 /\ length ts2 = length gs /\ cyc (shape gs) start (map tkey ts2) start /\ Forall (fun t => tr_e t = TDone) ts2
    | Some idx => cyc (shape gs) start (map tkey ts) (Nat.modulo (S idx) (length gs)) /\
        exists ts' t, ts = ts' ++ [t] /\ tr_e t = TFull /\ Forall (fun t => tr_e t <> TFull) ts'
    end.
Proof.
  intros W k p live start fuel. induction fuel as [|fuel IH]; intros gs w TR LV D NE Ls Rf; [lia|]. cbn [passes].
  destruct (pass_spec W k p live start (length gs) 0 false gs w TR LV D NE) as (gs1 & w1 & o1 & a & f & ts & E1 & Sh & Ky & R1 & Eo & Tk & Rm & F). rewrite E1.
  rewrite Nat.add_0_r in F. rewrite (Nat.mod_small start) in F by auto.
  assert (length gs <> 0%nat) as N0 by lia.
  assert ((start + length gs) mod length gs = start)%nat as Em. { replace (start + length gs)%nat with (start + 1 * length gs)%nat by lia. rewrite Nat.mod_add by auto. apply Nat.mod_small; auto. }
  assert (length gs1 = length gs) as Lg. { assert (length (shape gs1) = length (shape gs)) as L by congruence. unfold shape in L. rewrite !map_length in L. auto. }
  destruct f as [idx|].
  - exists gs1, w1, o1, (Some idx), ts. split; [destruct a; reflexivity|]. auto 10.
  - rewrite Em in F. destruct F as (C & Lt & Ft & A & B). destruct a.
    + destruct A as [A|(_ & A)]; [discriminate|].
      destruct (IH gs1 w1 TR) as (gs2 & w2 & o2 & f & ts2 & E2 & Sh2 & Ky2 & R2 & Eo2 & Tk2 & F2);
        [eapply RR_lives; eauto | eapply RR_disj; eauto | intros Z; rewrite Z in Lg; cbn in Lg; lia | lia | lia|].
      rewrite E2. exists gs2, w2, (o1 ++ o2), f, (ts ++ ts2). split; [reflexivity|]. split; [congruence|]. split; [congruence|].
      split; [unfold ids; rewrite map_app; eapply RR_app_o; eauto|]. split; [unfold offers_of in *; rewrite map_app, concat_app; congruence|].
      split; [apply Forall_app; auto|]. rewrite Sh, Lg in F2. destruct f as [idx|].
      * destruct F2 as (C2 & ts' & t & -> & Et & Ft2). split; [rewrite map_app; eapply cyc_app; eauto|]. exists (ts ++ ts'), t. rewrite app_assoc. split; auto. split; auto. apply Forall_app; auto.
      * destruct F2 as (C2 & Ft2 & ta & tb & -> & Lb & Cb & Db). split; [rewrite map_app; eapply cyc_app; eauto|]. split; [apply Forall_app; auto|].
        exists (ts ++ ta), tb. rewrite app_assoc. auto.
    + exists gs1, w1, o1, None, ts. split; [reflexivity|]. split; auto. split; auto. split; auto. split; auto. split; auto. split; auto. split; auto.
      exists [], ts. auto.
Qed.

(** The path for one group without send orders. *)
Lemma fast_spec : forall W (k : writer W) p l start todo off w, (start < length l)%nat ->
  exists w' o e raw k', fast k p l start off todo w = (w', o, e) /\ cyc l (Nat.modulo (start + off) (length l)) raw k' /\ ids o = map m_id (filter m_fair raw) /\
    match e with
    | Some i => i = k' /\ exists o' x b, o = o' ++ [Visit x b true] /\ Forall (fun v => filled v = false) o'
    | None => length raw = todo /\ Forall (fun v => filled v = false) o
    end.
Proof.
  intros W k p l start todo. induction todo as [|todo IH]; intros off w L; cbn [fast].
  - do 5 eexists. split; [reflexivity|]. split; [constructor|]. split; [reflexivity|]. split; [reflexivity | constructor].
  - assert (length l <> 0%nat) as N0 by lia. set (idx := Nat.modulo (start + off) (length l)). assert (idx < length l)%nat as Li by (apply Nat.mod_upper_bound; auto).
    destruct (nth_error l idx) as [t|] eqn:En; [|apply nth_error_None in En; lia].
    assert (S idx mod length l = (start + S off) mod length l)%nat as Ei.
    { unfold idx. rewrite <- (Nat.add_1_r (_ mod _)), Nat.add_mod_idemp_l by auto. f_equal. lia. }
    destruct (m_fair t) eqn:F; cbn [negb].
    2:{ destruct (IH (S off) w L) as (w' & o & e & raw & k' & E & C & Io & X). rewrite E. exists w', o, e, (t :: raw), k'. split; [reflexivity|].
        split; [econstructor; [eauto | rewrite Ei; auto]|]. split; [cbn; rewrite F; auto|]. destruct e; auto. destruct X. split; [cbn; auto | auto]. }
    destruct (has k w p (m_id t)); cbn [negb].
    + destruct (wr k w p (m_id t)) as ((w1, b), full). destruct full.
      * do 3 eexists. exists [t], (S idx mod length l)%nat. split; [reflexivity|]. split; [econstructor; [eauto | constructor]|]. split; [cbn; rewrite F; reflexivity|].
        split; auto. exists [], (m_id t), b. split; auto.
      * destruct (IH (S off) w1 L) as (w' & o & e & raw & k' & E & C & Io & X). rewrite E. exists w', (Visit (m_id t) b false :: o), e, (t :: raw), k'. split; [reflexivity|].
        split; [econstructor; [eauto | rewrite Ei; auto]|]. split; [cbn; rewrite F; cbn; f_equal; auto|]. destruct e as [i|].
        -- destruct X as (-> & o' & x & c & -> & Q). split; auto. exists (Visit (m_id t) b false :: o'), x, c. split; auto.
        -- destruct X. split; [cbn; auto | constructor; auto].
    + destruct (IH (S off) w L) as (w' & o & e & raw & k' & E & C & Io & X). rewrite E. exists w', (Skip (m_id t) :: o), e, (t :: raw), k'. split; [reflexivity|].
      split; [econstructor; [eauto | rewrite Ei; auto]|]. split; [cbn; rewrite F; cbn; f_equal; auto|]. destruct e as [i|].
      * destruct X as (-> & o' & x & c & -> & Q). split; auto. exists (Skip (m_id t) :: o'), x, c. split; auto.
      * destruct X. split; [cbn; auto | constructor; auto].
Qed.

(** What the invariant gives. *)
Lemma ord_get_in : forall l e, desc (map fst l) -> In e l -> ord_get (fst e) l = snd e.
Proof.
  intros l e. induction l as [|(y, g) l IH]; intros D I; [destruct I|]. cbn in D. inversion D as [|? ? D' F]; subst. destruct I as [<-|I]; cbn [ord_get fst snd].
  - rewrite Z.eqb_refl. reflexivity.
  - destruct (fst e =? y)%Z eqn:E; [|auto]. apply Z.eqb_eq in E. rewrite Forall_forall in F. pose proof (F (fst e) (in_map fst _ _ I)). lia.
Qed.
Lemma grp_get_in : forall gs h q, NoDup (map fst gs) -> In (h, q) gs -> grp_get h gs = q.
Proof.
  intros gs h q. induction gs as [|(g, r) gs IH]; intros ND I; [destruct I|]. cbn in ND. inversion ND; subst. destruct I as [I|I]; cbn.
  - inv I. rewrite N.eqb_refl. reflexivity.
  - destruct (g =? h) eqn:E; [|auto]. apply N.eqb_eq in E. subst g. exfalso. apply H1. apply (in_map fst _ _ I).
Qed.
Lemma og_get : forall q g, ok_q q -> In g (og_list q) -> exists o, q_get o q = g.
Proof.
  intros q g ((D & _) & _) I. unfold og_list in I. apply in_app_or in I. destruct I as [I|[<-|[]]]; [|exists None; reflexivity].
  apply in_map_iff in I. destruct I as (e & <- & I). exists (Some (fst e)). cbn. apply ord_get_in; auto.
Qed.
Lemma get_og : forall q o x, In x (vec (q_get o q)) -> In (q_get o q) (og_list q).
Proof.
  intros q [z|] x I; unfold og_list; apply in_or_app; [|right; left; reflexivity]. left. cbn in *. induction (ordered q) as [|(y, g) l IH]; cbn in *; [destruct I|].
  destruct (z =? y)%Z; auto.
Qed.
Lemma grp_in : forall gs h x o, In x (gvec gs h o) -> In (h, grp_get h gs) gs.
Proof.
  intros gs h x o. unfold gvec. induction gs as [|(g, q) gs IH]; cbn; [rewrite q_new_get; intros []|]. destruct (g =? h) eqn:E; [apply N.eqb_eq in E; subst; auto | auto].
Qed.
Lemma nodup_app : forall A (l m : list A), NoDup l -> NoDup m -> (forall x, In x l -> ~ In x m) -> NoDup (l ++ m).
Proof.
  intros A l m H. induction H as [|x l NI H IH]; intros Hm D; cbn; auto. constructor; [|apply IH; auto; intros y I; apply D; right; auto].
  intros I. apply in_app_or in I. destruct I as [I|I]; [auto | apply (D x); [left; auto | auto]].
Qed.
Lemma ord_disj : forall l, ok_ord l -> (forall y1 y2 x, In x (vec (ord_get y1 l)) -> In x (vec (ord_get y2 l)) -> y1 = y2) -> NoDup (concat (map vec (map snd l))).
Proof.
  induction l as [|(y, g) l IH]; intros O U; [constructor|]. pose proof (ok_tail _ _ O) as O'. destruct O as (D & F). cbn in D. inversion D as [|? ? D' Fy]; subst. inversion F; subst.
  cbn. apply nodup_app; [apply asc_nodup; auto | apply IH; auto|].
  - assert (forall z x, In x (vec (ord_get z l)) -> In x (vec (ord_get z ((y, g) :: l)))) as G.
    { intros z x I. cbn. destruct (z =? y)%Z eqn:E; auto. apply Z.eqb_eq in E. subst z. rewrite desc_no_get in I; [destruct I | auto]. }
    intros y1 y2 x I1 I2. apply (U y1 y2 x); auto.
  - intros x Ix I. apply in_concat in I. destruct I as (v & Iv & Xv). apply in_map_iff in Iv. destruct Iv as (g2 & <- & I2). apply in_map_iff in I2. destruct I2 as (e & <- & Ie).
    pose proof (ord_get_in l e D' Ie) as Ge. rewrite Forall_forall in Fy. pose proof (Fy (fst e) (in_map fst _ _ Ie)) as Lt.
    assert (y = fst e); [|lia]. apply (U y (fst e) x); cbn; [rewrite Z.eqb_refl; auto|]. destruct (fst e =? y)%Z eqn:E; auto. rewrite Ge. auto.
Qed.
Lemma q_disj : forall q, ok_q q -> (forall o1 o2 x, In x (vec (q_get o1 q)) -> In x (vec (q_get o2 q)) -> o1 = o2) -> disj (og_list q).
Proof.
  intros q O U. pose proof O as (O1 & O2). unfold disj, og_list. rewrite map_app, concat_app. apply nodup_app.
  - apply ord_disj; auto. intros y1 y2 x I1 I2. assert (Some y1 = Some y2) as E by (apply (U _ _ x); auto). congruence.
  - cbn. rewrite app_nil_r. apply asc_nodup; auto.
  - intros x I J. cbn in J. rewrite app_nil_r in J. apply in_concat in I. destruct I as (v & Iv & Xv). apply in_map_iff in Iv. destruct Iv as (g2 & <- & I2).
    apply in_map_iff in I2. destruct I2 as (e & <- & Ie). assert (Some (fst e) = None) as E; [|discriminate]. apply (U _ _ x); [cbn; rewrite ord_get_in; [auto | apply O1 | auto] | auto].
Qed.
Lemma gs_disj : forall gs, ok_groups gs -> (forall h1 h2 o1 o2 x, In x (gvec gs h1 o1) -> In x (gvec gs h2 o2) -> h1 = h2 /\ o1 = o2) -> disj (bks gs).
Proof.
  induction gs as [|(h, q) gs IH]; intros (ND & F) U; [constructor|]. cbn in ND. inversion ND; subst. inversion F; subst. cbn in H3.
  change (bks ((h, q) :: gs)) with (og_list q ++ bks gs). unfold disj. rewrite map_app, concat_app.
  assert (forall g o x, In x (gvec gs g o) -> In x (gvec ((h, q) :: gs) g o)) as G.
  { intros g o x I. unfold gvec in *. cbn. destruct (h =? g) eqn:E; auto. apply N.eqb_eq in E. subst g. rewrite grp_none in I by auto. rewrite q_new_get in I. destruct I. }
  assert (forall o x, In x (vec (q_get o q)) -> In x (gvec ((h, q) :: gs) h o)) as Gq by (intros o x I; unfold gvec; cbn; rewrite N.eqb_refl; auto).
  apply nodup_app.
  - apply q_disj; auto. intros o1 o2 x I1 I2. apply (U h h o1 o2 x); auto.
  - apply IH; [split; auto|]. intros h1 h2 o1 o2 x I1 I2. apply (U h1 h2 o1 o2 x); auto.
  - intros x I J. apply in_concat in I. destruct I as (v & Iv & Xv). apply in_map_iff in Iv. destruct Iv as (g1 & <- & I1). destruct (og_get q g1 H3 I1) as (o1 & <-).
    apply in_concat in J. destruct J as (v & Jv & Yv). apply in_map_iff in Jv. destruct Jv as (g2 & <- & J2). apply in_bks in J2. destruct J2 as (h2 & q2 & J3 & J4).
    rewrite Forall_forall in H4. destruct (og_get q2 g2 (H4 _ J3) J4) as (o2 & <-). assert (h = h2 /\ o1 = o2) as (<- & _).
    { apply (U h h2 o1 o2 x); auto. apply G. unfold gvec. rewrite (grp_get_in gs h2 q2); auto. }
    apply H1. apply (in_map fst _ _ J3).
Qed.
Lemma inv_disj : forall s, inv s -> disj (bks (groups s)).
Proof. intros s [_ _ (O & I)]. apply gs_disj; auto. intros h1 h2 o1 o2 x A B. apply I in A, B. rewrite A in B. inv B. auto. Qed.
Lemma bks_place : forall s g x, inv s -> In g (bks (groups s)) -> In x (vec g) -> exists h o, place (streams s) x = Some (h, o) /\ g = q_get o (grp_get h (groups s)).
Proof.
  intros s g x [_ _ ((ND & F) & I)] Ig Ix. apply in_bks in Ig. destruct Ig as (h & q & Iq & Ig). rewrite Forall_forall in F. destruct (og_get q g (F _ Iq) Ig) as (o & <-).
  exists h, o. rewrite (grp_get_in _ _ _ ND Iq). split; auto. apply I. unfold gvec. rewrite (grp_get_in _ _ _ ND Iq). auto.
Qed.
Lemma place_bks : forall s x h o, inv s -> place (streams s) x = Some (h, o) -> In (q_get o (grp_get h (groups s))) (bks (groups s)) /\ In x (vec (q_get o (grp_get h (groups s)))).
Proof.
  intros s x h o [_ _ (O & I)] P. apply I in P. split; [|exact P]. apply in_bks. exists h, (grp_get h (groups s)). split; [eapply grp_in; eauto | eapply get_og; eauto].
Qed.
Lemma inv_lives : forall s, inv s -> lives (streams s) (bks (groups s)).
Proof. intros s I g x Ig Ix. destruct (bks_place s g x I Ig Ix) as (h & o & P & _). unfold place in P. destruct (get x (streams s)); discriminate. Qed.
Lemma place_in : forall s x h o, NoDup (map m_id (streams s)) -> place (streams s) x = Some (h, o) <-> exists t, In t (streams s) /\ m_id t = x /\ m_fair t = true /\ gid t = h /\ m_order t = o.
Proof.
  intros s x h o ND. unfold place. split.
  - destruct (get x (streams s)) as [t|] eqn:G; [|discriminate]. destruct (m_fair t) eqn:F; [|discriminate]. intros H. inv H. apply get_some in G. exists t. tauto.
  - intros (t & I & <- & F & <- & <-). rewrite (get_in _ _ ND I), F. reflexivity.
Qed.

(** A call. *)
Definition isfast (gs : list (N * pgq)) : bool := match gs with [(_, q)] => match ordered q with [] => true | _ => false end | _ => false end.
Definition callok (s s' : sched) (o : list offer) (full : bool) : Prop :=
  (groups s = [] /\ s' = s /\ o = [] /\ full = false) \/
  (isfast (groups s) = true /\ groups s' = groups s /\ gnext s' = gnext s /\ ~ ((length (streams s) <= fnext s')%nat /\ streams s <> []) /\
   exists raw, cyc (streams s) (clamp (fnext s) (length (streams s))) raw (fnext s') /\ ids o = map m_id (filter m_fair raw) /\ (full = false -> length raw = length (streams s))) \/
  (isfast (groups s) = false /\ groups s <> [] /\ fnext s' = fnext s /\ (gnext s' < length (groups s))%nat /\
   exists ts, o = offers_of ts /\ Forall tr_ok ts /\ RR (ids o) (bks (groups s)) (bks (groups s')) /\
     let st := clamp (gnext s) (length (groups s)) in
     if full then cyc (shape (groups s)) st (map tkey ts) (gnext s') /\ exists ts' t, ts = ts' ++ [t] /\ tr_e t = TFull /\ Forall (fun t => tr_e t <> TFull) ts'
     else cyc (shape (groups s)) st (map tkey ts) st /\ Forall (fun t => tr_e t <> TFull) ts /\
          exists ts1 ts2, ts = ts1 ++ ts2 /\ length ts2 = length (groups s) /\ cyc (shape (groups s)) st (map tkey ts2) st /\ Forall (fun t => tr_e t = TDone) ts2).
Lemma clamp_lt : forall n len, (0 < len)%nat -> (clamp n len < len)%nat.
Proof. intros n len L. unfold clamp. destruct (Nat.leb len n) eqn:E; auto. apply Nat.leb_gt in E. auto. Qed.
Lemma write_fair_spec : forall W (k : writer W) p s w, takes_room k -> inv s ->
  exists s' w' o b, write_fair k p s w = Some (s', w', o, b) /\ streams s' = streams s /\ shape (groups s') = shape (groups s) /\ keys (groups s') = keys (groups s) /\ callok s s' o b.
Proof.
  intros W k p s w TR I. unfold write_fair. destruct (groups s) as [|(h, q) rest] eqn:Eg.
  - exists s, w, [], false. split; [reflexivity|]. split; auto. rewrite Eg. split; auto. split; auto. left. auto.
  - replace (match rest, ordered q with [], [] => true | _, _ => false end) with (isfast (groups s)) by (rewrite Eg; unfold isfast; destruct rest; auto). rewrite <- Eg.
    assert (0 < length (groups s))%nat as Lg by (rewrite Eg; cbn; lia). destruct (isfast (groups s)) eqn:Fa.
    + destruct (streams s) as [|t0 ts0] eqn:Es.
      * cbn [length]. change (clamp (fnext s) 0) with (if Nat.leb 0 (fnext s) then 0%nat else fnext s). cbn [Nat.leb]. cbn [fast].
        do 4 eexists. split; [reflexivity|]. cbn [streams groups]. split; [auto|]. split; auto. split; auto. right; left. split; auto. cbn [gnext fnext groups]. split; auto. split; auto.
        split; [rewrite Es; intros (_ & H); congruence|]. exists []. rewrite Es. split; [cbn; constructor|]. split; auto.
      * rewrite <- Es in *. assert (0 < length (streams s))%nat as Ls by (rewrite Es; cbn; lia).
        destruct (fast_spec W k p (streams s) (clamp (fnext s) (length (streams s))) (length (streams s)) 0 w (clamp_lt _ _ Ls)) as (w' & o & e & raw & k' & E & C & Io & X). rewrite E.
        rewrite Nat.add_0_r, (Nat.mod_small (clamp _ _)) in C by (apply clamp_lt; auto).
        pose proof (cyc_bound _ _ _ _ _ C (clamp_lt _ _ Ls)) as Bk. 
        do 4 eexists. split; [reflexivity|]. cbn [streams groups]. split; auto. split; auto. split; auto. right; left. split; auto. cbn [gnext fnext groups]. split; auto. split; auto.
        pose proof (clamp_lt (fnext s) _ Ls) as Cl. destruct e as [i|].
        -- destruct X as (-> & _). split; [lia|]. exists raw. split; auto. split; auto. discriminate.
        -- destruct X as (Lr & _). split; [lia|]. exists raw. pose proof (cyc_end _ _ _ _ _ C Cl) as Ek. rewrite Lr in Ek.
           replace (clamp (fnext s) (length (streams s)) + length (streams s))%nat with (clamp (fnext s) (length (streams s)) + 1 * length (streams s))%nat in Ek by lia.
           rewrite Nat.mod_add, Nat.mod_small in Ek by lia. rewrite Ek in C. auto.
    + destruct (passes_spec W k p (streams s) (clamp (gnext s) (length (groups s))) (S (room k w)) (groups s) w TR (inv_lives s I) (inv_disj s I)) as (gs' & w' & o & f & ts & E & Sh & Ky & R & Eo & Tk & F);
        [rewrite Eg; discriminate | apply clamp_lt; auto | lia|]. rewrite E. pose proof (clamp_lt (gnext s) _ Lg) as Cl. assert (groups s <> []) as NE by (rewrite Eg; discriminate). destruct f as [idx|].
      * do 4 eexists. split; [reflexivity|]. cbn [streams groups]. split; auto. split; auto. split; auto. right; right. cbn [gnext fnext groups]. split; auto. split; auto. split; auto.
        split; [apply Nat.mod_upper_bound; lia|]. exists ts. auto.
      * do 4 eexists. split; [reflexivity|]. cbn [streams groups]. split; auto. split; auto. split; auto. right; right. cbn [gnext fnext groups]. split; auto. split; auto. split; auto.
        split; [apply Nat.mod_upper_bound; lia|]. exists ts. auto.
Qed.
(** Writing leaves the invariant. *)
Lemma shape_vecs : forall gs gs', shape gs' = shape gs -> keys gs' = keys gs -> ok_groups gs -> ok_groups gs' /\ forall h o, gvec gs' h o = gvec gs h o.
Proof.
  intros gs. induction gs as [|(h, q) gs IH]; intros [|(h', q') gs'] Sh Ky O; cbn in Sh, Ky; try discriminate; [auto|].
  destruct O as (ND & F). cbn in ND. inversion ND as [|? ? NI ND']; subst. inversion F as [|? ? Oq F']; subst. cbn [snd] in Oq.
  apply (f_equal (fun l => (hd (0, []) l, tl l))) in Sh. cbn in Sh. apply pair_equal_spec in Sh. destruct Sh as (S1 & S2). apply pair_equal_spec in S1. destruct S1 as (-> & Sv).
  apply (f_equal (fun l => (hd (0, []) l, tl l))) in Ky. cbn in Ky. apply pair_equal_spec in Ky. destruct Ky as (K1 & K2). apply pair_equal_spec in K1. destruct K1 as (_ & Kv).
  destruct (IH gs' S2 K2 (conj ND' F')) as ((ND1 & F1) & G).
  assert (map fst gs' = map fst gs) as Mf. { clear - S2. revert gs' S2. induction gs as [|a gs IH]; intros [|b gs'] H; cbn in *; try discriminate; auto. inv H. f_equal; auto. }
  assert (ok_q q' /\ forall o, vec (q_get o q') = vec (q_get o q)) as (Oq' & Gq).
  { unfold vv, og_list in Sv. rewrite !map_app in Sv. cbn [map] in Sv. apply app_inj_tail in Sv. destruct Sv as (Sv & Rv).
    assert (forall l l', map fst l' = map fst l -> map vec (map snd l') = map vec (map snd l) -> Forall (fun e : Z * og => asc (vec (snd e))) l ->
      Forall (fun e => asc (vec (snd e))) l' /\ forall z, vec (ord_get z l') = vec (ord_get z l)) as Gen.
    { clear. intros l. induction l as [|(y, g) l IH]; intros [|(y', g') l'] K V F; cbn in *; try discriminate; [auto|]. inversion F; subst. injection K as -> K. injection V as Vg V.
      destruct (IH l' K V H2) as (F' & G). split; [constructor; auto; cbn; rewrite Vg; auto|]. intros z. destruct (z =? y)%Z; auto. }
    destruct Oq as ((D & Fo) & Ra). destruct (Gen _ _ Kv Sv Fo) as (Fo' & Go). split; [split; [split; [rewrite Kv; auto | auto] | rewrite Rv; auto]|]. intros [z|]; cbn; auto. }
  split; [split; [cbn; constructor; [rewrite Mf; auto | auto] | constructor; auto]|]. intros g o. unfold gvec in *. cbn. destruct (h =? g); auto.
Qed.
Lemma write_ok : forall W (k : writer W) p s w, takes_room k -> inv s ->
  exists s' w' u f b, write_frames k p s w = Some (s', w', u, f, b) /\ inv s' /\ streams s' = streams s /\ shape (groups s') = shape (groups s) /\ keys (groups s') = keys (groups s) /\ callok s s' f b.
Proof.
  intros W k p s w TR I. unfold write_frames. destruct (unfair k p (streams s) w) as (w1, o1). destruct (write_fair_spec W k p s w1 TR I) as (s' & w' & o & b & E & S1 & Sh & Ky & C).
  rewrite E. do 5 eexists. split; [reflexivity|]. split; [|auto]. destruct I as [ND GR (O & Q)]. destruct (shape_vecs _ _ Sh Ky O) as (O' & G). split; rewrite ?S1; auto.
  split; auto. intros x h o'. rewrite G. auto.
Qed.
Lemma step_ok : forall W (k : writer W) o s, takes_room k -> inv s ->
  exists s' r, step k o s = Some (s', r) /\ inv s' /\
    match r with SRes r => call_ok o (streams s) (streams s') r | SOffers u f b => (exists p w, o = KWrite p w) /\ streams s' = streams s end.
Proof.
  intros W k o s TR I. destruct o as [x|x b|x g|x z|l| |p w]; cbn [step].
  - destruct (insert_ok W s x I). eauto.
  - destruct (fairness_ok W s x b I) as (s' & r & E & I' & C & _). rewrite E. eauto.
  - destruct (sendgroup_ok W s x g I) as (s' & r & E & I' & C). rewrite E. eauto.
  - destruct (sendorder_ok W s x z I) as (s' & r & E & I' & C). rewrite E. eauto.
  - destruct (ended_ok W s l I) as (s' & E & I' & C). rewrite E. eauto.
  - do 2 eexists. split; [reflexivity|]. split; [apply inv_new | constructor].
  - destruct (write_ok W k p s w TR I) as (s' & w' & u & f & b & E & I' & S1 & _). rewrite E. do 2 eexists. split; [reflexivity|]. split; auto. split; eauto.
Qed.
Lemma run_ok : forall W (k : writer W) os s, takes_room k -> inv s -> exists s' rs, run k os s = Some (s', rs) /\ inv s' /\ history os (streams s) (streams s') rs.
Proof.
  intros W k os. induction os as [|o os IH]; intros s TR I; cbn [run]; [do 2 eexists; split; [reflexivity|]; split; [auto | constructor]|].
  destruct (step_ok W k o s TR I) as (s1 & r & E & I1 & C). rewrite E. destruct (IH s1 TR I1) as (s2 & rs & E2 & I2 & H). rewrite E2. do 2 eexists. split; [reflexivity|]. split; auto.
  destruct r; [eapply H_call; eauto|]. destruct C as ((p & w & ->) & Es). rewrite Es in H. apply H_write. auto.
Qed.
