(** Calls of [write_frames] one after the other. *)
From Verif Require Import Base Lib SchModel SchSpec SchProofs SchProofs2 SchProofs3.
From Coq Require Import ZArith Sorted Permutation.
Open Scope N_scope.
Open Scope list_scope.
Import ListNotations.

Definition writes {W} (calls : list (N * W)) : list (sop W) := map (fun c => KWrite (fst c) (snd c)) calls.
Definition full_but_last (rs : list sout) : Prop := forall a r b, rs = a ++ r :: b -> b <> [] -> exists u f, r = SOffers u f true.
Lemma isfast_keys : forall gs gs', keys gs' = keys gs -> isfast gs' = isfast gs /\ (gs = [] <-> gs' = []).
Proof.
  intros gs gs' K. unfold keys in K. destruct gs as [|(h, q) [|e gs]]; destruct gs' as [|(h', q') [|e' gs']]; cbn in K; try discriminate; split; auto; try (split; discriminate); try tauto.
  unfold isfast. injection K as _ K. destruct (ordered q), (ordered q'); cbn in K; try discriminate; auto.
Qed.
Lemma len_shape : forall gs gs', shape gs' = shape gs -> length gs' = length gs.
Proof. intros gs gs' H. apply (f_equal (@length _)) in H. unfold shape in H. rewrite !map_length in H. auto. Qed.
Lemma writes_spec : forall W (k : writer W) calls s s' rs, takes_room k -> inv s -> run k (writes calls) s = Some (s', rs) ->
  inv s' /\ streams s' = streams s /\ shape (groups s') = shape (groups s) /\ keys (groups s') = keys (groups s) /\
  ((groups s = [] /\ fair_offers rs = []) \/
   (isfast (groups s) = true /\ exists raw, cyc (streams s) (clamp (fnext s) (length (streams s))) raw (clamp (fnext s') (length (streams s))) /\ ids (fair_offers rs) = map m_id (filter m_fair raw)) \/
   (isfast (groups s) = false /\ groups s <> [] /\ RR (ids (fair_offers rs)) (bks (groups s)) (bks (groups s')) /\
    exists ts, fair_offers rs = offers_of ts /\ Forall tr_ok ts /\ (forall t, In t ts -> In (tkey t) (shape (groups s))) /\
      (full_but_last rs -> exists k', cyc (shape (groups s)) (clamp (gnext s) (length (groups s))) (map tkey ts) k'))).
Proof.
  intros W k calls. induction calls as [|(p, w) calls IH]; intros s s' rs TR I E; cbn [writes map run fst snd] in E.
  - inv E. split; auto. split; auto. split; auto. split; auto. destruct (groups s') as [|e gs] eqn:Eg; [left; auto|]. rewrite <- Eg. destruct (isfast (groups s')) eqn:F.
    + right; left. split; auto. exists []. split; [constructor | reflexivity].
    + right; right. split; auto. split; [rewrite Eg; discriminate|]. split; [apply RR_nil|]. exists []. split; auto. split; [constructor|]. split; [intros t []|]. intros _. eexists. constructor.
  - destruct (write_ok W k p s w TR I) as (s1 & w1 & u & f & b & E1 & I1 & S1 & Sh1 & Ky1 & C). cbn [step] in E. rewrite E1 in E. fold (@writes W calls) in E.
    destruct (run k (writes calls) s1) as [(s2, rs2)|] eqn:E2; [|discriminate]. inv E.
    destruct (IH s1 s' rs2 TR I1 E2) as (I2 & S2 & Sh2 & Ky2 & C2). split; auto. split; [congruence|]. split; [congruence|]. split; [congruence|].
    destruct (isfast_keys _ _ Ky1) as (Fk & Nk).
    change (fair_offers (SOffers u f b :: rs2)) with (f ++ fair_offers rs2). rewrite S1, Fk, Sh1, (len_shape _ _ Sh1) in C2.
    destruct C as [(G & -> & -> & ->)|[(F & G & Gn & Nf & raw & Cy & Io & _)|(F & NE & Fn & Gb & ts & Eo & Tk & R & X)]].
    + left. split; auto. destruct C2 as [(_ & C2)|[(C2 & _)|(_ & C2 & _)]]; auto; [rewrite G in C2; discriminate | congruence].
    + right; left. split; auto. destruct C2 as [(C2 & _)|[(_ & raw2 & Cy2 & Io2)|(C2 & _)]]; [exfalso; apply Nk in C2; rewrite C2 in F; discriminate | | congruence].
      exists (raw ++ raw2). split.
      * eapply cyc_app; [exact Cy|]. replace (fnext s1) with (clamp (fnext s1) (length (streams s))); auto. unfold clamp. destruct (Nat.leb (length (streams s)) (fnext s1)) eqn:L; auto.
        apply Nat.leb_le in L. destruct (streams s) as [|t0 l0] eqn:Es; [|exfalso; apply Nf; split; [auto | discriminate]].
        inversion Cy as [? A B D|? ? ? ? N1]; subst; [|destruct (clamp (fnext s) 0); discriminate]. cbn. unfold clamp. cbn. reflexivity.
      * unfold ids in *. rewrite filter_app, !map_app. congruence.
    + right; right. split; auto. split; auto. destruct C2 as [(C2 & _)|[(C2 & _)|(_ & _ & R2 & ts2 & Eo2 & Tk2 & In2 & X2)]]; [exfalso; apply NE; apply Nk; auto | congruence|].
      assert (exists ke, cyc (shape (groups s)) (clamp (gnext s) (length (groups s))) (map tkey ts) ke /\ (b = true -> ke = gnext s1)) as (ke & Ce & Ek).
      { destruct b; [destruct X as (X & _) | destruct X as (X & _)]; eexists; split; try exact X; auto. discriminate. }
      split; [unfold ids; rewrite map_app; eapply RR_app_o; eauto|]. destruct rs2 as [|r2 rs2].
      { exists ts. change (fair_offers []) with (@nil offer). rewrite app_nil_r. split; auto. split; auto. split; [intros t It; eapply cyc_in; [exact Ce | apply in_map; auto] | eauto]. }
      exists (ts ++ ts2). split; [unfold offers_of in *; rewrite map_app, concat_app; congruence|]. split; [apply Forall_app; auto|]. split.
      * intros t It. apply in_app_or in It. destruct It as [It|It]; auto. eapply cyc_in; [exact Ce | apply in_map; auto].
      * intros FB. destruct (FB [] (SOffers u f b) (r2 :: rs2) eq_refl ltac:(discriminate)) as (u' & f' & Eb). injection Eb as _ _ ->. specialize (Ek eq_refl). subst ke.
        destruct X2 as (k2 & C2).
        { intros a r bb Z NB. apply (FB (SOffers u f true :: a) r bb); auto. cbn. rewrite Z. reflexivity. }
        exists k2. rewrite map_app. eapply cyc_app; [exact Ce|]. replace (clamp (gnext s1) (length (groups s))) with (gnext s1) in C2; auto.
        unfold clamp. destruct (Nat.leb (length (groups s)) (gnext s1)) eqn:L; auto. apply Nat.leb_le in L. lia.
Qed.
(** Equals. *)
Lemma oeqb_eq : forall a b, oeqb a b = true <-> a = b.
Proof. intros [a|] [b|]; cbn; try (split; congruence). rewrite Z.eqb_eq. split; congruence. Qed.
Lemma equals_in : forall s h o x, NoDup (map m_id (streams s)) -> In x (equals (streams s) h o) <-> place (streams s) x = Some (h, o).
Proof.
  intros s h o x ND. rewrite place_in by auto. unfold equals. rewrite in_map_iff. split.
  - intros (t & <- & I). apply filter_In in I. destruct I as (I & B). apply andb_true_iff in B. destruct B as (F & B). apply andb_true_iff in B. destruct B as (B1 & B2).
    apply N.eqb_eq in B1. apply oeqb_eq in B2. exists t. tauto.
  - intros (t & I & <- & F & <- & <-). exists t. split; auto. apply filter_In. split; auto. rewrite F, N.eqb_refl. cbn. apply oeqb_eq. auto.
Qed.
Lemma equals_nodup : forall l h o, NoDup (map m_id l) -> NoDup (equals l h o).
Proof. intros l h o ND. apply nodup_filter_ids. auto. Qed.
Lemma filter_concat_repeat : forall A (f : A -> bool) c n, filter f (concat (repeat c n)) = concat (repeat (filter f c) n).
Proof. intros A f c n. induction n; cbn; auto. rewrite filter_app. congruence. Qed.
Lemma map_concat_repeat : forall A B (f : A -> B) c n, map f (concat (repeat c n)) = concat (repeat (map f c) n).
Proof. intros A B f c n. induction n; cbn; auto. rewrite map_app. congruence. Qed.
Lemma filter_map_comm : forall A B (f : A -> B) g h l, (forall x, In x l -> g (f x) = h x) -> filter g (map f l) = map f (filter h l).
Proof. intros A B f g h l H. induction l as [|x l IH]; cbn; auto. rewrite (H x) by (left; auto). destruct (h x); cbn; rewrite IH; auto; intros; apply H; right; auto. Qed.
Lemma RR_nth : forall o l l' i g, RR o l l' -> nth_error l i = Some g -> exists g', vec g' = vec g /\ cyc (vec g) (norm g) (filter (inb (vec g)) o) (norm g').
Proof.
  intros o l l' i g R. revert i. induction R as [|a a' l l' (V & C) R IH]; intros [|i] E; cbn in E; try discriminate; [|eauto]. inv E. eauto.
Qed.
Lemma filter_ext_in' : forall A (f g : A -> bool) l, (forall x, f x = g x) -> filter f l = filter g l.
Proof. intros. induction l; cbn; auto. rewrite H, IHl. auto. Qed.
(** The turns between two of one group. *)
Lemma cyc_between : forall A (c : list A) k a l r k' b, NoDup c -> cyc c k (a :: l ++ a :: r) k' -> (k < length c)%nat -> In b c -> b <> a -> In b l.
Proof.
  intros A c k a l r k' b ND C Lk Ib Ne.
  pose proof (cyc_nth _ _ _ _ _ 0 C Lk ltac:(cbn; lia)) as E0. pose proof (cyc_nth _ _ _ _ _ (S (length l)) C Lk ltac:(cbn; rewrite app_length; cbn; lia)) as E1.
  rewrite Nat.add_0_r, Nat.mod_small in E0 by auto. cbn in E0, E1. rewrite nth_error_app2, Nat.sub_diag in E1 by lia. cbn in E1.
  assert (Nat.modulo (k + S (length l)) (length c) = k) as Em.
  { apply (proj1 (NoDup_nth_error c) ND); [apply Nat.mod_upper_bound; lia | congruence]. }
  assert (length c <= S (length l))%nat as Le.
  { destruct (Nat.le_gt_cases (length c) (S (length l))) as [L|L]; auto. exfalso. destruct (Nat.lt_ge_cases (k + S (length l)) (length c)) as [L2|L2]; [rewrite Nat.mod_small in Em by auto; lia|].
    replace (k + S (length l))%nat with ((k + S (length l) - length c) + 1 * length c)%nat in Em by lia. rewrite Nat.mod_add, Nat.mod_small in Em by lia. lia. }
  assert (exists k1, cyc c k (a :: l) k1) as (k1 & C1).
  { change (a :: l ++ a :: r) with ((a :: l) ++ a :: r) in C. clear - C. remember (a :: l) as m. clear Heqm. revert k C. induction m as [|x m IH]; intros k C; [eexists; constructor|].
    cbn in C. inversion C; subst. destruct (IH _ H4) as (k1 & C1). exists k1. econstructor; eauto. }
  pose proof (cyc_covers _ _ _ _ _ b C1 Lk ltac:(cbn; lia) Ib) as [->|I]; [congruence | auto].
Qed.
Lemma concat_find : forall ts pre v post, offers_of ts = pre ++ v :: post -> exists ta t tb p1 r1, ts = ta ++ t :: tb /\ tr_o t = p1 ++ v :: r1 /\ pre = offers_of ta ++ p1 /\ post = r1 ++ offers_of tb.
Proof.
  unfold offers_of. induction ts as [|t ts IH]; intros pre v post E; cbn in E; [destruct pre; discriminate|].
  apply app_split in E. destruct E as [(r & E1 & ->)|(p1 & -> & E2)].
  - exists [], t, ts, pre, r. auto.
  - destruct (IH _ _ _ E2) as (ta & u & tb & q1 & r1 & -> & Eu & -> & ->). exists (t :: ta), u, tb, q1, r1. split; auto. split; auto. split; auto. cbn. rewrite app_assoc. auto.
Qed.
Lemma unfair_spec : forall W (k : writer W) p l w w' u, unfair k p l w = (w', u) ->
  exists rest, map m_id (filter (fun t => negb (m_fair t)) l) = ids u ++ rest /\ (Forall (fun v => filled v = false) u -> rest = []) /\
    (forall a v b, u = a ++ v :: b -> filled v = true -> b = []) /\ (forall x, In (Skip x) u -> exists w1, has k w1 p x = false).
Proof.
  intros W k p l. induction l as [|t l IH]; intros w w' u E; cbn [unfair] in E.
  - inv E. exists []. split; auto. split; auto. split; [intros [|? ?] ? ? Z; discriminate | intros x []].
  - destruct (m_fair t) eqn:F; [destruct (IH _ _ _ E) as (rest & A & B); exists rest; cbn; rewrite F; auto|]. cbn [filter]. rewrite F. cbn [negb map].
    destruct (has k w p (m_id t)) eqn:H; cbn [negb] in E.
    + destruct (wr k w p (m_id t)) as ((w1, b), full). destruct full.
      * inv E. eexists. split; [reflexivity|]. split; [intros Z; inversion Z; discriminate|]. split; [|intros x [Z|[]]; discriminate].
        intros [|a0 a] v c Z; [inv Z; auto | inv Z; destruct a; discriminate].
      * destruct (unfair k p l w1) as (w2, o) eqn:E2. inv E. destruct (IH _ _ _ E2) as (rest & A & B & C & D). exists rest. split; [cbn; rewrite A; auto|].
        split; [intros Z; inversion Z; auto|]. split; [|intros x [Z|Z]; [discriminate | auto]]. intros [|a0 a] v c Z Fv; [inv Z; discriminate | inv Z; eapply C; eauto].
    + destruct (unfair k p l w) as (w2, o) eqn:E2. inv E. destruct (IH _ _ _ E2) as (rest & A & B & C & D). exists rest. split; [cbn; rewrite A; auto|].
      split; [intros Z; inversion Z; auto|]. split; [|intros x [Z|Z]; [inv Z; eauto | auto]]. intros [|a0 a] v c Z Fv; [inv Z; discriminate | inv Z; eapply C; eauto].
Qed.
Lemma fast_skips : forall W (k : writer W) p l start todo off w w' o e x, fast k p l start off todo w = (w', o, e) -> In (Skip x) o -> exists w1, has k w1 p x = false.
Proof.
  intros W k p l start todo. induction todo as [|todo IH]; intros off w w' o e x E I; cbn [fast] in E; [inv E; destruct I|].
  destruct (nth_error l (Nat.modulo (start + off) (length l))) as [t|]; [|eauto]. destruct (m_fair t); cbn [negb] in E; [|eauto]. destruct (has k w p (m_id t)) eqn:H; cbn [negb] in E.
  - destruct (wr k w p (m_id t)) as ((w1, b), full). destruct full.
    + apply pair_equal_spec in E. destruct E as (E & _). apply pair_equal_spec in E. destruct E as (_ & <-). destruct I as [I|[]]. discriminate.
    + destruct (fast k p l start (S off) todo w1) as ((w2, o2), e2) eqn:E2. inv E. destruct I as [I|I]; [discriminate | eauto].
  - destruct (fast k p l start (S off) todo w) as ((w2, o2), e2) eqn:E2. inv E. destruct I as [I|I]; [inv I; eauto | eauto].
Qed.
Lemma in_offers : forall ts v, In v (offers_of ts) -> exists t, In t ts /\ In v (tr_o t).
Proof. intros ts v I. unfold offers_of in I. apply in_concat in I. destruct I as (o & Io & Iv). apply in_map_iff in Io. destruct Io as (t & <- & It). eauto. Qed.
Lemma turn_noskip : forall t x, tr_ok t -> ~ In (Skip x) (tr_o t).
Proof.
  intros t x T I. pose proof (t_end _ _ _ T) as E. assert (forall o, quiet o -> ~ In (Skip x) o) as Q.
  { intros o Q J. unfold quiet in Q. rewrite Forall_forall in Q. destruct (Q _ J) as (y & Z). discriminate. }
  destruct (tr_e t); cbn in E.
  - destruct E as (o' & y & b & E & Qo). rewrite E in I. apply in_app_or in I. destruct I as [I|[I|[]]]; [apply (Q _ Qo I) | discriminate].
  - destruct E as (o' & y & E & Qo). rewrite E in I. apply in_app_or in I. destruct I as [I|[I|[]]]; [apply (Q _ Qo I) | discriminate].
  - apply (Q _ E I).
Qed.
(** The queues of a turn's group. *)
Lemma shape_q : forall s h vs, inv s -> In (h, vs) (shape (groups s)) -> In (h, grp_get h (groups s)) (groups s) /\ vs = vv (grp_get h (groups s)).
Proof.
  intros s h vs [_ _ ((ND & _) & _)] I. unfold shape in I. apply in_map_iff in I. destruct I as ((h', q) & E & I). cbn in E. injection E as -> <-. rewrite (grp_get_in _ _ _ ND I). auto.
Qed.
Lemma turn_member : forall s t x, inv s -> In (tkey t) (shape (groups s)) -> (In x (concat (tr_vs t)) <-> exists o, place (streams s) x = Some (tr_gid t, o)).
Proof.
  intros s t x I K. destruct (shape_q s _ _ I K) as (Ig & Ev). rewrite Ev. unfold vv. rewrite in_concat. split.
  - intros (v & Iv & Ix). apply in_map_iff in Iv. destruct Iv as (g & <- & Io). pose proof I as [_ _ ((ND & F) & Q)]. rewrite Forall_forall in F. destruct (og_get _ g (F _ Ig) Io) as (o & <-).
    exists o. apply Q. exact Ix.
  - intros (o & P). destruct (place_bks s x _ _ I P) as (_ & Ix). eexists. split; [apply in_map; eapply get_og; eauto | auto].
Qed.
Lemma ord_before : forall l zx zy x y, desc (map fst l) -> In x (vec (ord_get zx l)) -> In y (vec (ord_get zy l)) -> (zy < zx)%Z ->
  exists vs1 c vs2, map vec (map snd l) = vs1 ++ c :: vs2 /\ In y c /\ In x (concat vs1).
Proof.
  intros l zx zy x y. induction l as [|(z, g) l IH]; intros D Ix Iy L; cbn [ord_get] in *; [destruct Ix|]. cbn in D. inversion D as [|? ? D' F]; subst.
  destruct (zy =? z)%Z eqn:Ez.
  - apply Z.eqb_eq in Ez. subst z. exfalso. destruct (zx =? zy)%Z eqn:E; [apply Z.eqb_eq in E; lia|]. rewrite desc_no_get in Ix; [destruct Ix|]. eapply Forall_impl; [|exact F]. cbn. lia.
  - destruct (zx =? z)%Z eqn:Ex.
    + assert (exists v1 c v2, map vec (map snd l) = v1 ++ c :: v2 /\ In y c) as (v1 & c & v2 & E & Ic).
      { clear - Iy. induction l as [|(u, g) l IH]; cbn in *; [destruct Iy|]. destruct (zy =? u)%Z; [exists [], (vec g), (map vec (map snd l)); auto|].
        destruct (IH Iy) as (v1 & c & v2 & -> & Ic). exists (vec g :: v1), c, v2. auto. }
      exists (vec g :: v1), c, v2. cbn. rewrite E. split; auto. split; auto. apply in_or_app; auto.
    + destruct (IH D' Ix Iy L) as (v1 & c & v2 & E & Ic & Iv). exists (vec g :: v1), c, v2. cbn. rewrite E. split; auto. split; auto. apply in_or_app; auto.
Qed.
Lemma q_before : forall q ox oy x y, ok_q q -> In x (vec (q_get ox q)) -> In y (vec (q_get oy q)) -> higher ox oy ->
  exists vs1 c vs2, vv q = vs1 ++ c :: vs2 /\ In y c /\ In x (concat vs1).
Proof.
  intros q [zx|] [zy|] x y ((D & _) & _) Ix Iy H; cbn in H, Ix, Iy; try contradiction; unfold vv, og_list; rewrite map_app.
  - destruct (ord_before _ _ _ _ _ D Ix Iy H) as (v1 & c & v2 & E & Ic & Iv). rewrite E. exists v1, c, (v2 ++ [vec (regular q)]). split; [rewrite <- app_assoc; auto | auto].
  - exists (map vec (map snd (ordered q))), (vec (regular q)), []. split; auto. split; auto.
    clear - Ix. induction (ordered q) as [|(u, g) l IH]; cbn in *; [destruct Ix|]. apply in_or_app. destruct (zx =? u)%Z; auto.
Qed.
Lemma keys_nodup : forall s, inv s -> NoDup (map fst (shape (groups s))).
Proof. intros s [_ _ ((ND & _) & _)]. unfold shape. rewrite map_map. auto. Qed.
Lemma nodup_of_map : forall A B (f : A -> B) l, NoDup (map f l) -> NoDup l.
Proof. intros A B f l. induction l; cbn; intros H; [constructor|]. inversion H; subst. constructor; auto. intros I. apply H2, in_map; auto. Qed.
