From Verif Require Import Base Lib CodecModel FcModel FcProofs RxModel RxSpec.

Lemma firstnN_all {A} n (l : list A) : lenN l <= n -> firstnN n l = l.
Proof. unfold firstnN, lenN. intros. apply firstn_all2. lia. Qed.
Lemma lenN_firstnN {A} n (l : list A) : lenN (firstnN n l) = N.min n (lenN l).
Proof. unfold firstnN, lenN. rewrite firstn_length. lia. Qed.
Lemma lenN_skipnN {A} n (l : list A) : lenN (skipnN n l) = lenN l - n.
Proof. unfold skipnN, lenN. rewrite skipn_length. lia. Qed.
Lemma lenN_pos {A} (l : list A) : l <> [] -> 0 < lenN l.
Proof. destruct l; [congruence|]. rewrite lenN_cons. lia. Qed.

(** * Pieces *)
Lemma carries_some s d x : carries (s, d) x <> None <-> s <= x < s + lenN d.
Proof.
  unfold carries, lenN. cbn [fst snd]. destruct (N.leb_spec s x).
  - rewrite nth_error_Some. lia.
  - split; [congruence|lia].
Qed.
Lemma carries_none s d x : carries (s, d) x = None <-> ~ (s <= x < s + lenN d).
Proof. rewrite <- carries_some. destruct (carries (s, d) x); split; intros; try congruence. exfalso; apply H; discriminate. Qed.
Lemma carries_range s d x b : carries (s, d) x = Some b -> s <= x < s + lenN d.
Proof. intros H. apply carries_some. congruence. Qed.
Lemma carries_app s d1 d2 x : carries (s, d1 ++ d2) x = match carries (s, d1) x with Some b => Some b | None => carries (s + lenN d1, d2) x end.
Proof.
  destruct (carries (s, d1) x) as [b|] eqn:E.
  - pose proof (carries_range _ _ _ _ E) as H. unfold carries in *. cbn [fst snd] in *. destruct (s <=? x); [|discriminate].
    rewrite nth_error_app1; [assumption|]. unfold lenN in H. lia.
  - apply carries_none in E. unfold carries. cbn [fst snd]. unfold lenN in *.
    destruct (N.leb_spec s x), (N.leb_spec (s + N.of_nat (length d1)) x); try reflexivity; try lia.
    rewrite nth_error_app2 by lia. f_equal. lia.
Qed.
Lemma nth_error_skipn {A} n (l : list A) i : nth_error (skipn n l) i = nth_error l (n + i).
Proof. revert l. induction n as [|n IH]; intros [|a l]; cbn; auto. destruct i; reflexivity. Qed.
Lemma carries_skip s d k x : carries (s + k, skipnN k d) x = if x <? s + k then None else carries (s, d) x.
Proof.
  unfold carries, skipnN. cbn [fst snd]. destruct (N.ltb_spec x (s + k)), (N.leb_spec (s + k) x), (N.leb_spec s x); try lia; try reflexivity.
  rewrite nth_error_skipn. f_equal. lia.
Qed.
Lemma nth_error_firstn' {A} n (l : list A) i : (i < n)%nat -> nth_error (firstn n l) i = nth_error l i.
Proof. revert l i. induction n as [|n IH]; intros [|a l] i H; cbn; try lia; destruct i; cbn; auto; try lia. apply IH. lia. Qed.
Lemma carries_first s d k x : carries (s, firstnN k d) x = if x <? s + k then carries (s, d) x else None.
Proof.
  destruct (N.ltb_spec x (s + k)).
  - unfold carries, firstnN. cbn [fst snd]. destruct (N.leb_spec s x); [|reflexivity]. apply nth_error_firstn'. lia.
  - apply carries_none. rewrite lenN_firstnN. lia.
Qed.

Fixpoint byte_at (l : rmap) (x : N) : option N :=
  match l with [] => None | e :: r => match carries e x with Some b => Some b | None => byte_at r x end end.
Lemma byte_at_app a b x : byte_at (a ++ b) x = match byte_at a x with Some v => Some v | None => byte_at b x end.
Proof. induction a as [|e a IH]; cbn [app byte_at]; [reflexivity|]. destruct (carries e x); [reflexivity|exact IH]. Qed.

(** * Ordered, disjoint, non-empty entries *)
Fixpoint rok (lo : N) (l : rmap) : Prop :=
  match l with [] => True | (s, d) :: r => lo <= s /\ d <> [] /\ rok (s + lenN d) r end.
Fixpoint rend (lo : N) (l : rmap) : N := match l with [] => lo | (s, d) :: r => rend (s + lenN d) r end.

Lemma rok_mono lo lo' l : lo' <= lo -> rok lo l -> rok lo' l.
Proof. destruct l as [|[s d] l]; cbn [rok]; [auto|]. intros ? (? & ? & ?). splits; auto. lia. Qed.
Lemma rok_app a : forall lo b, rok lo (a ++ b) <-> rok lo a /\ rok (rend lo a) b.
Proof.
  induction a as [|[s d] a IH]; intros lo b; cbn [app rok rend]; [tauto|]. rewrite IH. tauto.
Qed.
Lemma rend_app a : forall lo b, rend lo (a ++ b) = rend (rend lo a) b.
Proof. induction a as [|[s d] a IH]; intros; cbn [app rend]; auto. Qed.
Lemma rend_ge l : forall lo, rok lo l -> lo <= rend lo l.
Proof. induction l as [|[s d] l IH]; intros lo; cbn [rok rend]; [lia|]. intros (A & B & C). apply IH in C. lia. Qed.
Lemma rok_keys l : forall lo, rok lo l -> Forall (fun e => lo <= fst e) l.
Proof. induction l as [|[s d] l IH]; intros lo; cbn [rok]; [constructor|]. intros (A & B & C). constructor; [assumption|]. apply IH. eapply rok_mono; [|exact C]. lia. Qed.
Lemma rok_keys_lt l : forall lo, rok lo l -> Forall (fun e => fst e < rend lo l /\ fst e + lenN (snd e) <= rend lo l) l.
Proof.
  induction l as [|[s d] l IH]; intros lo; cbn [rok rend]; [constructor|]. intros (A & B & C). apply lenN_pos in B.
  pose proof (rend_ge _ _ C). constructor; [cbn [fst snd]; lia|]. apply IH. assumption.
Qed.
Lemma byte_at_range l : forall lo x b, rok lo l -> byte_at l x = Some b -> lo <= x < rend lo l.
Proof.
  induction l as [|[s d] l IH]; intros lo x b; cbn [rok rend byte_at]; [discriminate|]. intros (A & B & C) H.
  pose proof (rend_ge _ _ C). destruct (carries (s, d) x) eqn:E.
  - apply carries_range in E. lia.
  - specialize (IH _ _ _ C H). lia.
Qed.
Lemma byte_at_below l lo x : rok lo l -> x < lo -> byte_at l x = None.
Proof. intros H Hx. destruct (byte_at l x) eqn:E; [|reflexivity]. apply (byte_at_range _ lo) in E; [lia|assumption]. Qed.
Lemma byte_at_above l lo x : rok lo l -> rend lo l <= x -> byte_at l x = None.
Proof. intros H Hx. destruct (byte_at l x) eqn:E; [|reflexivity]. apply (byte_at_range _ lo) in E; [lia|assumption]. Qed.

(** * Map operations on a split list *)
Definition kless (k : N) (l : rmap) := Forall (fun e => fst e < k) l.
Definition kmore (k : N) (l : rmap) := Forall (fun e => k < fst e) l.
Lemma m_insert_new k v a : forall b, kless k a -> kmore k b -> m_insert k v (a ++ b) = a ++ (k, v) :: b.
Proof.
  induction a as [|[s d] a IH]; intros b Ha Hb; cbn [app].
  - destruct b as [|[s d] b]; cbn [m_insert]; [reflexivity|]. apply Forall_cons_iff in Hb as [Hb _]. cbn in Hb.
    destruct (N.ltb_spec k s); [reflexivity|lia].
  - cbn [m_insert]. apply Forall_cons_iff in Ha as [Ha1 Ha2]. cbn in Ha1. destruct (N.ltb_spec k s); [lia|]. destruct (N.eqb_spec k s); [lia|].
    rewrite IH; auto.
Qed.
Lemma m_insert_replace k v w a : forall b, kless k a -> m_insert k v (a ++ (k, w) :: b) = a ++ (k, v) :: b.
Proof.
  induction a as [|[s d] a IH]; intros b Ha; cbn [app m_insert].
  - rewrite N.ltb_irrefl, N.eqb_refl. reflexivity.
  - apply Forall_cons_iff in Ha as [Ha1 Ha2]. cbn in Ha1. destruct (N.ltb_spec k s); [lia|]. destruct (N.eqb_spec k s); [lia|]. rewrite IH; auto.
Qed.
Lemma filter_all {A} (f : A -> bool) l : Forall (fun e => f e = true) l -> filter f l = l.
Proof. induction 1 as [|e l H _ IH]; cbn [filter]; [reflexivity|]. rewrite H, IH. reflexivity. Qed.
Lemma filter_none {A} (f : A -> bool) l : Forall (fun e => f e = false) l -> filter f l = [].
Proof. induction 1 as [|e l H _ IH]; cbn [filter]; [reflexivity|]. rewrite H, IH. reflexivity. Qed.
Lemma fimp {A} (P Q : A -> Prop) l : (forall e, P e -> Q e) -> Forall P l -> Forall Q l.
Proof. intros. eapply Forall_impl; eauto. Qed.
Lemma m_get_split k v a b : kless k a -> m_get k (a ++ (k, v) :: b) = Some v.
Proof.
  intros Ha. unfold m_get. rewrite filter_app. cbn [filter fst]. rewrite N.eqb_refl. rewrite filter_none; [reflexivity|].
  eapply fimp; [|exact Ha]. cbn. intros e He. apply N.eqb_neq. lia.
Qed.
Lemma m_remove_split k v a b : kless k a -> kmore k b -> m_remove k (a ++ (k, v) :: b) = a ++ b.
Proof.
  intros Ha Hb. unfold m_remove. rewrite filter_app. cbn [filter fst]. rewrite N.eqb_refl. cbn [negb]. rewrite !filter_all; [reflexivity| |].
  - eapply fimp; [|exact Hb]. cbn. intros e He. destruct (N.eqb_spec (fst e) k); [lia|reflexivity].
  - eapply fimp; [|exact Ha]. cbn. intros e He. destruct (N.eqb_spec (fst e) k); [lia|reflexivity].
Qed.
Lemma m_last_snoc a e : m_last (a ++ [e]) = Some e.
Proof. induction a as [|x a IH]; [reflexivity|]. cbn [app m_last]. destruct (a ++ [e]) eqn:E; [destruct a; discriminate|]. exact IH. Qed.
Lemma m_last_none l : m_last l = None -> l = [].
Proof. destruct l using rev_ind; [reflexivity|]. rewrite m_last_snoc. discriminate. Qed.
Lemma m_last_inv l e : m_last l = Some e -> exists a, l = a ++ [e].
Proof. destruct l as [|x l _] using rev_ind; [discriminate|]. rewrite m_last_snoc. intros H. injection H as <-. eauto. Qed.

Lemma kless_rok lo a k : rok lo a -> rend lo a <= k -> kless k a.
Proof. intros H Hk. eapply fimp; [|apply (rok_keys_lt _ _ H)]. cbn. intros e He. lia. Qed.
Lemma kmore_rok lo b k : rok lo b -> k < lo -> kmore k b.
Proof. intros H Hk. eapply fimp; [|apply (rok_keys _ _ H)]. cbn. intros e He. lia. Qed.

(** Splitting an ordered list at a key. *)
Lemma split_key k l : forall lo, rok lo l -> exists a b, l = a ++ b /\ Forall (fun e => fst e <= k) a /\ kmore k b.
Proof.
  induction l as [|[s d] l IH]; intros lo H; [exists [], []; splits; constructor|].
  destruct H as (A & B & C). destruct (N.le_gt_cases s k).
  - destruct (IH _ C) as (a & b & -> & Ha & Hb). exists ((s, d) :: a), b. splits; auto.
  - exists [], ((s, d) :: l). splits; [reflexivity|constructor|]. constructor; [assumption|]. apply lenN_pos in B. eapply kmore_rok; [exact C|lia].
Qed.
Lemma m_upto_split k a b : Forall (fun e => fst e <= k) a -> kmore k b -> m_upto k (a ++ b) = m_last a.
Proof.
  intros Ha Hb. unfold m_upto. rewrite filter_app, filter_all, filter_none, app_nil_r; [reflexivity| |].
  - eapply fimp; [|exact Hb]. cbn. intros e He. apply N.leb_gt. lia.
  - eapply fimp; [|exact Ha]. cbn. intros e He. apply N.leb_le. lia.
Qed.
Lemma m_from_split k a b : kless k a -> Forall (fun e => k <= fst e) b -> m_from k (a ++ b) = b.
Proof.
  intros Ha Hb. unfold m_from. rewrite filter_app, filter_none, filter_all; [reflexivity| |].
  - eapply fimp; [|exact Hb]. cbn. intros e He. apply N.leb_le. lia.
  - eapply fimp; [|exact Ha]. cbn. intros e He. apply N.leb_gt. lia.
Qed.

(** The loop over following entries. *)
Lemma span_next_spec st d l : forall lo, d <> [] -> st <= lo -> rok lo l ->
  exists t mid after, span_next (st + lenN d) d l = Some (t, map fst mid) /\ l = mid ++ after /\
    t = firstnN (lenN t) d /\ lenN t <= lenN d /\ (rend lo mid <= st + lenN t \/ mid = []) /\
    rok (st + lenN t) after /\
    (lenN t = lenN d \/ exists s v r, after = (s, v) :: r /\ s = st + lenN t /\ st + lenN d <= s + lenN v).
Proof.
  induction l as [|[s v] l IH]; intros lo Hd Hlo H; cbn [span_next].
  - exists d, [], []. splits; auto; try (symmetry; apply firstnN_all; lia); try lia; try exact Logic.I.
  - destruct H as (A & B & C). pose proof (lenN_pos _ B) as B'. destruct (N.eqb_spec (st + lenN d - s) 0) as [E|E].
    + exists d, [], ((s, v) :: l). splits; auto; try (symmetry; apply firstnN_all; lia); try lia. cbn [rok]. splits; auto. lia.
    + destruct (N.leb_spec (st + lenN d) (s + lenN v)) as [E2|E2].
      * rewrite csub_ok by lia. exists (firstnN (lenN d - (st + lenN d - s)) d), [], ((s, v) :: l).
        assert (L : lenN (firstnN (lenN d - (st + lenN d - s)) d) = s - st) by (rewrite lenN_firstnN; lia).
        rewrite L. splits; auto; try lia.
        -- f_equal. lia.
        -- cbn [rok]. splits; auto. lia.
        -- right. exists s, v, l. splits; auto; lia.
      * destruct (IH (s + lenN v) Hd ltac:(lia) C) as (t & mid & after & -> & -> & T1 & T2 & T3 & T4 & T5).
        exists t, ((s, v) :: mid), after. splits; auto. left. cbn [rend]. destruct T3 as [T3| ->]; [assumption|]. cbn [rend].
        destruct T5 as [->|(s' & v' & r & -> & -> & _)]; [lia|]. cbn [app rok] in C. lia.
Qed.

Lemma fold_remove lo mid : forall a b, rok lo (a ++ mid ++ b) ->
  fold_left (fun m k => m_remove k m) (map fst mid) (a ++ mid ++ b) = a ++ b.
Proof.
  induction mid as [|[s v] mid IH]; intros a b H; cbn [map fold_left app]; [reflexivity|].
  cbn [app] in H. apply rok_app in H as [H1 H2]. cbn [rok] in H2. destruct H2 as (A & B & C). cbn [fst].
  pose proof (lenN_pos _ B). rewrite m_remove_split.
  - apply IH. apply rok_app. split; [assumption|]. eapply rok_mono; [|exact C]. lia.
  - eapply kless_rok; eauto.
  - eapply kmore_rok; [exact C|lia].
Qed.

(** * The invariant *)
Record rxinv (s : rx) : Prop := {
  xi_ok : rok 0 (rx_ranges s);
  xi_past : Forall (fun e => rx_retired s < fst e + lenN (snd e)) (rx_ranges s);
  xi_end : rx_end s = rend (rx_retired s) (rx_ranges s) }.

Lemma rend_last a s d lo : rend lo (a ++ [(s, d)]) = s + lenN d.
Proof. rewrite rend_app. reflexivity. Qed.
Lemma rend_nonempty l lo lo' : l <> [] -> rend lo l = rend lo' l.
Proof. destruct l as [|[s d] l]; [congruence|]. reflexivity. Qed.

Lemma xi_retired_le s : rxinv s -> rx_retired s <= rx_end s.
Proof.
  intros []. rewrite xi_end0. destruct (rx_ranges s) as [|e l] eqn:E using rev_ind; [cbn; lia|]. destruct e as [k v].
  rewrite rend_last. apply Forall_app in xi_past0 as [_ X]. apply Forall_cons_iff in X as [X _]. cbn in X. lia.
Qed.
Lemma xi_end_last s : rxinv s -> rx_end s = match m_last (rx_ranges s) with Some (k, v) => k + lenN v | None => rx_retired s end.
Proof.
  intros []. rewrite xi_end0. destruct (rx_ranges s) as [|e l] eqn:E using rev_ind; [reflexivity|]. destruct e as [k v].
  rewrite rend_last, m_last_snoc. reflexivity.
Qed.

(** How an inbound frame changes the content. *)
Definition content_step (s s' : rx) (f : N * list N) : Prop :=
  rx_retired s' = rx_retired s /\
  forall x, rx_retired s <= x ->
    (forall b, byte_at (rx_ranges s') x = Some b -> byte_at (rx_ranges s) x = Some b \/ carries f x = Some b) /\
    (byte_at (rx_ranges s) x <> None \/ carries f x <> None -> byte_at (rx_ranges s') x <> None).

Lemma content_same s f : (forall x, rx_retired s <= x -> carries f x <> None -> byte_at (rx_ranges s) x <> None) -> content_step s s f.
Proof. intros H. split; [reflexivity|]. intros x Hx. split; [auto|]. intros [?|?]; auto. Qed.

Lemma gap_ok s : rx_retired s <= rx_end s -> exists ok, gap_check s = Some ok.
Proof. intros H. unfold gap_check. rewrite csub_ok by assumption. eauto. Qed.

Lemma byte_at_merge k v t x r : byte_at ((k, v ++ t) :: r) x = byte_at ((k, v) :: (k + lenN v, t) :: r) x.
Proof. cbn [byte_at]. rewrite carries_app. destruct (carries (k, v) x); reflexivity. Qed.

(** [rx_add] with [before] ending at or before [st]. *)
Lemma rx_add_spec s before rest st d start data ext : rxinv s -> d <> [] -> rx_retired s <= st ->
  rx_ranges s = before ++ rest -> kless st before -> rend 0 before <= st -> rok st rest -> 
  st + lenN d < 2 ^ 64 ->
  (forall x, rx_retired s <= x -> carries (start, data) x = if x <? st then carries (start, data) x else carries (st, d) x) ->
  (forall x, rx_retired s <= x < st -> carries (start, data) x <> None -> byte_at before x <> None) ->
  (match ext with Some (ps, plen) => exists b0 pv, before = b0 ++ [(ps, pv)] /\ plen = lenN pv /\ ps + lenN pv = st | None => True end) ->
  exists s' ok, rx_add st (st + lenN d) d ext s = Some (s', ok) /\ rxinv s' /\ content_step s s' (start, data).
Proof.
  intros I Hd Hst El Hkb Hb Hrest Hu Hf Hpre Hext.
  pose proof (xi_ok _ I) as Hok. rewrite El in Hok. apply rok_app in Hok as [Hokb _].
  pose proof (xi_past _ I) as Hpast. rewrite El in Hpast. apply Forall_app in Hpast as [Hpb Hpr].
  pose proof (xi_end_last _ I) as Hel. pose proof (xi_end _ I) as Hen.
  destruct (span_next_spec st d rest st Hd (N.le_refl _) Hrest) as (t & mid & after & E1 & E2 & T1 & T2 & T3 & T4 & T5).
  assert (Hsel : (if match m_last (rx_ranges s) with Some (k, _) => st <=? k | None => false end
            then span_next (st + lenN d) d (m_from st (rx_ranges s)) else Some (d, [])) = Some (t, map fst mid)).
  { destruct rest as [|e0 rest0] using rev_ind; [|clear IHrest0].
    - assert (mid = [] /\ after = []) as [-> ->] by (destruct mid; [destruct after; [auto|discriminate]|discriminate]). cbn [span_next] in E1.
      injection E1 as <-. rewrite app_nil_r in El. rewrite El. destruct (m_last before) as [[k v]|] eqn:Em; [|reflexivity].
      apply m_last_inv in Em as [a ->]. apply Forall_app in Hkb as [_ X]. apply Forall_cons_iff in X as [X _]. cbn in X.
      destruct (N.leb_spec st k); [lia|reflexivity].
    - destruct e0 as [k v]. rewrite El, app_assoc, m_last_snoc. assert (Hk : st <= k).
      { pose proof (rok_keys _ _ Hrest) as X. apply Forall_app in X as [_ X]. apply Forall_cons_iff in X as [X _]. exact X. }
      destruct (N.leb_spec st k); [|lia]. rewrite <- app_assoc. rewrite m_from_split; [exact E1|assumption|apply rok_keys; assumption]. }
  assert (Hrm : fold_left (fun m k => m_remove k m) (map fst mid) (rx_ranges s) = before ++ after).
  { rewrite El, E2. apply (fold_remove 0). rewrite <- E2, <- El. apply I. }
  assert (Hoka : rok (st + lenN t) after) by exact T4.
  assert (Hpa : Forall (fun e => rx_retired s < fst e + lenN (snd e)) after) by (rewrite E2 in Hpr; apply Forall_app in Hpr; tauto).
  (* the content, seen as before ++ (st, t) :: after *)
  assert (exists R, R = before ++ (st, t) :: after) as [R ER] by eauto.
  assert (Hmid : forall x b, byte_at mid x = Some b -> carries (st, t) x <> None).
  { intros x b Hx. rewrite E2 in Hrest. apply rok_app in Hrest as [Hm _]. pose proof (byte_at_range _ _ _ _ Hm Hx) as Hr.
    apply carries_some. destruct T3 as [T3| ->]; [lia|discriminate]. }
  assert (Htf : forall x b, rx_retired s <= x -> carries (st, t) x = Some b -> carries (start, data) x = Some b).
  { intros x b Hx Hc. rewrite T1, carries_first in Hc. destruct (N.ltb_spec x (st + lenN t)); [|discriminate].
    rewrite Hf by assumption. pose proof (carries_range _ _ _ _ Hc). destruct (N.ltb_spec x st); [lia|assumption]. }
  assert (Hcont : forall x, rx_retired s <= x ->
    (forall b, byte_at R x = Some b -> byte_at (rx_ranges s) x = Some b \/ carries (start, data) x = Some b) /\
    (byte_at (rx_ranges s) x <> None \/ carries (start, data) x <> None -> byte_at R x <> None)).
  { intros x Hx. rewrite ER. rewrite El, E2, !byte_at_app. cbn [byte_at].
    destruct (byte_at before x) eqn:Eb; [split; [auto|discriminate]|].
    destruct (carries (st, t) x) as [c|] eqn:Ec.
    - split; [|discriminate]. intros b Hb'. injection Hb' as <-. right. apply Htf; assumption.
    - split.
      + intros b Hb'. left. destruct (byte_at mid x) eqn:Em; [|assumption]. exfalso. apply Hmid in Em. congruence.
      + intros [Ho|Ho].
        * destruct (byte_at mid x) eqn:Em; [exfalso; apply Hmid in Em; congruence|assumption].
        * destruct (N.lt_ge_cases x st) as [Hlt|Hge]; [exfalso; apply (Hpre x); auto; lia|].
          rewrite Hf in Ho by assumption. destruct (N.ltb_spec x st); [lia|]. apply carries_some in Ho. apply carries_none in Ec.
          destruct T5 as [T5|(s' & v & r & -> & -> & T6)]; [lia|]. cbn [byte_at].
          assert (carries (st + lenN t, v) x <> None) by (apply carries_some; lia). destruct (carries (st + lenN t, v) x); congruence. }
  unfold rx_add. rewrite Hsel, Hrm.
  assert (Hend' : rend (rx_retired s) (before ++ (st, t) :: after) = N.max (rx_end s) (st + lenN d)).
  { rewrite rend_app. cbn [rend]. destruct T5 as [T5|(s' & v & r & -> & -> & T6)].
    - rewrite T5. destruct after as [|e0 a0] using rev_ind; [|clear IHa0].
      + cbn [rend]. rewrite Hen, El, E2, app_nil_r. destruct mid as [|m0 mid0] eqn:Emid.
        * rewrite app_nil_r. destruct before as [|b0 before0] eqn:Eb; [cbn [rend]; lia|]. rewrite (rend_nonempty _ _ 0) by discriminate. lia.
        * rewrite (rend_nonempty _ _ 0) by (destruct before; discriminate). rewrite rend_app. rewrite (rend_nonempty _ _ st) by discriminate. destruct T3 as [T3|T3]; [|discriminate]. lia.
      + destruct e0 as [k v]. rewrite rend_last. rewrite Hen, El, E2. rewrite !app_assoc, rend_last.
        apply rok_app in T4 as [X Y]. cbn [rok] in Y. rewrite <- T5. pose proof (rend_ge _ _ X). lia.
    - cbn [rend]. rewrite Hen, El, E2, !rend_app. cbn [rend]. cbn [rok] in T4. destruct T4 as (_ & _ & T4). pose proof (rend_ge _ _ T4). lia. }
  destruct t as [|t0 tt] eqn:Et.
  - (* nothing to add *)
    assert (mid = []) as ->.
    { destruct mid as [|[m0 mv] mid0]; [reflexivity|]. exfalso. cbn [rend] in T3. rewrite lenN_nil in T3. rewrite E2 in Hrest. cbn [app rok] in Hrest.
      destruct Hrest as (A & B & C). apply lenN_pos in B. apply rok_app in C as [C _]. apply rend_ge in C. destruct T3 as [T3|T3]; [lia|discriminate]. }
    cbn [app] in E2. subst after. rewrite <- El. eexists _, true. split; [reflexivity|]. split.
    + destruct I. split; cbn [rx_ranges rx_retired rx_end]; auto.
    + split; [reflexivity|]. cbn [rx_ranges]. intros x Hx. specialize (Hcont x Hx). rewrite ER in Hcont. rewrite byte_at_app in Hcont. cbn [byte_at] in Hcont.
      assert (carries (st, []) x = None) as Ec by (apply carries_none; rewrite lenN_nil; lia). rewrite Ec in Hcont.
      assert (byte_at (rx_ranges s) x = match byte_at before x with Some v => Some v | None => byte_at rest x end) as Hs by (rewrite El, byte_at_app; reflexivity).
      rewrite <- Hs in Hcont. exact Hcont.
  - rewrite <- Et in *.
    assert (Ht : 0 < lenN t) by (rewrite Et, lenN_cons; lia).
    assert (Htn : t <> []) by (rewrite Et; discriminate). clear Et t0 tt.
    assert (HokR : rok 0 R) by (rewrite ER; apply rok_app; split; [assumption|]; cbn [rok]; splits; auto).
    assert (HpR : Forall (fun e => rx_retired s < fst e + lenN (snd e)) R) by (rewrite ER; apply Forall_app; split; [assumption|]; constructor; [cbn [fst snd]; lia|assumption]).
    assert (Hka : kmore st after) by (eapply kmore_rok; [exact T4|lia]).
    destruct ext as [[ps plen]|].
    + destruct Hext as (b0 & pv & Eb & -> & Eps).
      assert (Hb0 : kless ps b0).
      { rewrite Eb in Hokb. apply rok_app in Hokb as [X Y]. cbn [rok] in Y. eapply kless_rok; [exact X|lia]. }
      assert (Hpv : pv <> []) by (rewrite Eb in Hokb; apply rok_app in Hokb as [_ Y]; cbn [rok] in Y; tauto).
      (* what remains after absorbing *)
      assert (G : exists next after', after = (match next with [] => [] | _ => [(st + lenN t, next)] end) ++ after' /\
         (match m_get (st + lenN t) (before ++ after) with
          | Some nv => if lenN pv + lenN t + lenN nv <=? RANGE_TARGET then (m_remove (st + lenN t) (before ++ after), nv) else (before ++ after, [])
          | None => (before ++ after, []) end) = (before ++ after', next)).
      { assert (Hk' : kless (st + lenN t) before) by (eapply fimp; [|exact Hkb]; cbn; intros; lia).
        destruct after as [|[s0 v0] r0].
        - exists [], []. split; [reflexivity|]. unfold m_get. rewrite app_nil_r, filter_none; [reflexivity|]. eapply fimp; [|exact Hk']. cbn. intros e He. apply N.eqb_neq. lia.
        - cbn [rok] in T4. destruct T4 as (A & B & C). destruct (N.eqb_spec s0 (st + lenN t)) as [->|Hne].
          + rewrite m_get_split by assumption. pose proof (lenN_pos _ B) as B'. destruct (lenN pv + lenN t + lenN v0 <=? RANGE_TARGET).
            * exists v0, r0. split; [destruct v0; [congruence|reflexivity]|]. rewrite m_remove_split; [reflexivity|assumption|]. eapply kmore_rok; [exact C|lia].
            * exists [], ((st + lenN t, v0) :: r0). split; reflexivity.
          + exists [], ((s0, v0) :: r0). split; [reflexivity|]. unfold m_get. rewrite filter_none; [reflexivity|]. apply Forall_app. split.
            * eapply fimp; [|exact Hk']. cbn. intros e He. apply N.eqb_neq. lia.
            * constructor; [cbn; apply N.eqb_neq; assumption|]. pose proof (rok_keys _ _ C) as X. eapply fimp; [|exact X]. cbn. intros e He. apply N.eqb_neq. apply lenN_pos in B. lia. }
      destruct G as (next & after' & Ea & EG).
      lazymatch goal with |- context [match ?M with (_, _) => _ end] => replace M with ((before ++ after') : rmap, next) by (symmetry; exact EG) end.
      rewrite Eb, <- app_assoc. cbn [app]. rewrite m_get_split by assumption. rewrite m_insert_replace by assumption.
      eexists _, true. split; [reflexivity|].
      assert (Hbytes : forall x, byte_at (b0 ++ (ps, pv ++ t ++ next) :: after') x = byte_at R x).
      { intros x. rewrite ER. rewrite Eb, <- app_assoc, !byte_at_app. destruct (byte_at b0 x); [reflexivity|]. cbn [app]. rewrite byte_at_merge. cbn [byte_at].
        destruct (carries (ps, pv) x); [reflexivity|]. rewrite Eps, carries_app. destruct (carries (st, t) x); [reflexivity|]. rewrite Ea.
        destruct next as [|n0 nn]; cbn [app byte_at]; [|reflexivity]. assert (carries (st + lenN t, []) x = None) as -> by (apply carries_none; rewrite lenN_nil; lia). reflexivity. }
      assert (Hlen : ps + lenN (pv ++ t ++ next) = st + lenN t + lenN next) by (rewrite !lenN_app; lia).
      split.
      * split; cbn [rx_ranges rx_retired rx_end].
        -- rewrite Eb in Hokb. apply rok_app in Hokb as [X Y]. cbn [rok] in Y. apply rok_app. split; [assumption|]. cbn [rok]. rewrite Hlen. splits; [tauto|destruct pv; [congruence|discriminate]|].
           rewrite Ea in T4. destruct next as [|n0 nn]; [rewrite lenN_nil, N.add_0_r; exact T4|]. cbn [app rok] in T4. tauto.
        -- rewrite Eb in Hpb. apply Forall_app in Hpb as [X Y]. apply Forall_cons_iff in Y as [Y _]. cbn [fst snd] in Y. apply Forall_app. split; [assumption|]. constructor; [cbn [fst snd]; rewrite Hlen; lia|].
           rewrite Ea in Hpa. apply Forall_app in Hpa. tauto.
        -- rewrite <- Hend'. rewrite !rend_app. cbn [rend]. rewrite Hlen, Ea. destruct next as [|n0 nn]; cbn [app rend]; [rewrite lenN_nil, N.add_0_r|]; reflexivity.
      * split; [reflexivity|]. cbn [rx_ranges]. intros x Hx. rewrite Hbytes. apply Hcont. assumption.
    + unfold rx_insert. cbn [rx_ranges rx_retired rx_received rx_end]. rewrite m_insert_new by assumption. rewrite <- ER in *.
      match goal with |- context [gap_check ?S] => destruct (gap_ok S) as [ok Eok]; [cbn [rx_retired rx_end]; lia|rewrite Eok] end.
      eexists _, ok. split; [reflexivity|]. split.
      * split; cbn [rx_ranges rx_retired rx_end]; auto.
      * split; [reflexivity|]. exact Hcont.
Qed.

Lemma rx_inbound_spec s start data : rxinv s -> start + lenN data < 2 ^ 64 ->
  exists s' ok, rx_inbound start data s = Some (s', ok) /\ rxinv s' /\ content_step s s' (start, data).
Proof.
  intros I Hu. unfold rx_inbound. rewrite chk_ok by assumption. pose proof (xi_retired_le _ I) as Hre.
  destruct (N.leb_spec (start + lenN data) (rx_retired s)) as [H1|H1].
  { exists s, true. splits; auto. apply content_same. intros x Hx Hc. apply carries_some in Hc. lia. }
  set (p := if start <? rx_retired s then (rx_retired s, skipnN (rx_retired s - start) data) else (start, data)).
  assert (Hp : exists st d, p = (st, d) /\ st + lenN d = start + lenN data /\ rx_retired s <= st /\
     forall x, rx_retired s <= x -> carries (start, data) x = carries (st, d) x).
  { unfold p. destruct (N.ltb_spec start (rx_retired s)).
    - eexists _, _. split; [reflexivity|]. rewrite lenN_skipnN. splits; try lia. intros x Hx.
      replace (rx_retired s) with (start + (rx_retired s - start)) at 1 by lia. rewrite carries_skip. destruct (N.ltb_spec x (start + (rx_retired s - start))); [lia|reflexivity].
    - eexists _, _. split; [reflexivity|]. splits; auto. }
  destruct Hp as (st & d & -> & Hlen & Hst & Hc). rewrite <- Hlen in *.
  destruct d as [|d0 dd] eqn:Ed.
  { exists s, true. splits; auto. apply content_same. intros x Hx Hcc. rewrite Hc in Hcc by assumption. apply carries_some in Hcc. rewrite lenN_nil in Hcc. lia. }
  rewrite <- Ed in *. assert (Hd : d <> []) by (rewrite Ed; discriminate). clear Ed d0 dd. pose proof (lenN_pos _ Hd) as Hd'.
  destruct (N.leb_spec (rx_end s) st) as [H2|H2].
  - (* at or past the end *)
    pose proof (xi_end_last _ I) as He. rewrite <- He, N.eqb_refl. cbn [negb].
    pose proof (xi_ok _ I) as Hok. pose proof (xi_past _ I) as Hpast. pose proof (xi_end _ I) as Hen.
    assert (Hins : exists s' ok, rx_insert st d (mkRx (rx_ranges s) (rx_retired s) (rx_received s + lenN d) (st + lenN d)) = Some (s', ok) /\ rxinv s' /\ content_step s s' (start, data)).
    { assert (Hre0 : rend 0 (rx_ranges s) <= st).
      { destruct (rx_ranges s) as [|e l] eqn:El; [cbn; lia|]. rewrite (rend_nonempty _ _ (rx_retired s)) by discriminate. lia. }
      assert (Hkl : kless st (rx_ranges s)) by (eapply kless_rok; eauto).
      unfold rx_insert. cbn [rx_ranges rx_retired rx_received rx_end].
      assert (Hm : m_insert st d (rx_ranges s) = rx_ranges s ++ [(st, d)]) by (rewrite <- (app_nil_r (rx_ranges s)) at 1; apply m_insert_new; [assumption|constructor]).
      rewrite Hm.
      match goal with |- context [gap_check ?S] => destruct (gap_ok S) as [ok Eok]; [cbn [rx_retired rx_end]; lia|] end.
      rewrite Eok. eexists _, ok. split; [reflexivity|]. split.
      - split; cbn [rx_ranges rx_retired rx_end].
        + apply rok_app. split; [assumption|]. cbn [rok]. splits; auto.
        + apply Forall_app. split; [assumption|]. constructor; [cbn [fst snd]; lia|constructor].
        + rewrite rend_last. reflexivity.
      - split; [reflexivity|]. cbn [rx_ranges]. intros x Hx. rewrite byte_at_app, Hc by assumption. cbn [byte_at].
        destruct (byte_at (rx_ranges s) x); [split; [auto|discriminate]|]. destruct (carries (st, d) x); split; auto; try discriminate; intros [?|?]; congruence. }
    destruct (m_last (rx_ranges s)) as [[k v]|] eqn:El; [|exact Hins].
    destruct (andb (st =? rx_end s) (lenN v <? RANGE_TARGET)) eqn:Ea; [|exact Hins]. clear Hins.
    apply andb_prop in Ea as [Ea _]. apply N.eqb_eq in Ea.
    apply m_last_inv in El as [a El]. rewrite El in *. apply rok_app in Hok as [Hok1 Hok2]. cbn [rok] in Hok2.
    rewrite m_insert_replace by (eapply kless_rok; [exact Hok1|lia]).
    eexists _, true. split; [reflexivity|]. split.
    + split; cbn [rx_ranges rx_retired rx_end].
      * apply rok_app. split; [assumption|]. cbn [rok]. splits; try tauto. destruct d; [congruence|]; destruct v; discriminate.
      * apply Forall_app in Hpast as [X Y]. apply Forall_cons_iff in Y as [Y _]. cbn [fst snd] in Y. apply Forall_app. split; [assumption|]. constructor; [cbn [fst snd]; rewrite lenN_app; lia|constructor].
      * rewrite rend_last, lenN_app. lia.
    + split; [reflexivity|]. cbn [rx_ranges]. intros x Hx. rewrite El, !byte_at_app, Hc by assumption. rewrite byte_at_merge. cbn [byte_at]. replace (k + lenN v) with st by lia.
      destruct (byte_at a x); [split; [auto|discriminate]|]. destruct (carries (k, v) x); [split; [auto|discriminate]|].
      destruct (carries (st, d) x); split; auto; try discriminate; intros [?|?]; congruence.
  - pose proof (xi_ok _ I) as Hok. destruct (split_key st _ _ Hok) as (a & b & El & Ha & Hb). rewrite El, m_upto_split by assumption.
    pose proof Hok as Hok'. rewrite El in Hok'. apply rok_app in Hok' as [Hoka Hokb].
    assert (Hrokb : forall z, z <= rend 0 a \/ z <= st -> rok z b).
    { intros z Hz. destruct b as [|[s1 v1] b1]; [exact Logic.I|]. cbn [rok] in *. apply Forall_cons_iff in Hb as [Hb _]. cbn in Hb. splits; try tauto. lia. }
    destruct (m_last a) as [[ps pv]|] eqn:Em.
    + apply m_last_inv in Em as [a0 Ea]. assert (Era : rend 0 a = ps + lenN pv) by (rewrite Ea; apply rend_last).
      assert (Hps : ps <= st) by (rewrite Ea in Ha; apply Forall_app in Ha as [_ X]; apply Forall_cons_iff in X as [X _]; exact X).
      destruct (N.ltb_spec (ps + lenN pv) (st + lenN d)) as [H3|H3].
      * set (ov := ps + lenN pv - st). assert (Hl' : st + ov + lenN (skipnN ov d) = st + lenN d) by (rewrite lenN_skipnN; unfold ov; lia).
        assert (Hne : skipnN ov d <> []) by (intros X; rewrite X, lenN_nil in Hl'; unfold ov in Hl'; lia).
        assert (Hcov : forall x, st <= x < st + ov -> byte_at a x <> None).
        { intros x Hx. unfold ov in Hx. rewrite Ea, byte_at_app. destruct (byte_at a0 x); [discriminate|]. cbn [byte_at].
          assert (carries (ps, pv) x <> None) by (apply carries_some; lia). destruct (carries (ps, pv) x); congruence. }
        rewrite <- Hl'. apply rx_add_spec with (before := a) (rest := b); auto; try lia.
        -- destruct (N.eq_dec ov 0) as [E0|E0].
           ++ rewrite E0, N.add_0_r. rewrite Ea. apply Forall_app. rewrite Ea in Hoka. apply rok_app in Hoka as [X Y]. cbn [rok] in Y. split.
              ** eapply kless_rok; [exact X|]. lia.
              ** constructor; [|constructor]. cbn [fst]. destruct Y as (_ & Y & _). apply lenN_pos in Y. unfold ov in E0. lia.
           ++ eapply kless_rok; [exact Hoka|]. unfold ov in *. lia.
        -- apply Hrokb. destruct (N.eq_dec ov 0); [right; lia|left; unfold ov in *; lia].
        -- intros x Hx. destruct (N.ltb_spec x (st + ov)); [reflexivity|]. rewrite Hc by assumption. rewrite carries_skip. destruct (N.ltb_spec x (st + ov)); [lia|reflexivity].
        -- intros x Hx Hcx. apply Hcov. rewrite Hc in Hcx by lia. apply carries_some in Hcx. lia.
        -- destruct (andb (lenN pv <? RANGE_TARGET) (ps + lenN pv =? st + ov)) eqn:Eb; [|exact Logic.I]. apply andb_prop in Eb as [_ Eb]. apply N.eqb_eq in Eb. exists a0, pv. splits; auto.
      * exists s, true. splits; auto. apply content_same. intros x Hx Hcx. rewrite Hc in Hcx by assumption. apply carries_some in Hcx.
        rewrite El, Ea, !byte_at_app. destruct (byte_at a0 x); [discriminate|]. cbn [byte_at]. assert (carries (ps, pv) x <> None) by (apply carries_some; lia). destruct (carries (ps, pv) x); congruence.
    + apply m_last_none in Em. subst a. apply rx_add_spec with (before := []) (rest := b); auto; try lia.
      * constructor.
      * cbn [rend]. lia.
      * apply Hrokb. right. lia.
      * intros x Hx. rewrite Hc by assumption. destruct (x <? st); reflexivity.
      * intros x Hx Hcx. rewrite Hc in Hcx by lia. apply carries_some in Hcx. lia.
Qed.

(** * Reading *)
Lemma read_loop_spec l : forall lo ret space, rok lo l -> Forall (fun e => ret < fst e + lenN (snd e)) l ->
  exists out ret' l' all, read_loop ret space l = Some (out, ret', l', all) /\
    ret' = ret + lenN out /\ lenN out <= space /\
    (forall x, ret <= x < ret' -> carries (ret, out) x = byte_at l x) /\
    (forall x, ret' <= x -> byte_at l' x = byte_at l x) /\
    rok lo l' /\ Forall (fun e => ret' < fst e + lenN (snd e)) l' /\
    (if all then rend ret l <= ret' /\ l' = [] else rend ret' l' = rend ret l) /\
    (lenN out < space -> byte_at l ret' = None).
Proof.
  induction l as [|[k v] l IH]; intros lo ret space Hok Hp; cbn [read_loop].
  - exists [], ret, [], true. rewrite lenN_nil. splits; auto; try lia; cbn [rend]; lia.
  - cbn [rok] in Hok. destruct Hok as (A & B & C). apply Forall_cons_iff in Hp as [P1 P2]. cbn [fst snd] in P1. pose proof (lenN_pos _ B) as B'.
    assert (Hbl : forall x, x < k + lenN v -> byte_at l x = None) by (intros; eapply byte_at_below; eauto).
    destruct (N.leb_spec k ret) as [H1|H1].
    + rewrite csub_ok by lia. destruct (N.ltb_spec space (lenN v - (ret - k))) as [H2|H2].
      * eexists _, _, _, false. split; [reflexivity|]. rewrite lenN_firstnN, lenN_skipnN. splits; try lia.
        -- intros x Hx. rewrite carries_first. destruct (N.ltb_spec x (ret + space)); [|lia]. replace ret with (k + (ret - k)) at 1 by lia.
           rewrite carries_skip. destruct (N.ltb_spec x (k + (ret - k))); [lia|]. cbn [byte_at]. rewrite Hbl by lia. destruct (carries (k, v) x); reflexivity.
        -- reflexivity.
        -- cbn [rok]. splits; auto.
        -- constructor; [cbn [fst snd]; lia|]. pose proof (rok_keys _ _ C) as X. clear -P2 C H2 X B'.
           assert (Y : Forall (fun e => k + lenN v <= fst e) l) by exact X. eapply fimp; [|exact Y]. cbn. intros e He. lia.
        -- cbn [rend]. reflexivity.
      * destruct (IH (k + lenN v) (ret + (lenN v - (ret - k))) (space - (lenN v - (ret - k))) C) as (out & ret' & l' & all & -> & R1 & R2 & R3 & R4 & R5 & R6 & R7 & R8).
        { assert (Y : Forall (fun e => k + lenN v <= fst e /\ 0 < lenN (snd e)) l).
          { clear -C. revert C. generalize (k + lenN v). induction l as [|[s d] l IH]; intros n H; [constructor|]. cbn [rok] in H. destruct H as (H1 & H2 & H3). constructor.
            - cbn. apply lenN_pos in H2. lia.
            - eapply fimp; [|apply (IH _ H3)]. cbn. intros e ?. lia. }
          eapply fimp; [|exact Y]. cbn. intros e He. lia. }
        eexists _, _, _, _. split; [reflexivity|]. rewrite lenN_app, lenN_skipnN. splits; try lia.
        -- intros x Hx. rewrite carries_app, lenN_skipnN. replace ret with (k + (ret - k)) at 1 by lia. rewrite carries_skip. cbn [byte_at].
           destruct (N.ltb_spec x (k + (ret - k))); [lia|]. destruct (carries (k, v) x) eqn:Ec; [reflexivity|]. apply carries_none in Ec. apply R3. lia.
        -- intros x Hx. rewrite R4 by assumption. cbn [byte_at]. assert (carries (k, v) x = None) as -> by (apply carries_none; lia). reflexivity.
        -- eapply rok_mono; [|exact R5]. lia.
        -- assumption.
        -- replace (ret + (lenN v - (ret - k))) with (k + lenN v) in R7 by lia. cbn [rend]. exact R7.
        -- intros Hs. cbn [byte_at]. rewrite R8 by lia. assert (carries (k, v) ret' = None) as -> by (apply carries_none; lia). reflexivity.
    + exists [], ret, ((k, v) :: l), false. rewrite lenN_nil. splits; auto; try lia.
      * cbn [rok]. splits; auto.
      * intros _. cbn [byte_at]. rewrite Hbl by lia. assert (carries (k, v) ret = None) as -> by (apply carries_none; lia). reflexivity.
Qed.

Lemma rx_read_spec s n : rxinv s -> exists s' out, rx_read n s = Some (s', out) /\ rxinv s' /\
  rx_retired s' = rx_retired s + lenN out /\ lenN out <= n /\
  (forall x, rx_retired s <= x < rx_retired s' -> carries (rx_retired s, out) x = byte_at (rx_ranges s) x) /\
  (forall x, rx_retired s' <= x -> byte_at (rx_ranges s') x = byte_at (rx_ranges s) x) /\
  (lenN out < n -> byte_at (rx_ranges s) (rx_retired s') = None) /\
  rx_received s' = rx_received s /\ rx_end s' <= rx_end s.
Proof.
  intros []. unfold rx_read. destruct (read_loop_spec _ 0 (rx_retired s) n xi_ok0 xi_past0) as (out & ret' & l' & all & -> & R1 & R2 & R3 & R4 & R5 & R6 & R7 & R8).
  eexists _, _. split; [reflexivity|]. cbn [rx_ranges rx_retired rx_received rx_end]. 
  assert (ret' <= rend (rx_retired s) (rx_ranges s)).
  { destruct (N.eq_dec (lenN out) 0) as [E|E]; [rewrite R1, E, N.add_0_r, <- xi_end0; apply xi_retired_le; split; assumption|].
    assert (byte_at (rx_ranges s) (ret' - 1) <> None) as Hb by (rewrite <- R3 by lia; apply carries_some; lia).
    destruct (byte_at (rx_ranges s) (ret' - 1)) eqn:Eb; [|congruence]. apply (byte_at_range _ 0) in Eb; [|assumption].
    destruct (rx_ranges s) as [|e l0]; [cbn in Eb; lia|]. rewrite (rend_nonempty _ _ 0) by discriminate. lia. }
  splits; auto.
  - split; cbn [rx_ranges rx_retired rx_received rx_end]; auto. destruct all; [destruct R7 as [_ ->]; reflexivity|congruence].
  - destruct all; lia.
Qed.

(** Bytes ready to read. *)
Lemma bytes_ready_spec l : forall lo ret, rok lo l -> Forall (fun e => ret < fst e + lenN (snd e)) l ->
  exists n, bytes_ready_loop ret ret l = Some n /\ (forall x, ret <= x < ret + n -> byte_at l x <> None) /\ byte_at l (ret + n) = None.
Proof.
  assert (G : forall l lo ret pe, rok lo l -> pe <= lo -> ret <= pe -> Forall (fun e => ret <= fst e) l ->
     exists n, bytes_ready_loop ret pe l = Some n /\ (forall x, pe <= x < pe + n -> byte_at l x <> None) /\ byte_at l (pe + n) = None).
  { clear l. induction l as [|[k v] l IH]; intros lo ret pe Hok Hpe Hr Hk; cbn [bytes_ready_loop].
    - exists 0. splits; auto. lia.
    - cbn [rok] in Hok. destruct Hok as (A & B & C). apply Forall_cons_iff in Hk as [K1 K2]. cbn [fst] in K1. rewrite csub_ok by lia.
      destruct (N.leb_spec k pe) as [H1|H1].
      + assert (k = pe) as -> by lia. replace (lenN v - (ret - pe)) with (lenN v) by lia.
        destruct (IH (pe + lenN v) ret (pe + lenN v) C ltac:(lia) ltac:(lia) K2) as (n & -> & N1 & N2). exists (lenN v + n). splits.
        * reflexivity.
        * intros x Hx. cbn [byte_at]. destruct (carries (pe, v) x) eqn:Ec; [discriminate|]. apply carries_none in Ec. apply N1. lia.
        * cbn [byte_at]. assert (carries (pe, v) (pe + (lenN v + n)) = None) as -> by (apply carries_none; lia). rewrite N.add_assoc. exact N2.
      + exists 0. splits; auto; [lia|]. rewrite N.add_0_r. eapply (byte_at_below _ k); [|lia]. cbn [rok]. splits; auto. lia. }
  destruct l as [|[k v] l]; intros lo ret Hok Hp.
  { exists 0. cbn. splits; auto. lia. }
  cbn [rok] in Hok. destruct Hok as (A & B & C). apply Forall_cons_iff in Hp as [P1 P2]. cbn [fst snd] in P1.
  cbn [bytes_ready_loop]. rewrite csub_ok by lia. destruct (N.leb_spec k ret) as [H1|H1].
  - replace (ret + (lenN v - (ret - k))) with (k + lenN v) by lia.
    destruct (G l (k + lenN v) ret (k + lenN v) C ltac:(lia) ltac:(lia)) as (n & -> & N1 & N2).
    { eapply fimp; [|apply (rok_keys _ _ C)]. cbn. intros. lia. }
    eexists. split; [reflexivity|]. split.
    + intros x Hx. cbn [byte_at]. destruct (carries (k, v) x) eqn:Ec; [discriminate|]. apply carries_none in Ec. apply N1. lia.
    + cbn [byte_at]. assert (carries (k, v) (ret + (lenN v - (ret - k) + n)) = None) as -> by (apply carries_none; lia).
      replace (ret + (lenN v - (ret - k) + n)) with (k + lenN v + n) by lia. exact N2.
  - exists 0. splits; auto; [lia|]. rewrite N.add_0_r. eapply (byte_at_below _ k); [|lia]. cbn [rok]. splits; auto. lia.
Qed.

(** * Histories *)
Record hist (fs : list (N * list N)) (dl : list N) (s : rx) : Prop := {
  h_inv : rxinv s;
  h_len : rx_retired s = lenN dl;
  h_from : forall x b, rx_retired s <= x -> byte_at (rx_ranges s) x = Some b -> exists f, In f fs /\ carries f x = Some b;
  h_all : forall x, rx_retired s <= x -> arrived fs x -> byte_at (rx_ranges s) x <> None;
  h_deliv : forall x b, carries (0, dl) x = Some b -> exists f, In f fs /\ carries f x = Some b }.

Lemma rxinv_new : rxinv rx_new. Proof. split; cbn; auto. Qed.
Lemma hist_new : hist [] [] rx_new.
Proof.
  split; [apply rxinv_new|reflexivity|cbn; discriminate| |].
  - intros x _ (f & b & [] & _).
  - intros x b H. apply carries_range in H. cbn in H. lia.
Qed.
Lemma frames_app a b : frames (a ++ b) = frames a ++ frames b.
Proof. induction a as [|[s d|n] a IH]; cbn [app frames]; rewrite ?IH; reflexivity. Qed.
Lemma delivered_app a b : delivered (a ++ b) = delivered a ++ delivered b.
Proof. induction a as [|[| |l] a IH]; cbn [app delivered]; rewrite ?IH, ?app_assoc; reflexivity. Qed.

Lemma xstep_hist fs dl s o : hist fs dl s -> xop_ok o -> exists s' out, xstep s o = Some (s', out) /\ hist (fs ++ frames [o]) (dl ++ delivered [out]) s'.
Proof.
  intros H Ho. destruct o as [start data|n]; cbn [xstep frames delivered xop_ok] in *.
  - destruct (rx_inbound_spec s start data (h_inv _ _ _ H)) as (s' & ok & -> & I & E & C).
    { eapply N.le_lt_trans; [exact Ho|reflexivity]. }
    eexists _, _. split; [reflexivity|].
    assert (match (if ok then XAccepted else XViolation) with XBytes l => l ++ [] | _ => [] end = []) as -> by (destruct ok; reflexivity).
    rewrite app_nil_r. destruct H. split; auto.
    + congruence.
    + intros x b Hx Hb. rewrite E in Hx. destruct (C x Hx) as [C1 _]. destruct (C1 _ Hb) as [D|D].
      * destruct (h_from0 _ _ Hx D) as (f & F1 & F2). exists f. split; [apply in_or_app; auto|assumption].
      * eexists. split; [apply in_or_app; right; left; reflexivity|assumption].
    + intros x Hx (f & b & Hin & Hc). rewrite E in Hx. destruct (C x Hx) as [_ C2]. apply C2. apply in_app_or in Hin as [Hin|[<-|[]]].
      * left. apply h_all0; [assumption|]. exists f, b. auto.
      * right. congruence.
    + intros x b Hx. destruct (h_deliv0 _ _ Hx) as (f & F1 & F2). exists f. split; [apply in_or_app; auto|assumption].
  - destruct (rx_read_spec s n (h_inv _ _ _ H)) as (s' & out & -> & I & E & L & C1 & C2 & C3 & _). eexists _, _. split; [reflexivity|]. cbn [delivered]. rewrite !app_nil_r.
    destruct H. split; auto.
    + rewrite E, lenN_app. lia.
    + intros x b Hx Hb. rewrite C2 in Hb by assumption. apply h_from0; [lia|assumption].
    + intros x Hx Ha. rewrite C2 by assumption. apply h_all0; [lia|assumption].
    + intros x b Hx. rewrite carries_app in Hx. destruct (carries (0, dl) x) eqn:Ec; [injection Hx as <-; auto|]. rewrite N.add_0_l, <- h_len0 in Hx.
      pose proof (carries_range _ _ _ _ Hx) as Hr. rewrite C1 in Hx by lia. apply h_from0; [lia|assumption].
Qed.
Lemma xruns_hist ops : forall fs dl s, hist fs dl s -> Forall xop_ok ops -> exists s' outs, xruns s ops = Some (s', outs) /\ hist (fs ++ frames ops) (dl ++ delivered outs) s'.
Proof.
  induction ops as [|o ops IH]; intros fs dl s H Ho; cbn [xruns].
  - exists s, []. cbn. rewrite !app_nil_r. auto.
  - apply Forall_cons_iff in Ho as [Ho1 Ho2]. destruct (xstep_hist _ _ _ _ H Ho1) as (s1 & out & -> & H1). destruct (IH _ _ _ H1 Ho2) as (s2 & outs & -> & H2).
    eexists _, _. split; [reflexivity|]. change (o :: ops) with ([o] ++ ops). change (out :: outs) with ([out] ++ outs). rewrite frames_app, delivered_app, !app_assoc. assumption.
Qed.
Lemma xruns_hist0 ops s outs : Forall xop_ok ops -> xruns rx_new ops = Some (s, outs) -> hist (frames ops) (delivered outs) s.
Proof. intros Ho H. destruct (xruns_hist ops _ _ _ hist_new Ho) as (s' & outs' & E & H'). rewrite E in H. injection H as <- <-. exact H'. Qed.

Lemma no_panic_lemma ops : Forall xop_ok ops -> exists s outs, xruns rx_new ops = Some (s, outs).
Proof. intros Ho. destruct (xruns_hist ops _ _ _ hist_new Ho) as (s & outs & E & _). eauto. Qed.

Lemma carries0 l x : carries (0, l) x = nth_error l (N.to_nat x).
Proof. unfold carries. cbn [fst snd]. destruct (N.leb_spec 0 x); [|lia]. f_equal. lia. Qed.

Lemma delivered_lemma ops s outs i b : Forall xop_ok ops -> xruns rx_new ops = Some (s, outs) ->
  nth_error (delivered outs) i = Some b -> exists f, In f (frames ops) /\ carries f (N.of_nat i) = Some b.
Proof. intros Ho H Hn. apply (h_deliv _ _ _ (xruns_hist0 _ _ _ Ho H)). rewrite carries0, Nat2N.id. exact Hn. Qed.

Lemma nth_error_ext {A} (a b : list A) : (forall i, nth_error a i = nth_error b i) -> a = b.
Proof.
  revert b. induction a as [|x a IH]; intros [|y b] H; auto; try (specialize (H O); discriminate).
  f_equal; [specialize (H O); cbn in H; congruence|]. apply IH. intros i. exact (H (S i)).
Qed.
Lemma nth_slice g from n i : nth_error (stream_slice g from n) i = if (i <? n)%nat then Some (g (from + N.of_nat i)) else None.
Proof.
  unfold stream_slice. destruct (Nat.ltb_spec i n).
  - rewrite nth_error_map. rewrite nth_error_nth' with (d := O) by (rewrite seq_length; assumption). rewrite seq_nth by assumption. reflexivity.
  - apply nth_error_None. rewrite map_length, seq_length. assumption.
Qed.
Lemma prefix_lemma g ops s outs : Forall xop_ok ops -> pieces_of g (frames ops) -> xruns rx_new ops = Some (s, outs) ->
  delivered outs = stream_slice g 0 (length (delivered outs)).
Proof.
  intros Ho Hg H. apply nth_error_ext. intros i. rewrite nth_slice. destruct (Nat.ltb_spec i (length (delivered outs))) as [L|L].
  - destruct (nth_error (delivered outs) i) eqn:E; [|apply nth_error_None in E; lia]. destruct (delivered_lemma _ _ _ _ _ Ho H E) as (f & F1 & F2).
    f_equal. rewrite N.add_0_l. eapply Hg; eauto.
  - apply nth_error_None. assumption.
Qed.

Lemma read_all_lemma ops s outs n : Forall xop_ok ops -> xruns rx_new ops = Some (s, outs) ->
  exists s' l, xstep s (XRead n) = Some (s', XBytes l) /\ lenN l <= n /\
    (lenN l < n -> ~ arrived (frames ops) (lenN (delivered outs) + lenN l)).
Proof.
  intros Ho H. apply xruns_hist0 in H; [|assumption]. destruct (rx_read_spec s n (h_inv _ _ _ H)) as (s' & out & E & I & E2 & L & C1 & C2 & C3 & _).
  cbn [xstep]. rewrite E. eexists _, _. split; [reflexivity|]. split; [assumption|]. intros Hl Ha. destruct H. rewrite <- h_len0, <- E2 in Ha. apply h_all0 in Ha; [|lia]. apply Ha. auto.
Qed.

Lemma ready_lemma ops s outs : Forall xop_ok ops -> xruns rx_new ops = Some (s, outs) ->
  exists n, rx_bytes_ready s = Some n /\
    (forall x, x < lenN (delivered outs) + n -> arrived (frames ops) x) /\ ~ arrived (frames ops) (lenN (delivered outs) + n) /\
    (rx_ready s = true <-> 0 < n) /\
    (exists s' l, rx_read_to_end s = Some (s', l) /\ lenN l = n).
Proof.
  intros Ho H. apply xruns_hist0 in H; [|assumption]. pose proof (h_inv _ _ _ H) as I. destruct (bytes_ready_spec _ 0 (rx_retired s) (xi_ok _ I) (xi_past _ I)) as (n & E & N1 & N2).
  exists n. unfold rx_bytes_ready. rewrite E. destruct H. splits; auto.
  - intros x Hx. destruct (N.lt_ge_cases x (rx_retired s)) as [Hl|Hl].
    + assert (carries (0, delivered outs) x <> None) as Hc by (apply carries_some; lia). destruct (carries (0, delivered outs) x) as [b|] eqn:Ec; [|congruence].
      destruct (h_deliv0 _ _ Ec) as (f & F1 & F2). exists f, b. auto.
    + assert (byte_at (rx_ranges s) x <> None) as Hc by (apply N1; lia). destruct (byte_at (rx_ranges s) x) as [b|] eqn:Ec; [|congruence].
      destruct (h_from0 _ _ Hl Ec) as (f & F1 & F2). exists f, b. auto.
  - rewrite <- h_len0. intros Ha. apply h_all0 in Ha; [congruence|lia].
  - unfold rx_ready. destruct I. destruct (rx_ranges s) as [|[k v] l].
    + cbn in E. injection E as <-. split; [discriminate|lia].
    + cbn [rok] in xi_ok0. destruct xi_ok0 as (A & B & C). apply Forall_cons_iff in xi_past0 as [P _]. cbn [fst snd] in P. split; intros Hk.
      * apply N.leb_le in Hk. destruct (N.eq_dec n 0) as [->|]; [|lia]. rewrite N.add_0_r in N2. cbn [byte_at] in N2.
        assert (carries (k, v) (rx_retired s) <> None) by (apply carries_some; lia). destruct (carries (k, v) (rx_retired s)); congruence.
      * apply N.leb_le. specialize (N1 (rx_retired s) ltac:(lia)). destruct (N.le_gt_cases k (rx_retired s)); [assumption|]. exfalso. apply N1. eapply (byte_at_below _ k); [|lia]. cbn [rok]. splits; auto. lia.
  - unfold rx_read_to_end, rx_bytes_ready. rewrite E. destruct (rx_read_spec s n I) as (s' & out & -> & _ & E2 & L & C1 & C2 & C3 & _). eexists _, _. split; [reflexivity|].
    destruct (N.lt_ge_cases (lenN out) n) as [Hl|Hl]; [|lia]. exfalso. apply (N1 (rx_retired s')); [lia|auto].
Qed.

(** Content of the buffer. *)
Lemma content_lemma ops s outs : Forall xop_ok ops -> xruns rx_new ops = Some (s, outs) ->
  let r := lenN (delivered outs) in
  (forall e, In e (rx_ranges s) -> snd e <> [] /\ r < fst e + lenN (snd e)) /\
  (forall i j e f, (i < j)%nat -> nth_error (rx_ranges s) i = Some e -> nth_error (rx_ranges s) j = Some f -> fst e + lenN (snd e) <= fst f) /\
  (forall x, r <= x -> (arrived (frames ops) x <-> exists e b, In e (rx_ranges s) /\ carries e x = Some b)) /\
  (forall e x b, r <= x -> In e (rx_ranges s) -> carries e x = Some b -> exists f, In f (frames ops) /\ carries f x = Some b).
Proof.
  intros Ho H r. apply xruns_hist0 in H; [|assumption]. destruct H. destruct h_inv0. unfold r. rewrite <- h_len0.
  assert (Hin : forall l lo e, rok lo l -> In e l -> snd e <> [] /\ (forall x, carries e x <> None -> byte_at l x <> None) /\ (forall x b, carries e x = Some b -> byte_at l x = Some b)).
  { induction l as [|[k v] l IH]; intros lo e Hr Hi; [destruct Hi|]. cbn [rok] in Hr. destruct Hr as (A & B & C). destruct Hi as [<-|Hi].
    - splits; auto; intros; cbn [byte_at]; [destruct (carries (k, v) x); congruence|rewrite H; reflexivity].
    - destruct (IH _ _ C Hi) as (I1 & I2 & I3). splits; auto; intros; cbn [byte_at].
      + destruct (carries (k, v) x); [discriminate|auto].
      + destruct (carries (k, v) x) eqn:Ec; [|auto]. apply carries_range in Ec. apply I3 in H. apply (byte_at_range _ _ _ _ C) in H. lia. }
  splits.
  - intros e He. split; [eapply Hin; eauto|]. rewrite Forall_forall in xi_past0. auto.
  - clear -xi_ok0. revert xi_ok0. generalize 0. generalize (rx_ranges s). intros l. induction l as [|[k v] l IH]; intros lo Hr i j e f Hij Hi Hj; [destruct i; discriminate|].
    cbn [rok] in Hr. destruct Hr as (A & B & C). destruct j as [|j]; [lia|]. destruct i as [|i]; cbn [nth_error] in *.
    + injection Hi as <-. cbn [fst snd]. apply nth_error_In in Hj. pose proof (rok_keys _ _ C) as K. rewrite Forall_forall in K. auto.
    + apply (IH _ C i j); auto. lia.
  - intros x Hx. split.
    + intros Ha. apply h_all0 in Ha; [|assumption]. clear -Ha. induction (rx_ranges s) as [|e l IH]; cbn [byte_at] in Ha; [congruence|].
      destruct (carries e x) eqn:Ec; [exists e, n; split; [left; reflexivity|assumption]|]. destruct (IH Ha) as (e' & b & I1 & I2). exists e', b. split; [right; assumption|assumption].
    + intros (e & b & He & Hc). destruct (Hin _ _ _ xi_ok0 He) as (_ & _ & I3). apply I3 in Hc. destruct (h_from0 _ _ Hx Hc) as (f & F1 & F2). exists f, b. auto.
  - intros e x b Hx He Hc. destruct (Hin _ _ _ xi_ok0 He) as (_ & _ & I3). apply I3 in Hc. auto.
Qed.

(** * How many entries *)
Lemma rok_filter f l : forall lo, rok lo l -> rok lo (filter f l).
Proof.
  induction l as [|[s d] l IH]; intros lo H; [exact Logic.I|]. cbn [rok] in H. destruct H as (A & B & C). cbn [filter]. destruct (f (s, d)).
  - cbn [rok]. splits; auto.
  - apply IH. eapply rok_mono; [|exact C]. lia.
Qed.
Lemma filter_le {A} (f : A -> bool) l : lenN (filter f l) <= lenN l.
Proof. unfold lenN. induction l as [|a l IH]; cbn [filter length]; [lia|]. destruct (f a); cbn [length]; lia. Qed.
Lemma fold_remove_le ks : forall l, lenN (fold_left (fun m k => m_remove k m) ks l) <= lenN l.
Proof. induction ks as [|k ks IH]; intros l; cbn [fold_left]; [lia|]. etransitivity; [apply IH|]. apply filter_le. Qed.
Lemma fold_remove_ok ks : forall l lo, rok lo l -> rok lo (fold_left (fun m k => m_remove k m) ks l).
Proof. induction ks as [|k ks IH]; intros l lo H; cbn [fold_left]; [assumption|]. apply IH. apply rok_filter. assumption. Qed.
Lemma m_insert_len k v w l : forall lo, rok lo l -> m_get k l = Some w -> lenN (m_insert k v l) = lenN l.
Proof.
  unfold m_get. induction l as [|[s d] l IH]; intros lo H E; cbn [filter fst] in E; [discriminate|]. cbn [rok] in H. destruct H as (A & B & C). cbn [m_insert].
  destruct (N.eqb_spec s k) as [->|Hne].
  - rewrite N.ltb_irrefl, N.eqb_refl, !lenN_cons. reflexivity.
  - destruct (N.ltb_spec k s) as [Hlt|Hge].
    + exfalso. rewrite filter_none in E; [discriminate|]. eapply fimp; [|apply (rok_keys _ _ C)]. cbn. intros e He. apply N.eqb_neq. apply lenN_pos in B. lia.
    + destruct (N.eqb_spec k s); [lia|]. rewrite !lenN_cons. f_equal. eapply IH; eauto.
Qed.

Lemma count_insert st d s s' ok : rx_insert st d s = Some (s', ok) -> ok = true -> lenN (rx_ranges s') <= MAX_GAPS + rx_end s' / RANGE_TARGET.
Proof.
  unfold rx_insert. intros H ->. destruct (gap_check _) as [b|] eqn:E; [|discriminate]. injection H as <- ->. unfold gap_check in E.
  destruct (csub _ _) as [sp|] eqn:Es; [|discriminate]. apply some_inj in E. apply N.leb_le in E. apply csub_some in Es as [-> Es]. cbn [rx_ranges rx_end rx_retired] in *.
  etransitivity; [exact E|]. apply N.add_le_mono_l. apply N.div_le_mono; [discriminate|]. lia.
Qed.
Lemma target_mono a b c d : a <= c -> b <= d -> c <= MAX_GAPS + b / RANGE_TARGET -> a <= MAX_GAPS + d / RANGE_TARGET.
Proof. intros. etransitivity; [eassumption|]. etransitivity; [eassumption|]. apply N.add_le_mono_l. apply N.div_le_mono; [discriminate|assumption]. Qed.

Definition few (s : rx) := lenN (rx_ranges s) <= MAX_GAPS + rx_end s / RANGE_TARGET.
Lemma few_add st ne d ext s s' ok : rxinv s -> few s -> rx_add st ne d ext s = Some (s', ok) -> ok = true -> few s'.
Proof.
  intros I F H Hok. unfold rx_add in H. match type of H with match ?X with Some _ => _ | None => _ end = _ => destruct X as [[t rm]|]; [|discriminate] end.
  pose proof (fold_remove_le rm (rx_ranges s)) as L. pose proof (fold_remove_ok rm _ _ (xi_ok _ I)) as K.
  set (R := fold_left _ _ _) in *. clearbody R. destruct t as [|t0 tt].
  - injection H as <- <-. unfold few. cbn [rx_ranges rx_end]. eapply target_mono; [exact L| |exact F]. lia.
  - destruct ext as [[ps plen]|]; [|eapply count_insert; eauto].
    destruct (match m_get _ _ with Some _ => _ | None => _ end) as [R2 next] eqn:E2.
    assert (lenN R2 <= lenN R /\ rok 0 R2) as [L2 K2].
    { destruct (m_get _ R); [|injection E2 as <- <-; split; [lia|assumption]]. destruct (_ <=? _); injection E2 as <- <-; (split; [|try assumption; try (apply rok_filter; assumption)]); try lia. apply filter_le. }
    injection H as <- <-. unfold few. cbn [rx_ranges rx_end]. destruct (m_get ps R2) eqn:E3.
    + erewrite m_insert_len by eauto. eapply target_mono; [|apply N.le_max_l|exact F]. lia.
    + eapply target_mono; [|apply N.le_max_l|exact F]. lia.
Qed.
Lemma few_inbound start data s s' ok : rxinv s -> few s -> rx_inbound start data s = Some (s', ok) -> ok = true -> few s'.
Proof.
  intros I F H Hok. unfold rx_inbound in H. destruct (chk _) as [ne|] eqn:Ec; [|discriminate].
  destruct (N.leb_spec ne (rx_retired s)); [injection H as <- <-; assumption|].
  match type of H with match ?X with (_, _) => _ end = _ => destruct X as [st d] eqn:Ep end.
  apply chk_some in Ec as [-> _].
  assert (Hsd : st + lenN d = start + lenN data).
  { destruct (N.ltb_spec start (rx_retired s)); injection Ep as <- <-; rewrite ?lenN_skipnN; lia. }
  destruct d as [|d0 dd] eqn:Ed; [injection H as <- <-; assumption|]. rewrite <- Ed in *.
  destruct (N.leb_spec (rx_end s) st) as [He|He].
  - destruct (negb _) eqn:En; [discriminate|]. destruct (m_last (rx_ranges s)) as [[k v]|] eqn:El; [|eapply count_insert; eauto].
    destruct (andb _ _) eqn:Ea; [|eapply count_insert; eauto]. injection H as <- <-. unfold few. cbn [rx_ranges rx_end].
    assert (m_get k (rx_ranges s) = Some v) as Eg.
    { apply m_last_inv in El as [a El]. pose proof (xi_ok _ I) as K. rewrite El in *. apply rok_app in K as [K1 K2]. cbn [rok] in K2. apply m_get_split. eapply kless_rok; [exact K1|tauto]. }
    erewrite m_insert_len by (eauto using xi_ok). eapply target_mono; [apply N.le_refl| |exact F].
    apply andb_prop in Ea as [Ea _]. apply N.eqb_eq in Ea. lia.
  - destruct (m_upto _ _) as [[ps pv]|].
    + destruct (_ <? start + lenN data); [eapply few_add; eauto|injection H as <- <-; assumption].
    + eapply few_add; eauto.
Qed.

Lemma few_lemma ops : forall s s' outs, rxinv s -> few s -> Forall xop_ok ops -> xruns s ops = Some (s', outs) -> ~ In XViolation outs -> few s'.
Proof.
  induction ops as [|o ops IH]; intros s s' outs I F Ho H Hn; cbn [xruns] in H.
  - injection H as <- <-. assumption.
  - apply Forall_cons_iff in Ho as [Ho1 Ho2]. destruct (xstep s o) as [[s1 out]|] eqn:E; [|discriminate]. destruct (xruns s1 ops) as [[s2 outs2]|] eqn:E2; [|discriminate]. injection H as <- <-.
    apply not_in_cons in Hn as [Hn1 Hn2]. destruct o as [start data|n]; cbn [xstep xop_ok] in *.
    + destruct (rx_inbound_spec s start data I) as (t & ok & E1 & I1 & _). { eapply N.le_lt_trans; [exact Ho1|reflexivity]. }
      rewrite E1 in E. apply some_inj in E. assert (t = s1 /\ out = (if ok then XAccepted else XViolation)) as [A B] by (split; congruence). subst t out.
      eapply IH; [exact I1| |exact Ho2|exact E2|assumption]. eapply few_inbound; [exact I|exact F|exact E1|]. destruct ok; [reflexivity|congruence].
    + destruct (rx_read_spec s n I) as (t & l & E1 & I1 & _). rewrite E1 in E. injection E as <- <-. eapply IH; [exact I1| |exact Ho2|exact E2|assumption].
      unfold rx_read in E1. destruct (read_loop_spec _ 0 (rx_retired s) n (xi_ok _ I) (xi_past _ I)) as (o' & r' & l' & all & E3 & _ & _ & _ & _ & _ & _ & R7 & _).
      rewrite E3 in E1. injection E1 as <- <-. unfold few. cbn [rx_ranges rx_end]. destruct all; [destruct R7 as [_ ->]; apply N.le_0_l|].
      eapply target_mono; [|apply N.le_refl|exact F]. clear -E3. revert E3. generalize (rx_retired s), n. revert o' r' l'. induction (rx_ranges s) as [|[k v] l IH]; intros o' r' l' ret nn; cbn [read_loop]; [discriminate|].
      destruct (k <=? ret); [|intros H; injection H as _ _ <-; lia]. destruct (csub _ _) as [av|]; [|discriminate]. destruct (nn <? av); [intros H; injection H as _ _ <-; lia|].
      destruct (read_loop (ret + av) (nn - av) l) as [[[[a b] c] d]|] eqn:E; [|discriminate]. intros H. injection H as _ _ <- ->. apply IH in E. rewrite lenN_cons. lia.
Qed.
Lemma bounded_lemma ops s outs : Forall xop_ok ops -> xruns rx_new ops = Some (s, outs) -> ~ In XViolation outs -> lenN (rx_ranges s) <= MAX_GAPS + rx_end s / RANGE_TARGET.
Proof. intros Ho H Hn. eapply few_lemma; eauto using rxinv_new. unfold few. cbn. apply N.le_0_l. Qed.

(** When a frame is refused the buffer holds more than 4096 entries beyond one per 4096 bytes. *)
Lemma refused_lemma s o s' : xstep s o = Some (s', XViolation) -> MAX_GAPS + (rx_end s' - rx_retired s') / RANGE_TARGET < lenN (rx_ranges s').
Proof.
  assert (Hi : forall st d t t', rx_insert st d t = Some (t', false) -> MAX_GAPS + (rx_end t' - rx_retired t') / RANGE_TARGET < lenN (rx_ranges t')).
  { intros st d t t' H. unfold rx_insert, gap_check in H. destruct (csub _ _) as [sp|] eqn:E; [|discriminate]. injection H as <- H. apply N.leb_gt in H. apply csub_some in E as [-> _]. exact H. }
  assert (Ha : forall st ne d ext t t', rx_add st ne d ext t = Some (t', false) -> MAX_GAPS + (rx_end t' - rx_retired t') / RANGE_TARGET < lenN (rx_ranges t')).
  { intros st ne d ext t t' H. unfold rx_add in H. match type of H with match ?X with Some _ => _ | None => _ end = _ => destruct X as [[u rm]|]; [|discriminate] end.
    destruct u; [discriminate|]. destruct ext as [[ps pl]|]; [|eauto]. match type of H with match ?X with (_, _) => _ end = _ => destruct X end. discriminate. }
  intros H. destruct o as [start data|n]; cbn [xstep] in H.
  - destruct (rx_inbound start data s) as [[t ok]|] eqn:E; [|discriminate]. destruct ok; [discriminate|]. injection H as <-. unfold rx_inbound in E.
    destruct (chk _); [|discriminate]. destruct (_ <=? rx_retired s); [discriminate|]. match type of E with match ?X with (_, _) => _ end = _ => destruct X as [st d] end.
    destruct d; [discriminate|]. destruct (rx_end s <=? st).
    + destruct (negb _); [discriminate|]. destruct (m_last _) as [[k v]|]; [|eauto]. destruct (andb _ _); [discriminate|eauto].
    + destruct (m_upto _ _) as [[ps pv]|]; [|eauto]. destruct (_ <? n); [eauto|discriminate].
  - destruct (rx_read n s) as [[? ?]|]; discriminate.
Qed.
