(** Invariants of send streams. *)
From Verif Require Import Base Lib CodecModel FrameModel FrameSpec FrameProofs FrameProps CodecProofs FcModel RtModel RtSpec RtProofs SsModel SsSpec.

(** * Lists *)
Lemma skipnN_app_le {A} n (a b : list A) : n <= lenN a -> skipnN n (a ++ b) = skipnN n a ++ b.
Proof. intros H. unfold skipnN, lenN in *. rewrite skipn_app. replace (N.to_nat n - length a)%nat with O by lia. reflexivity. Qed.
Lemma skipnN_skipnN {A} a b (l : list A) : skipnN a (skipnN b l) = skipnN (b + a) l.
Proof. unfold skipnN. rewrite N2Nat.inj_add, skipn_add. reflexivity. Qed.
Lemma lenN_skipnN {A} n (l : list A) : lenN (skipnN n l) = lenN l - n.
Proof. unfold lenN, skipnN. rewrite skipn_length. lia. Qed.
Lemma lenN_firstnN {A} n (l : list A) : lenN (firstnN n l) = N.min n (lenN l).
Proof. unfold lenN, firstnN. rewrite firstn_length. lia. Qed.
Lemma firstnN_firstnN {A} a b (l : list A) : firstnN a (firstnN b l) = firstnN (N.min a b) l.
Proof. unfold firstnN. rewrite firstn_firstn. f_equal. lia. Qed.
Lemma firstnN_all {A} n (l : list A) : lenN l <= n -> firstnN n l = l.
Proof. intros H. unfold firstnN, lenN in *. apply firstn_all2. lia. Qed.
Lemma firstnN_len {A} n (l : list A) : firstnN (N.min n (lenN l)) l = firstnN n l.
Proof. unfold firstnN, lenN. destruct (N.le_gt_cases n (N.of_nat (length l))); [f_equal; lia|]. rewrite !firstn_all2 by lia. reflexivity. Qed.
Lemma lenN0 {A} (l : list A) : lenN l = 0 -> l = [].
Proof. destruct l; [reflexivity|]. unfold lenN. cbn [length]. lia. Qed.
Lemma slice_app off len (w w' : list N) : off + len <= lenN w -> slice off len (w ++ w') = slice off len w.
Proof.
  intros H. unfold slice. rewrite skipnN_app_le by lia. unfold firstnN. rewrite firstn_app.
  replace (N.to_nat len - length (skipnN off w))%nat with O. 2:{ pose proof (lenN_skipnN off w). unfold lenN in *. lia. }
  cbn [firstn]. apply app_nil_r.
Qed.
Lemma lenN_slice off len (w : list N) : off + len <= lenN w -> lenN (slice off len w) = len.
Proof. intros H. unfold slice. rewrite lenN_firstnN, lenN_skipnN. lia. Qed.
Lemma firstnN_slice n off len (w : list N) : firstnN n (slice off len w) = slice off (N.min n len) w.
Proof. unfold slice. apply firstnN_firstnN. Qed.

(** * Histories *)
Lemma written_snoc h e : written (h ++ [e]) = written h ++ written1 e.
Proof. unfold written. rewrite flat_map_app. cbn. rewrite app_nil_r. reflexivity. Qed.
Lemma frames_snoc h e : frames (h ++ [e]) = frames h ++ frames1 e.
Proof. unfold frames. rewrite flat_map_app. cbn. rewrite app_nil_r. reflexivity. Qed.
Lemma summ_snoc h e : summ (h ++ [e]) = sum1 (summ h) e.
Proof. unfold summ. rewrite fold_left_app. reflexivity. Qed.
Lemma slimit_snoc i h e : slimit i (h ++ [e]) = slimit1 (slimit i h) e.
Proof. unfold slimit. rewrite fold_left_app. reflexivity. Qed.
Lemma was_acked_snoc h e P : was_acked (h ++ [e]) P <-> was_acked h P \/ acked1 e P.
Proof.
  unfold was_acked. split.
  - intros (x & H & A). apply in_app_or in H as [H|[<-|[]]]; eauto.
  - intros [(x & H & A)|A]; [exists x; split; [apply in_or_app; auto|auto]|exists e; split; [apply in_or_app; right; left; auto|auto]].
Qed.
Lemma in_flight_keep h e P : in_flight h P -> ~ lost1 e P -> in_flight (h ++ [e]) P.
Proof.
  intros (a & x & b & -> & S & N) L. exists a, x, (b ++ [e]). splits; [rewrite <- app_assoc; reflexivity|auto|].
  intros e' H. apply in_app_or in H as [H|[<-|[]]]; auto.
Qed.
Lemma in_flight_new h e P : sent1 e P -> in_flight (h ++ [e]) P.
Proof. intros S. exists h, e, []. splits; auto. Qed.

(** Entries that neither acknowledge nor lose anything. *)
Definition quiet (e : sentry) : Prop := (forall P, ~ acked1 e P) /\ (forall P, ~ lost1 e P).
Lemma quiet_acked h e P : quiet e -> (was_acked (h ++ [e]) P <-> was_acked h P).
Proof. intros (A & _). rewrite was_acked_snoc. specialize (A P). tauto. Qed.
Lemma quiet_flight h e P : quiet e -> in_flight h P -> in_flight (h ++ [e]) P.
Proof. intros (_ & A) H. apply in_flight_keep; auto. Qed.

(** * The buffer *)
Lemma not_acked_at t : rt_wf t -> state_of t (rt_acked t) <> Some true.
Proof.
  intros [C _]. rewrite state_at, N.ltb_irrefl. intros X.
  destruct (rt_used t) as [|[o [n s]] l]; [discriminate|]. cbn [chain at_] in *. destruct C as (W1 & W2 & W3 & W4).
  destruct (_ && _) eqn:E.
  - injection X as ->. apply W3; [lia|reflexivity].
  - rewrite (at_low _ _ _ _ W4) in X by lia. discriminate.
Qed.
Lemma acked_below t b : b < rt_acked t -> state_of t b = Some true.
Proof. intros H. rewrite state_at. replace (b <? rt_acked t) with true by lia. reflexivity. Qed.

Definition buf_ok (h : hist) (W : list N) (b : txb) : Prop :=
  rt_wf (tb_rt b) /\ tb_buf b = skipnN (tb_retired b) W /\ tb_retired b <= lenN W /\ tb_buffered b <= MAX_SIZE /\
  (forall x, lenN W <= x -> state_of (tb_rt b) x = None) /\
  (forall x, state_of (tb_rt b) x = Some true <-> was_acked h (fun t => carries t x)) /\
  (forall x, state_of (tb_rt b) x = Some false -> in_flight h (fun t => carries t x)).

Lemma buf_buffered h W b : buf_ok h W b -> tb_buffered b = lenN W - tb_retired b.
Proof. intros (_ & B & R & _). unfold tb_buffered. rewrite B, lenN_skipnN. reflexivity. Qed.
Lemma buf_used h W b : buf_ok h W b -> tb_used b = lenN W.
Proof. intros H. pose proof (buf_buffered _ _ _ H). destruct H as (_ & _ & R & _). unfold tb_used. lia. Qed.
Lemma buf_acked_upto h W b : buf_ok h W b -> acked_upto h (tb_retired b).
Proof. intros (_ & _ & _ & _ & _ & A & _) x Hx. apply A. apply acked_below. exact Hx. Qed.
Lemma buf_new h : (forall x, ~ was_acked h (fun t => carries t x)) -> buf_ok h [] tb_new.
Proof.
  intros H. unfold buf_ok, tb_new, tb_retired, tb_buffered. cbn [tb_rt tb_buf rt_new rt_acked].
  assert (S : forall x, state_of rt_new x = None). { intros x. rewrite state_at. cbn. replace (x <? 0) with false by lia. reflexivity. }
  splits; [apply new_wf|reflexivity|apply N.le_0_l|apply N.le_0_l|intros; apply S| |].
  - intros x. rewrite S. split; [discriminate|]. intros A. destruct (H x A).
  - intros x. rewrite S. discriminate.
Qed.
Lemma buf_quiet h e W b : quiet e -> buf_ok h W b -> buf_ok (h ++ [e]) W b.
Proof.
  intros Q (A & B & C & D & E & F & G). unfold buf_ok. splits; auto.
  - intros x. rewrite (quiet_acked h e _ Q). apply F.
  - intros x Hx. apply quiet_flight; auto.
Qed.
Lemma buf_send h W b d : buf_ok h W b -> let '(b', n) := tb_send d b in
  n = N.min (MAX_SIZE - tb_buffered b) (lenN d) /\ buf_ok h (W ++ firstnN n d) b' /\ tb_retired b' = tb_retired b.
Proof.
  intros (A & B & C & D & E & F & G). unfold tb_send. cbv zeta. splits; [reflexivity| |reflexivity].
  unfold buf_ok, tb_retired, tb_buffered in *. cbn [tb_rt tb_buf].
  splits; auto.
  - rewrite skipnN_app_le by exact C. rewrite B at 1. reflexivity.
  - rewrite lenN_app. lia.
  - rewrite lenN_app, lenN_firstnN. lia.
  - intros x. rewrite lenN_app. intros Hx. apply E. lia.
Qed.

Lemma buf_first h W b : buf_ok h W b -> let '(b', x) := tb_first b in
  buf_ok h W b' /\ tb_retired b' = tb_retired b /\ tb_buf b' = tb_buf b /\
  (forall y, state_of (tb_rt b') y = state_of (tb_rt b) y) /\
  match x with
  | None => forall y, y < lenN W -> state_of (tb_rt b) y <> None
  | Some (o, ml) =>
      tb_retired b <= o < lenN W /\ (forall y, y < o -> state_of (tb_rt b) y <> None) /\
      match ml with
      | Some n => 0 < n /\ o + n <= lenN W /\ forall y, o <= y < o + n -> state_of (tb_rt b) y = None
      | None => forall y, o <= y -> state_of (tb_rt b) y = None
      end
  end.
Proof.
  intros H. pose proof (buf_buffered _ _ _ H) as HB. destruct H as (A & B & C & D & E & F & G).
  unfold tb_first. pose proof (first_unmarked_spec _ A) as X. destruct (rt_first_unmarked (tb_rt b)) as [r [o l]].
  destruct X as (X1 & X2 & X3 & X4 & X5).
  assert (S : forall y, state_of r y = state_of (tb_rt b) y) by (intros y; unfold state_of; rewrite X2, X3; reflexivity).
  assert (O : o <= lenN W).
  { destruct (N.le_gt_cases o (lenN W)) as [|Hg]; [assumption|]. exfalso. apply (X4 (lenN W)); [lia|apply E; lia]. }
  assert (R : tb_retired b <= o).
  { destruct (N.le_gt_cases (tb_retired b) o) as [|Hg]; [assumption|]. exfalso.
    assert (Y : state_of (tb_rt b) o = Some true) by (apply acked_below; exact Hg).
    destruct l as [n|]; [destruct X5 as (? & X5 & _); rewrite X5 in Y by lia|rewrite X5 in Y by lia]; discriminate. }
  unfold buf_ok, tb_retired, tb_buffered in *. cbn [tb_rt tb_buf].
  splits; auto.
  - rewrite X2. exact B.
  - rewrite X2. exact C.
  - intros x Hx. rewrite S. auto.
  - intros x. rewrite S. auto.
  - intros x. rewrite S. auto.
  - destruct (o =? rt_acked (tb_rt b) + lenN (tb_buf b)) eqn:EO.
    + intros y Hy. apply X4. lia.
    + splits; [lia|lia|exact X4|]. destruct l as [n|]; [|exact X5]. destruct X5 as (N1 & N2 & N3). splits; auto.
      destruct (N.le_gt_cases (o + n) (lenN W)) as [|Hg]; [assumption|]. exfalso. apply N3. apply E. lia.
Qed.

Lemma slice_skipn off k (W : list N) r : r <= off -> firstnN k (skipnN (off - r) (skipnN r W)) = slice off k W.
Proof. intros H. unfold slice. rewrite skipnN_skipnN. replace (r + (off - r)) with off by lia. reflexivity. Qed.

Lemma buf_next h W b sp : buf_ok h W b -> exists b' x, tb_next sp b = Some (b', x) /\
  buf_ok h W b' /\ tb_retired b' = tb_retired b /\ tb_buf b' = tb_buf b /\ (forall y, state_of (tb_rt b') y = state_of (tb_rt b) y) /\
  match x with
  | None => forall y, y < lenN W -> state_of (tb_rt b) y <> None
  | Some (o, d) =>
      (forall y, y < o -> state_of (tb_rt b) y <> None) /\
      exists len, d = slice o len W /\ 0 < len /\ o + len <= lenN W /\ forall y, o <= y < o + len -> state_of (tb_rt b) y = None
  end.
Proof.
  intros H. pose proof (buf_buffered _ _ _ H) as HB. unfold tb_next. pose proof (buf_first _ _ _ H) as X.
  destruct (tb_first b) as [b' [[o ml]|]]; destruct X as (X1 & X2 & X3 & X4 & X5).
  2:{ exists b', None. splits; auto. }
  destruct X5 as (O & Low & R). destruct H as (_ & B & C & _).
  unfold csub. replace (tb_retired b <=? o) with true by lia.
  replace (tb_buffered b <? o - tb_retired b) with false by lia.
  set (sl := if _ <? _ then _ else _).
  assert (SL : exists k, sl = slice o k W /\ 0 < k /\ o + k <= lenN W).
  { subst sl. destruct (_ <? _) eqn:E.
    - exists (N.min sp (tb_buffered b) - (o - tb_retired b)). rewrite B, slice_skipn by lia. splits; [reflexivity|lia|lia].
    - exists (lenN W - o). rewrite B. splits; [|lia|lia]. rewrite <- slice_skipn with (r := tb_retired b) by lia.
      rewrite firstnN_all; [reflexivity|]. rewrite !lenN_skipnN. lia. }
  destruct SL as (k & -> & K1 & K2). rewrite lenN_slice by exact K2.
  set (len := match ml with None => k | Some r => N.min r k end).
  assert (LK : 0 < len <= k) by (subst len; destruct ml as [n|]; [destruct R as (? & _)|]; lia).
  replace (len =? 0) with false by lia. exists b', (Some (o, firstnN len (slice o k W))). splits; auto.
  exists len. rewrite firstnN_slice. replace (N.min len k) with len by lia. splits; [reflexivity|lia|lia|].
  intros y Hy. subst len. destruct ml as [n|]; [destruct R as (_ & _ & R)|]; apply R; lia.
Qed.

Lemma buf_sent h W b off len : buf_ok h W b -> off + len <= lenN W ->
  (forall x, covers off len x -> in_flight h (fun t => carries t x)) ->
  exists b', tb_sent off len b = Some b' /\ buf_ok h W b' /\ tb_retired b' = tb_retired b /\ tb_buf b' = tb_buf b /\
  forall x, covers off len x -> state_of (tb_rt b') x <> None.
Proof.
  intros (A & B & C & D & E & F & G) Hl Hs. unfold tb_sent.
  destruct (mark_sent_spec off len _ A) as (r & -> & Rw & Ra & Rs).
  eexists. splits; [reflexivity| |exact Ra|reflexivity|].
  2:{ intros x Hx. cbn [tb_rt]. rewrite Rs. unfold coversb, covers in *. replace ((off <=? x) && (x <? off + len)) with true by lia. unfold sent_over. destruct (state_of _ _) as [[|]|]; discriminate. }
  unfold buf_ok, tb_retired, tb_buffered in *. cbn [tb_rt tb_buf]. splits; auto.
  - rewrite Ra. exact B.
  - rewrite Ra. exact C.
  - intros x Hx. rewrite Rs. unfold coversb. replace ((off <=? x) && (x <? off + len)) with false by lia. auto.
  - intros x. rewrite <- F, Rs. destruct (coversb off len x); [|tauto]. unfold sent_over. destruct (state_of (tb_rt b) x) as [[|]|]; split; congruence.
  - intros x. rewrite Rs. destruct (coversb off len x) eqn:Ec.
    + intros _. apply Hs. unfold coversb in Ec. unfold covers. lia.
    + auto.
Qed.
Lemma buf_acked h e W b off len fin : buf_ok h W b -> off + len <= lenN W ->
  (forall P, acked1 e P <-> P (TkStream off len fin)) -> (forall P, ~ lost1 e P) ->
  exists b', tb_acked off len b = Some b' /\ buf_ok (h ++ [e]) W b' /\ tb_retired b <= tb_retired b'.
Proof.
  intros H Hl Ha HL. pose proof (buf_buffered _ _ _ H) as HB. destruct H as (A & B & C & D & E & F & G). unfold tb_acked.
  destruct (mark_acked_spec off len _ A) as (Rw & Rs).
  set (r := rt_mark_acked off len (tb_rt b)) in *.
  assert (Hi : forall x, lenN W <= x -> state_of r x = None).
  { intros x Hx. rewrite Rs. unfold coversb. replace ((off <=? x) && (x <? off + len)) with false by lia. auto. }
  assert (R1 : tb_retired b <= rt_acked r).
  { destruct (N.le_gt_cases (tb_retired b) (rt_acked r)) as [|Hg]; [assumption|]. exfalso. apply (not_acked_at r Rw).
    rewrite Rs. destruct (coversb _ _ _); [reflexivity|]. apply acked_below. exact Hg. }
  assert (R2 : rt_acked r <= lenN W).
  { destruct (N.le_gt_cases (rt_acked r) (lenN W)) as [|Hg]; [assumption|]. exfalso.
    pose proof (acked_below r _ Hg). rewrite Hi in H by lia. discriminate. }
  unfold csub. replace (tb_retired b <=? rt_acked r) with true by lia.
  replace (rt_acked r - tb_retired b <=? tb_buffered b) with true by lia.
  eexists. splits; [reflexivity| |exact R1].
  unfold buf_ok, tb_retired, tb_buffered in *. cbn [tb_rt tb_buf]. splits; auto.
  - rewrite B, skipnN_skipnN. f_equal. lia.
  - rewrite lenN_skipnN. lia.
  - intros x. rewrite was_acked_snoc, Ha, <- F, Rs. cbn [carries]. unfold coversb, covers.
    destruct ((off <=? x) && (x <? off + len)) eqn:Ec; split; intros; try tauto; try lia.
    destruct H; [assumption|lia].
  - intros x. rewrite Rs. destruct (coversb off len x) eqn:Ec; [discriminate|]. intros Hx. apply in_flight_keep; auto.
Qed.
Lemma buf_lost h e W b off len fin : buf_ok h W b -> off + len <= lenN W ->
  (forall P, lost1 e P <-> P (TkStream off len fin)) -> (forall P, ~ acked1 e P) ->
  exists b', tb_lost off len b = Some b' /\ buf_ok (h ++ [e]) W b' /\ tb_retired b' = tb_retired b /\ tb_buf b' = tb_buf b /\
  (forall x, covers off len x -> state_of (tb_rt b) x <> Some true -> state_of (tb_rt b') x = None).
Proof.
  intros (A & B & C & D & E & F & G) Hl Ha HL. unfold tb_lost.
  destruct (unmark_spec off len _ A) as (r & Er & Rw & Ra & Rc). rewrite Er.
  assert (SB : forall x, state_of r x = ideal1 (TLost off len) x (state_of (tb_rt b) x) \/ state_of r x = None /\ state_of (tb_rt b) x = Some false).
  { intros x. destruct (step_bytes (tb_rt b) (TLost off len) r None x A) as [S|(o & l & Eo & _ & LT & S)]; [cbn; rewrite Er; reflexivity|auto|].
    right. split; [exact S|]. destruct LT as (_ & L2 & L3). injection Eo as <- <-. apply L3. lia. }
  eexists. splits; [reflexivity| |exact Ra|reflexivity|].
  2:{ intros x Hx. cbn [tb_rt]. destruct (Rc x) as (Rc1 & _). rewrite Rc1 by exact Hx. destruct (state_of (tb_rt b) x) as [[|]|]; cbn; congruence. }
  unfold buf_ok, tb_retired, tb_buffered in *. cbn [tb_rt tb_buf]. splits; auto.
  - rewrite Ra. exact B.
  - rewrite Ra. exact C.
  - intros x Hx. destruct (SB x) as [->|[-> _]]; [|reflexivity]. cbn [ideal1]. rewrite E by exact Hx. destruct (coversb off len x); reflexivity.
  - intros x. rewrite was_acked_snoc, <- F. specialize (HL (fun t => carries t x)). destruct (SB x) as [->|[-> E1]].
    + cbn [ideal1]. destruct (coversb off len x), (state_of (tb_rt b) x) as [[|]|]; split; intros; intuition congruence.
    + split; intros; intuition congruence.
  - intros x Hx. destruct (SB x) as [Y|[Y _]]; [|congruence]. rewrite Y in Hx. cbn [ideal1] in Hx.
    destruct (coversb off len x) eqn:Ec; [destruct (state_of (tb_rt b) x) as [[|]|]; discriminate|].
    apply in_flight_keep; [auto|]. rewrite Ha. cbn. unfold coversb in Ec. unfold covers. lia.
Qed.

(** * The stream *)
Definition fc_ok (L : N) (W : list N) (fc : sfc) : Prop :=
  sf_limit fc = L /\ sf_used fc = lenN W /\ match sf_blocked_at fc with Some l => l <= L | None => True end.
Definition st_ok (L : N) (h : hist) (W : list N) (m : summary) (st : sst) : Prop :=
  match st with
  | StReady fc => m_phase m = PhOpen /\ m_complete m = false /\ W = [] /\ fc_ok L W fc
  | StSend fc b c => m_phase m = PhOpen /\ m_complete m = false /\ fc_ok L W fc /\ buf_ok h W b /\ c = m_committed m
  | StDataSent b fs fa c =>
      m_phase m = PhClosed /\ m_complete m = false /\ buf_ok h W b /\ c = m_committed m /\
      (fa = true <-> was_acked h is_fin) /\ (fs = true -> in_flight h is_fin \/ was_acked h is_fin) /\ (fa = true -> tb_buf b <> [])
  | StDataRecvd r w => m_phase m = PhClosed /\ m_complete m = true /\ r = lenN W /\ w = 0 /\ acked_upto h (lenN W) /\ was_acked h is_fin
  | StResetSent e f r p fr fw =>
      exists c, m_phase m = PhReset e c /\ m_complete m = false /\ f = lenN W /\ e < 2 ^ 62 /\ c <= lenN W /\
      (r = c /\ acked_upto h c \/ r = 0 /\ m_dropped m = true) /\ fr + fw = lenN W /\ acked_upto h fr /\
      ~ was_acked h is_reset /\ (p = None -> in_flight h is_reset)
  | StResetRel b e f r p a =>
      m_phase m = PhReset e r /\ m_complete m = false /\ f = lenN W /\ e < 2 ^ 62 /\ r <= lenN W /\ buf_ok h W b /\ tb_retired b < r /\
      (a = true <-> was_acked h is_reset) /\ (p = None -> in_flight h is_reset)
  | StResetRecvd fr fw =>
      exists e c, m_phase m = PhReset e c /\ m_complete m = false /\ was_acked h is_reset /\ fr + fw = lenN W /\ acked_upto h fr /\
      (acked_upto h c \/ m_dropped m = true)
  end.
Definition inv (init : N) (s : ss) (toks : list tok) (h : hist) : Prop :=
  toks = map snd (frames h) /\ m_len (summ h) = lenN (written h) /\ lenN (written h) <= slimit init h /\ slimit init h < 2 ^ 62 /\
  ss_id s < 2 ^ 62 /\ 0 < ss_low s /\ sf_used (ss_conn s) <= sf_limit (ss_conn s) /\ m_committed (summ h) <= lenN (written h) /\
  Forall (frame_good (ss_id s) (slimit init h) (written h) (summ h)) (frames h) /\
  (forall P, was_acked h P -> exists t, In t toks /\ P t) /\
  ss_bytes s = highest toks /\ (forall x, was_lost h (fun t => carries t x) -> x < ss_retx s) /\
  st_ok (slimit init h) h (written h) (summ h) (ss_st s).

Lemma acked_upto_quiet h e n : quiet e -> acked_upto h n -> acked_upto (h ++ [e]) n.
Proof. intros Q H b Hb. rewrite (quiet_acked h e _ Q). apply H. exact Hb. Qed.
Lemma acked_upto_snoc h e n : acked_upto h n -> acked_upto (h ++ [e]) n.
Proof. intros H b Hb. rewrite was_acked_snoc. left. apply H. exact Hb. Qed.
Lemma acked_upto_le h n k : acked_upto h n -> k <= n -> acked_upto h k.
Proof. intros H Hk b Hb. apply H. lia. Qed.

Lemma st_quiet L h e W m st : quiet e -> st_ok L h W m st -> st_ok L (h ++ [e]) W m st.
Proof.
  intros Q. assert (A := fun P => quiet_acked h e P Q). assert (F := fun P => quiet_flight h e P Q).
  assert (B := fun b => buf_quiet h e W b Q). assert (U := fun n => acked_upto_quiet h e n Q).
  destruct st; cbn [st_ok]; intros H.
  - exact H.
  - destruct H as (H1 & H2 & H3 & H4 & H5). splits; auto.
  - destruct H as (H1 & H2 & H3 & H4 & H5 & H6 & H7). rewrite A. splits; auto. intros X. destruct (H6 X); auto.
  - destruct H as (H1 & H2 & H3 & H4 & H5 & H6). rewrite A. splits; auto.
  - destruct H as (c & H1 & H2 & H3 & H4 & H5 & H6 & H7 & H8 & H9 & H10). exists c. rewrite A. splits; auto.
    destruct H6 as [[? ?]|?]; auto.
  - destruct H as (H1 & H2 & H3 & H4 & H5 & H6 & H7 & H8 & H9). rewrite A. splits; auto; tauto.
  - destruct H as (e0 & c & H1 & H2 & H3 & H4 & H5 & H6). exists e0, c. rewrite A. splits; auto. destruct H6; auto.
Qed.

(** ** Steps that only change the state and the summary *)
Lemma lost_quiet h e x : quiet e -> was_lost (h ++ [e]) (fun t => carries t x) -> was_lost h (fun t => carries t x).
Proof. intros (_ & Q) (y & H & L). apply in_app_or in H as [H|[<-|[]]]; [exists y; auto|]. destruct (Q _ L). Qed.
Lemma acked_issued_quiet h e (toks : list tok) : quiet e -> (forall P, was_acked h P -> exists t, In t toks /\ P t) ->
  forall P, was_acked (h ++ [e]) P -> exists t, In t toks /\ P t.
Proof. intros Q H P. rewrite (quiet_acked h e P Q). apply H. Qed.

(** A frame stays good while the limit grows, and data is added while the stream is open. *)
Lemma good_keep id L L' W W' m m' f : frame_good id L W m f -> L <= L' -> (exists d, W' = W ++ d) ->
  (m_phase m <> PhOpen -> W' = W /\ m_phase m' <> PhOpen) -> (forall e c, m_phase m = PhReset e c -> m_phase m' = m_phase m) ->
  (m_dropped m = true -> m_dropped m' = true) -> frame_good id L' W' m' f.
Proof.
  destruct f as [l [off len fin| |lim]]; unfold frame_good; cbn [fst snd]; intros G HL [d Hd] Hc Hr Hp.
  - destruct G as (A & B & C & fill & D). splits; [subst W'; rewrite lenN_app; lia|exact B| |].
    + intros Hf. destruct (C Hf) as [C1 C2]. destruct (Hc C2) as [-> ?]. auto.
    + exists fill. subst W'. rewrite slice_app by exact A. exact D.
  - destruct G as (e & c & r & A & B & D). exists e, c, r. splits; [rewrite (Hr _ _ A); exact A|destruct B as [B|[B1 B2]]; auto|].
    destruct Hc as [-> _]; [congruence|exact D].
  - destruct G as [A B]. split; [lia|exact B].
Qed.

(** One step without frames, acknowledgements or losses, in general form. *)
Lemma step_quiet init s toks h e s' : inv init s toks h -> quiet e -> frames1 e = [] ->
  slimit1 (slimit init h) e < 2 ^ 62 -> slimit init h <= slimit1 (slimit init h) e -> lenN (written h ++ written1 e) <= slimit1 (slimit init h) e ->
  ss_id s' = ss_id s -> 0 < ss_low s' -> sf_used (ss_conn s') <= sf_limit (ss_conn s') -> ss_bytes s' = ss_bytes s -> ss_retx s' = ss_retx s ->
  m_len (sum1 (summ h) e) = lenN (written h ++ written1 e) -> m_committed (sum1 (summ h) e) <= lenN (written h ++ written1 e) ->
  (m_phase (summ h) <> PhOpen -> written1 e = [] /\ m_phase (sum1 (summ h) e) <> PhOpen) ->
  (forall x c, m_phase (summ h) = PhReset x c -> m_phase (sum1 (summ h) e) = m_phase (summ h)) ->
  (m_dropped (summ h) = true -> m_dropped (sum1 (summ h) e) = true) ->
  st_ok (slimit1 (slimit init h) e) (h ++ [e]) (written h ++ written1 e) (sum1 (summ h) e) (ss_st s') ->
  inv init s' toks (h ++ [e]).
Proof.
  intros (I1 & I2 & I3 & I4 & I5 & I6 & I7 & I8 & I9 & I10 & I11 & I12 & I13) Q Fr L1 L2 L3 E1 E2 E3 E4 E5 S1 S2 P1 P2 P3 S.
  unfold inv. rewrite frames_snoc, Fr, app_nil_r, written_snoc, summ_snoc, slimit_snoc, E1, E4, E5. splits; auto.
  - eapply Forall_impl; [|exact I9]. intros f G. eapply good_keep; eauto.
    intros HP. destruct (P1 HP) as [-> ?]. rewrite app_nil_r. auto.
  - apply acked_issued_quiet; auto.
  - intros x Hx. apply I12. eapply lost_quiet; eauto.
Qed.

Ltac qt := split; intros P HP; exact HP.
(** The same if the summary, the data and the limit stay as they are. *)
Lemma step_still init s toks h o r evs s' : inv init s toks h -> quiet (o, r, evs) -> frames1 (o, r, evs) = [] ->
  slimit1 (slimit init h) (o, r, evs) = slimit init h -> written1 (o, r, evs) = [] -> 
  sum1 (summ h) (o, r, evs) = summ h ->
  ss_id s' = ss_id s -> 0 < ss_low s' -> sf_used (ss_conn s') <= sf_limit (ss_conn s') -> ss_bytes s' = ss_bytes s -> ss_retx s' = ss_retx s ->
  (st_ok (slimit init h) (h ++ [(o, r, evs)]) (written h) (summ h) (ss_st s) -> st_ok (slimit init h) (h ++ [(o, r, evs)]) (written h) (summ h) (ss_st s')) ->
  inv init s' toks (h ++ [(o, r, evs)]).
Proof.
  intros I Q Fr L W S E1 E2 E3 E4 E5 St. assert (I' := I). destruct I as (I1 & I2 & I3 & I4 & I5 & I6 & I7 & I8 & I9 & I10 & I11 & I12 & I13).
  eapply step_quiet; eauto; rewrite ?L, ?W, ?S, ?app_nil_r; auto; try lia. apply St. apply st_quiet; auto.
Qed.
Lemma sum_same m o r evs : (match o with OClose | OReset _ | OCommit | ODrop => False | _ => True end) -> written1 (o, r, evs) = [] ->
  ~ In EvComplete evs -> sum1 m (o, r, evs) = m.
Proof.
  intros Ho W Ev. unfold sum1. rewrite W. cbn [lenN length N.of_nat]. rewrite N.add_0_r.
  assert (E : existsb (fun x => match x with EvComplete => true | _ => false end) evs = false).
  { destruct (existsb _ evs) eqn:E; [|reflexivity]. exfalso. apply existsb_exists in E as (x & Hx & Hy). destruct x; [discriminate|]. auto. }
  rewrite E, orb_false_r. destruct m, o; cbn in *; tauto || reflexivity.
Qed.
Lemma writable_no_complete p c s : ~ In EvComplete (ss_maybe_writable p c s).
Proof. unfold ss_maybe_writable. destruct (_ || _); cbn; intuition discriminate. Qed.

(** ** Operations of the application and limits *)
Ltac qu := split; intros ? [].
Lemma token_of init s toks h (P : tok -> Prop) : inv init s toks h -> was_acked h P ->
  exists f, In f (frames h) /\ P (snd f) /\ frame_good (ss_id s) (slimit init h) (written h) (summ h) f.
Proof.
  intros (I1 & _ & _ & _ & _ & _ & _ & _ & I9 & I10 & _) A. destruct (I10 P A) as (t & Ht & HP). subst toks.
  apply in_map_iff in Ht as (f & <- & Hf). exists f. splits; auto. rewrite Forall_forall in I9. auto.
Qed.
Lemma no_byte_acked init s toks h x : inv init s toks h -> written h = [] -> ~ was_acked h (fun t => carries t x).
Proof.
  intros I W A. destruct (token_of _ _ _ _ _ I A) as ([l t] & _ & C & G). cbn [snd] in *. destruct t as [off len fin| |]; cbn in C; try tauto.
  unfold frame_good in G. cbn [snd] in G. rewrite W in G. destruct G as (G & _). change (lenN []) with 0 in G. unfold covers in C. lia.
Qed.
Lemma no_fin_acked init s toks h : inv init s toks h -> m_phase (summ h) = PhOpen -> ~ was_acked h is_fin.
Proof.
  intros I W A. destruct (token_of _ _ _ _ _ I A) as ([l t] & _ & C & G). cbn [snd] in *. destruct t as [off len fin| |]; cbn in C; try tauto.
  unfold frame_good in G. cbn [snd] in G. destruct G as (_ & _ & G & _). destruct (G C) as [_ X]. auto.
Qed.
Lemma no_reset_acked init s toks h : inv init s toks h -> (forall e c, m_phase (summ h) <> PhReset e c) -> ~ was_acked h is_reset.
Proof.
  intros I W A. destruct (token_of _ _ _ _ _ I A) as ([l t] & _ & C & G). cbn [snd] in *. unfold is_reset in C. subst t.
  destruct G as (e & c & r & G & _). cbn in G. exact (W _ _ G).
Qed.
Lemma ready_to_send init s toks h fc : inv init s toks h -> ss_st s = StReady fc -> inv init (with_st (StSend fc tb_new 0) s) toks h.
Proof.
  intros I E. assert (N := fun x W => no_byte_acked init s toks h x I W).
  destruct I as (I1 & I2 & I3 & I4 & I5 & I6 & I7 & I8 & I9 & I10 & I11 & I12 & I13).
  unfold inv. cbn [with_st ss_id ss_low ss_conn ss_bytes ss_retx ss_st]. splits; auto.
  rewrite E in I13. cbn [st_ok] in *. destruct I13 as (A & B & C & D). rewrite C in *. splits; auto.
  - apply buf_new. intros x. apply N. reflexivity.
  - change (lenN []) with 0 in I8. lia.
Qed.
Lemma fc_blocked_ok L W fc : fc_ok L W fc -> fc_ok L W (sfc_blocked fc).
Proof.
  intros (A & B & C). unfold sfc_blocked, fc_ok. destruct (sf_blocked_at fc) as [l|] eqn:E.
  - destruct (_ <=? _); [rewrite E; auto|]. cbn. splits; auto. lia.
  - cbn. splits; auto. lia.
Qed.
Lemma fc_blocked_if_ok L W fc n : fc_ok L W fc -> fc_ok L W (if sfc_available fc <=? n then sfc_blocked fc else fc).
Proof. intros H. destruct (_ <=? _); [apply fc_blocked_ok|]; exact H. Qed.
Lemma blocked_room c : sf_used (sfc_blocked c) = sf_used c /\ sf_limit (sfc_blocked c) = sf_limit c.
Proof. unfold sfc_blocked. destruct (sf_blocked_at c) as [l|]; [destruct (_ <=? _)|]; auto. Qed.

Lemma ss_st_with st s : ss_st (with_st st s) = st. Proof. reflexivity. Qed.
Lemma with_with st st' s : with_st st (with_st st' s) = with_st st s. Proof. reflexivity. Qed.

Lemma send_core init s toks h fc b c d atomic : inv init s toks h -> ss_st s = StSend fc b c -> d <> [] ->
  exists s' n, ss_send d atomic s = Some (s', RSent n) /\ inv init s' toks (h ++ [(OSend d atomic, RSent n, [])]) /\
    n = (if (ss_avail s <? lenN d) && atomic then 0 else N.min (ss_avail s) (lenN d)).
Proof.
  intros I E Hd. assert (I' := I). destruct I as (I1 & I2 & I3 & I4 & I5 & I6 & I7 & I8 & I9 & I10 & I11 & I12 & I13).
  assert (St := I13). rewrite E in St. cbn [st_ok] in St. destruct St as (S1 & S2 & (F1 & F2 & F3) & S4 & S5).
  assert (HD : 0 < lenN d) by (destruct d; [congruence|unfold lenN; cbn [length]; lia]).
  assert (Hav : ss_avail s = N.min (N.min (sfc_available fc) (sfc_available (ss_conn s))) (tb_avail b)) by (unfold ss_avail; rewrite E; reflexivity).
  unfold ss_send. destruct d as [|d0 dr] eqn:Ed; [congruence|]. rewrite <- Ed in *. clear Ed d0 dr.
  rewrite E, E. cbv zeta.
  assert (Zero : forall s', ss_id s' = ss_id s -> ss_low s' = ss_low s -> sf_used (ss_conn s') <= sf_limit (ss_conn s') -> ss_bytes s' = ss_bytes s -> ss_retx s' = ss_retx s ->
     (st_ok (slimit init h) (h ++ [(OSend d atomic, RSent 0, [])]) (written h) (summ h) (ss_st s) -> st_ok (slimit init h) (h ++ [(OSend d atomic, RSent 0, [])]) (written h) (summ h) (ss_st s')) ->
     inv init s' toks (h ++ [(OSend d atomic, RSent 0, [])])).
  { intros s' Z1 Z2 Z3 Z4 Z5 Z6. eapply step_still; eauto; try reflexivity; [qu|apply sum_same; auto|lia]. }
  destruct (ss_avail s =? 0) eqn:A0.
  { exists s, 0. splits; [reflexivity|apply Zero; auto|]. destruct (_ && _); lia. }
  destruct ((ss_avail s <? lenN d) && atomic) eqn:A1.
  { eexists _, 0. splits; [reflexivity| |reflexivity]. unfold ss_blocked_if. rewrite E.
    apply Zero; cbn [with_conn with_st ss_id ss_low ss_conn ss_bytes ss_retx ss_st]; auto.
    - destruct (_ <=? _); [destruct (blocked_room (ss_conn s)) as [-> ->]|]; auto.
    - rewrite E. cbn [st_ok]. intros (X1 & X2 & X3 & X4 & X5). splits; auto. apply fc_blocked_if_ok; auto. }
  set (dd := if ss_avail s <? lenN d then firstnN (ss_avail s) d else d).
  pose proof (buf_send _ _ _ dd S4) as BS. destruct (tb_send dd b) as [b' n]. destruct BS as (Hn & B1 & B2).
  assert (Hdd : lenN dd = N.min (ss_avail s) (lenN d)).
  { subst dd. destruct (_ <? _) eqn:A2; [rewrite lenN_firstnN; reflexivity|lia]. }
  assert (Hnn : n = N.min (ss_avail s) (lenN d)) by (unfold tb_avail in Hav; lia).
  assert (Hfn : firstnN n dd = firstnN n d).
  { subst dd. destruct (_ <? _) eqn:A2; [|reflexivity]. rewrite firstnN_firstnN. f_equal. lia. }
  unfold sfc_available in Hav. unfold sfc_consume.
  replace (sf_used fc + n <=? sf_limit fc) with true by lia.
  replace (sf_used (ss_conn s) + n <=? sf_limit (ss_conn s)) with true by lia.
  eexists _, n. splits; [reflexivity| |exact Hnn].
  assert (Hw : written1 (OSend d atomic, RSent n, []) = firstnN n d) by reflexivity.
  assert (Hl : lenN (written h ++ firstnN n d) = lenN (written h) + n) by (rewrite lenN_app, lenN_firstnN; lia).
  assert (Hs : sum1 (summ h) (OSend d atomic, RSent n, []) = mkSum (m_phase (summ h)) (m_len (summ h) + lenN (firstnN n d)) (m_committed (summ h)) (m_complete (summ h)) (m_dropped (summ h))).
  { unfold sum1. rewrite Hw. cbn [existsb]. rewrite orb_false_r. reflexivity. }
  eapply step_quiet; eauto; rewrite ?Hw, ?Hs; cbn [with_conn with_st ss_id ss_low ss_conn ss_bytes ss_retx ss_st slimit1 frames1 m_phase m_len m_committed m_dropped m_complete sf_used sf_limit]; auto; try lia.
  - qu.
  - rewrite lenN_app. lia.
  - congruence.
  - cbn [st_ok]. splits; auto.
    + unfold fc_ok. cbn [sf_limit sf_used sf_blocked_at]. splits; auto. lia.
    + apply buf_quiet; [qu|]. rewrite <- Hfn. exact B1.
Qed.
Lemma avail_ready s fc : ss_st s = StReady fc -> ss_avail (with_st (StSend fc tb_new 0) s) = ss_avail s.
Proof. intros E. unfold ss_avail. rewrite E. cbn. unfold tb_avail, tb_new, tb_buffered. cbn. reflexivity. Qed.
Lemma send_ready d a s fc : ss_st s = StReady fc -> d <> [] -> ss_send d a s = ss_send d a (with_st (StSend fc tb_new 0) s).
Proof. intros E Hd. unfold ss_send. destruct d; [congruence|]. rewrite E. cbn [with_st ss_st]. reflexivity. Qed.

(** What sending does: refused if the stream is no longer open or there is no data. *)
Lemma send_spec init s toks h d atomic : inv init s toks h ->
  exists s' r, ss_send d atomic s = Some (s', r) /\ inv init s' toks (h ++ [(OSend d atomic, r, [])]) /\
    r = (match d, m_phase (summ h) with
         | [], _ => RErr
         | _, PhOpen => RSent (if (ss_avail s <? lenN d) && atomic then 0 else N.min (ss_avail s) (lenN d))
         | _, _ => RErr
         end).
Proof.
  intros I. assert (Err : inv init s toks (h ++ [(OSend d atomic, RErr, [])])).
  { assert (I' := I). destruct I' as (I1 & I2 & I3 & I4 & I5 & I6 & I7 & _). eapply step_still; eauto; try reflexivity; [qu|apply sum_same; auto]. }
  destruct d as [|d0 dr] eqn:Ed; [exists s, RErr; splits; auto|]. rewrite <- Ed in *. assert (Hd : d <> []) by congruence.
  assert (St : st_ok (slimit init h) h (written h) (summ h) (ss_st s)) by (apply I).
  destruct (ss_st s) eqn:Es; cbn [st_ok] in St.
  - destruct St as (S1 & _). pose proof (ready_to_send _ _ _ _ _ I Es) as I2.
    rewrite (send_ready _ _ _ _ Es Hd). destruct (send_core _ _ _ _ _ _ _ d atomic I2 eq_refl Hd) as (s' & n & A & B & C).
    exists s', (RSent n). splits; auto. rewrite S1, C, (avail_ready _ _ Es). reflexivity.
  - destruct St as (S1 & _). destruct (send_core _ _ _ _ _ _ _ d atomic I Es Hd) as (s' & n & A & B & C).
    exists s', (RSent n). splits; auto. rewrite S1, C. reflexivity.
  - destruct St as (S1 & _). exists s, RErr. rewrite S1. splits; auto. unfold ss_send. destruct d; [congruence|]. rewrite Es, Es. reflexivity.
  - destruct St as (S1 & _). exists s, RErr. rewrite S1. splits; auto. unfold ss_send. destruct d; [congruence|]. rewrite Es, Es. reflexivity.
  - destruct St as (c & S1 & _). exists s, RErr. rewrite S1. splits; auto. unfold ss_send. destruct d; [congruence|]. rewrite Es, Es. reflexivity.
  - destruct St as (S1 & _). exists s, RErr. rewrite S1. splits; auto. unfold ss_send. destruct d; [congruence|]. rewrite Es, Es. reflexivity.
  - destruct St as (e & c & S1 & _). exists s, RErr. rewrite S1. splits; auto. unfold ss_send. destruct d; [congruence|]. rewrite Es, Es. reflexivity.
Qed.

Lemma close_spec init s toks h : inv init s toks h -> inv init (ss_close s) toks (h ++ [(OClose, RNone, [])]).
Proof.
  intros I0. assert (exists s1, inv init s1 toks h /\ ss_close s = ss_close s1 /\ forall fc, ss_st s1 <> StReady fc) as (s1 & I & -> & NR).
  { destruct (ss_st s) eqn:Es; try (exists s; splits; auto; intros; congruence).
    exists (with_st (StSend fc tb_new 0) s). splits; [apply ready_to_send; auto| |discriminate]. unfold ss_close. rewrite Es. reflexivity. }
  clear I0 s. assert (NF := no_fin_acked _ _ _ _ I).
  assert (I' := I). destruct I as (I1 & I2 & I3 & I4 & I5 & I6 & I7 & I8 & I9 & I10 & I11 & I12 & I13).
  assert (Q : quiet (OClose, RNone, [])) by qu.
  assert (St := st_quiet _ _ _ _ _ _ Q I13).
  eapply step_quiet; eauto; unfold sum1; cbn [written1 slimit1 lenN length N.of_nat existsb m_phase m_len m_committed m_complete m_dropped]; rewrite ?app_nil_r, ?N.add_0_r, ?orb_false_r; auto; try lia.
  - unfold ss_close. destruct (ss_st s1); reflexivity.
  - unfold ss_close. destruct (ss_st s1); cbn; lia.
  - unfold ss_close. destruct (ss_st s1); cbn; lia.
  - unfold ss_close. destruct (ss_st s1); reflexivity.
  - unfold ss_close. destruct (ss_st s1); reflexivity.
  - intros. destruct (m_phase (summ h)); [congruence|split; [reflexivity|discriminate]|split; [reflexivity|discriminate]].
  - intros e c ->. reflexivity.
  - unfold ss_close. destruct (ss_st s1) eqn:Es; cbn [st_ok with_st ss_st] in *; rewrite ?Es; cbn [st_ok m_phase m_complete m_committed m_dropped].
    + destruct (NR fc eq_refl).
    + destruct St as (A & B & C & D & E). rewrite A. splits; auto; try discriminate.
      rewrite (quiet_acked _ _ _ Q). split; [discriminate|]. intros X. destruct (NF A X).
    + destruct St as (A & B). rewrite A in *. auto.
    + destruct St as (A & B). rewrite A in *. auto.
    + destruct St as (c & A & B). rewrite A in *. exists c. auto.
    + destruct St as (A & B). rewrite A in *. auto.
    + destruct St as (e & c & A & B). rewrite A in *. exists e, c. auto.
Qed.

Ltac sumred := unfold sum1; cbn [written1 slimit1 lenN length N.of_nat existsb m_phase m_len m_committed m_complete m_dropped]; rewrite ?app_nil_r, ?N.add_0_r, ?orb_false_r.
Ltac fields := cbn [with_conn with_st ss_id ss_low ss_conn ss_bytes ss_retx ss_st ss_set_priority ss_set_low].

Lemma commit_spec init s toks h : inv init s toks h -> let '(s', r) := ss_commit s in
  inv init s' toks (h ++ [(OCommit, r, [])]) /\ (r = ROk <-> forall e c, m_phase (summ h) <> PhReset e c).
Proof.
  intros I. assert (I' := I). destruct I as (I1 & I2 & I3 & I4 & I5 & I6 & I7 & I8 & I9 & I10 & I11 & I12 & I13).
  assert (G : forall r s', (r = ROk \/ r = RErr) -> ss_id s' = ss_id s -> ss_low s' = ss_low s -> ss_conn s' = ss_conn s -> ss_bytes s' = ss_bytes s -> ss_retx s' = ss_retx s ->
    (st_ok (slimit init h) (h ++ [(OCommit, r, [])]) (written h) (summ h) (ss_st s) -> st_ok (slimit init h) (h ++ [(OCommit, r, [])]) (written h) (sum1 (summ h) (OCommit, r, [])) (ss_st s')) ->
    inv init s' toks (h ++ [(OCommit, r, [])])).
  { intros r s' Z0 Z1 Z2 Z3 Z4 Z5 Z6. assert (Q : quiet (OCommit, r, [])) by qu.
    eapply step_quiet; eauto; rewrite ?Z2, ?Z3; sumred; auto; try lia.
    - destruct Z0 as [-> | ->]; reflexivity.
    - destruct (m_phase (summ h)); lia.
    - assert (X := Z6 (st_quiet _ _ _ _ _ _ Q I13)). revert X. sumred. auto. }
  unfold ss_commit. destruct (ss_st s) eqn:Es; cbn [st_ok] in I13.
  - destruct I13 as (A & B & C). rewrite A. split; [|split; [discriminate|reflexivity]]. apply G; auto. rewrite Es. sumred. cbn [st_ok m_phase m_complete]. tauto.
  - destruct I13 as (A & B & C & D & E). rewrite A. split; [|split; [discriminate|reflexivity]]. apply G; auto. sumred. cbn [st_ok m_phase m_complete m_committed with_st ss_st].
    rewrite A, (buf_used _ _ _ D). intros (X1 & X2 & X3 & X4 & X5). splits; auto.
  - destruct I13 as (A & B & D & E). rewrite A. split; [|split; [discriminate|reflexivity]]. apply G; auto. sumred. cbn [st_ok m_phase m_complete m_committed with_st ss_st].
    rewrite A, (buf_used _ _ _ D). intros (X1 & X2 & X3 & X4 & X5). splits; auto; apply X5.
  - destruct I13 as (A & B & C). rewrite A. split; [|split; [discriminate|reflexivity]]. apply G; auto. rewrite Es. sumred. cbn [st_ok m_phase m_complete]. tauto.
  - destruct I13 as (c & A & B). rewrite A. split; [|split; [discriminate|intros X; destruct (X _ _ eq_refl)]]. apply G; auto. rewrite Es. sumred. cbn [st_ok m_phase m_complete m_dropped]. auto.
  - destruct I13 as (A & B). rewrite A. split; [|split; [discriminate|intros X; destruct (X _ _ eq_refl)]]. apply G; auto. rewrite Es. sumred. cbn [st_ok m_phase m_complete m_dropped]. auto.
  - destruct I13 as (e & c & A & B). rewrite A. split; [|split; [discriminate|intros X; destruct (X _ _ eq_refl)]]. apply G; auto. rewrite Es. sumred. cbn [st_ok m_phase m_complete m_dropped]. auto.
Qed.

Lemma make_reset_ok L h W m err p b (c : N) : buf_ok h W b -> err < 2 ^ 62 -> c <= lenN W -> m_phase m = PhReset err c -> m_complete m = false ->
  ~ was_acked h is_reset -> st_ok L h W m (make_reset err p b (lenN W) c).
Proof.
  intros B He Hc P C NA. unfold make_reset. replace (N.min c (lenN W)) with c by lia.
  pose proof (buf_buffered _ _ _ B) as HB. pose proof (buf_acked_upto _ _ _ B) as HU. assert (R := proj1 (proj2 (proj2 B))).
  destruct ((c =? 0) || (c <=? tb_retired b)) eqn:E; cbn [st_ok].
  - exists c. splits; auto; [|lia|discriminate]. left. split; [reflexivity|]. eapply acked_upto_le; [exact HU|lia].
  - splits; auto; [lia| |discriminate]. split; [discriminate|]. intros X. destruct (NA X).
Qed.
Lemma reset_spec init s toks h err : inv init s toks h -> err < 2 ^ 62 -> inv init (ss_reset err s) toks (h ++ [(OReset err, RNone, [])]).
Proof.
  intros I He. assert (I' := I). assert (NR := no_reset_acked _ _ _ _ I). destruct I as (I1 & I2 & I3 & I4 & I5 & I6 & I7 & I8 & I9 & I10 & I11 & I12 & I13).
  assert (Q : quiet (OReset err, RNone, [])) by qu.
  assert (St := st_quiet _ _ _ _ _ _ Q I13).
  eapply step_quiet; eauto; sumred; auto; try lia.
  - unfold ss_reset. destruct (ss_st s); reflexivity.
  - unfold ss_reset. destruct (ss_st s); cbn; lia.
  - unfold ss_reset. destruct (ss_st s); cbn; lia.
  - unfold ss_reset. destruct (ss_st s); reflexivity.
  - unfold ss_reset. destruct (ss_st s); reflexivity.
  - intros. split; [reflexivity|]. destruct (m_complete (summ h)); [assumption|]. destruct (m_phase (summ h)); congruence.
  - intros e c ->. destruct (m_complete (summ h)); reflexivity.
  - unfold ss_reset. destruct (ss_st s) eqn:Es; cbn [st_ok with_st ss_st] in *; rewrite ?Es; cbn [st_ok m_phase m_complete m_committed m_dropped].
    + destruct St as (A & B & C & (D1 & D2 & D3)). rewrite A, B. rewrite C in *. change (lenN []) with 0 in *. exists 0.
      assert (U : acked_upto (h ++ [(OReset err, RNone, [])]) 0) by (intros x Hx; lia).
      splits; auto; try lia; [f_equal; lia| |discriminate].
      rewrite (quiet_acked _ _ _ Q). apply NR. rewrite A. discriminate.
    + destruct St as (A & B & (C1 & C2 & C3) & D & E). rewrite A, B. rewrite C2. subst committed.
      apply make_reset_ok; auto. rewrite (quiet_acked _ _ _ Q). apply NR. rewrite A. discriminate.
    + destruct St as (A & B & D & E & _). rewrite A, B. subst committed. rewrite (buf_used _ _ _ D).
      apply make_reset_ok; auto. rewrite (quiet_acked _ _ _ Q). apply NR. rewrite A. discriminate.
    + destruct St as (A & B & C). rewrite A, B in *. auto.
    + destruct St as (c & A & B & C). rewrite A, B in *. exists c. auto.
    + destruct St as (A & B & C). rewrite A, B in *. auto.
    + destruct St as (e & c & A & B & C). rewrite A, B in *. exists e, c. auto.
Qed.
Lemma drop_spec init s toks h : inv init s toks h -> inv init (ss_drop s) toks (h ++ [(ODrop, RNone, [])]).
Proof.
  intros I. assert (I' := I). destruct I as (I1 & I2 & I3 & I4 & I5 & I6 & I7 & I8 & I9 & I10 & I11 & I12 & I13).
  assert (Q : quiet (ODrop, RNone, [])) by qu.
  assert (St := st_quiet _ _ _ _ _ _ Q I13).
  eapply step_quiet; eauto; sumred; auto; try lia.
  - unfold ss_drop. destruct (ss_st s); try destruct racked; reflexivity.
  - unfold ss_drop. destruct (ss_st s); try destruct racked; cbn; lia.
  - unfold ss_drop. destruct (ss_st s); try destruct racked; cbn; lia.
  - unfold ss_drop. destruct (ss_st s); try destruct racked; reflexivity.
  - unfold ss_drop. destruct (ss_st s); try destruct racked; reflexivity.
  - intros ->. destruct (m_phase (summ h)); reflexivity.
  - unfold ss_drop. destruct (ss_st s) eqn:Es; cbn [st_ok with_st ss_st] in *; rewrite ?Es; cbn [st_ok m_phase m_complete m_committed m_dropped].
    + tauto.
    + tauto.
    + destruct St as (A & B & C & D & E). splits; auto; apply E.
    + tauto.
    + destruct St as (c & A & B & C & D & E & F & G). rewrite A. exists c. splits; auto; [|apply G|apply G|apply G|apply G]. destruct F as [[F1 F2]|[F1 F2]]; [left; auto|right; auto].
    + destruct St as (A & B & C & D & E & F & G & H & J). rewrite A.
      pose proof (buf_buffered _ _ _ F) as HB. pose proof (buf_acked_upto _ _ _ F) as HU. assert (R := proj1 (proj2 (proj2 F))).
      destruct racked; cbn [with_st ss_st st_ok m_phase m_complete m_dropped]; rewrite ?A.
      * exists err, reliable. splits; auto; [apply H; reflexivity|lia].
      * exists reliable. splits; auto; [lia|]. intros X. apply H in X. discriminate.
    + destruct St as (e & c & A & B & C & D & E & F). rewrite A. exists e, c. splits; auto.
Qed.
Lemma fc_update_ok L W fc l : fc_ok L W fc -> fc_ok (N.max L l) W (fst (sfc_update l fc)).
Proof.
  intros (A & B & C). unfold sfc_update. destruct (sf_limit fc <? l) eqn:E; cbn [fst]; unfold fc_ok; cbn; splits; auto; try lia; destruct (sf_blocked_at fc); lia.
Qed.
Lemma maxstream_spec init s toks h l : inv init s toks h -> l < 2 ^ 62 -> let '(s', e) := ss_max_stream_data l s in
  inv init s' toks (h ++ [(OMaxStream l, RNone, e)]).
Proof.
  intros I Hl. assert (I' := I). destruct I as (I1 & I2 & I3 & I4 & I5 & I6 & I7 & I8 & I9 & I10 & I11 & I12 & I13).
  assert (G : forall e s', ~ In EvComplete e -> ss_id s' = ss_id s -> ss_low s' = ss_low s -> ss_conn s' = ss_conn s -> ss_bytes s' = ss_bytes s -> ss_retx s' = ss_retx s ->
    (st_ok (slimit init h) (h ++ [(OMaxStream l, RNone, e)]) (written h) (summ h) (ss_st s) -> st_ok (N.max (slimit init h) l) (h ++ [(OMaxStream l, RNone, e)]) (written h) (summ h) (ss_st s')) ->
    inv init s' toks (h ++ [(OMaxStream l, RNone, e)])).
  { intros e s' Z0 Z1 Z2 Z3 Z4 Z5 Z6. assert (Q : quiet (OMaxStream l, RNone, e)) by qu.
    assert (ES := sum_same (summ h) (OMaxStream l) RNone e Logic.I eq_refl Z0).
    eapply step_quiet; eauto; rewrite ?Z2, ?Z3, ?ES; cbn [written1 slimit1]; rewrite ?app_nil_r; auto; try lia.
    exact (Z6 (st_quiet _ _ _ _ _ _ Q I13)). }
  assert (L : forall fc, fc_ok (slimit init h) (written h) fc -> sfc_update l fc = (fc, None) -> N.max (slimit init h) l = slimit init h).
  { intros fc (A & _) E. unfold sfc_update in E. destruct (_ <? _) eqn:X; [discriminate|]. lia. }
  unfold ss_max_stream_data. destruct (ss_st s) eqn:Es; cbn [st_ok] in I13.
  - destruct I13 as (A & B & C & D). pose proof (fc_update_ok _ _ _ l D) as U. destruct (sfc_update l fc) as [fc' [cur|]] eqn:Eu.
    + apply G; fields; auto using writable_no_complete. cbn [st_ok]. intros _. splits; auto.
    + assert (fc' = fc) by (unfold sfc_update in Eu; destruct (_ <? _) in Eu; congruence). subst fc'. apply G; auto. rewrite (L _ D Eu), Es. auto.
  - destruct I13 as (A & B & D & C). pose proof (fc_update_ok _ _ _ l D) as U. destruct (sfc_update l fc) as [fc' [cur|]] eqn:Eu.
    + apply G; fields; auto using writable_no_complete. cbn [st_ok]. intros (X1 & X2 & X3 & X4 & X5). splits; auto.
    + assert (fc' = fc) by (unfold sfc_update in Eu; destruct (_ <? _) in Eu; congruence). subst fc'. apply G; auto. rewrite (L _ D Eu), Es. auto.
  - apply G; auto. rewrite Es. auto.
  - apply G; auto. rewrite Es. auto.
  - apply G; auto. rewrite Es. auto.
  - apply G; auto. rewrite Es. auto.
  - apply G; auto. rewrite Es. auto.
Qed.
Lemma conn_spec init s toks h o : inv init s toks h -> let '(s', e) := ss_conn_op o s in inv init s' toks (h ++ [(OConn o, RNone, e)]).
Proof.
  intros I. assert (I' := I). destruct I as (I1 & I2 & I3 & I4 & I5 & I6 & I7 & I8 & I9 & I10 & I11 & I12 & I13).
  assert (G : forall e c, ~ In EvComplete e -> sf_used c <= sf_limit c -> inv init (with_conn c s) toks (h ++ [(OConn o, RNone, e)])).
  { intros e c Z0 Z1. eapply step_still; eauto; try reflexivity; fields; auto; [qu|apply sum_same; auto]. }
  assert (W : with_conn (ss_conn s) s = s) by (destruct s; reflexivity).
  unfold ss_conn_op. destruct o as [l|n| |fits|l].
  - destruct (sfc_update l (ss_conn s)) as [c [cur|]] eqn:E.
    + apply G; [apply writable_no_complete|]. unfold sfc_update in E. destruct (_ <? _) eqn:X in E; [|discriminate]. injection E as <- <-. cbn. lia.
    + rewrite <- W. apply G; auto.
  - cbn [sstep]. unfold sfc_consume. destruct (_ <=? _) eqn:X; [|rewrite <- W; apply G; auto]. apply G; [auto|]. cbn. lia.
  - cbn [sstep]. apply G; [auto|]. destruct (blocked_room (ss_conn s)) as [-> ->]. auto.
  - cbn [sstep]. unfold sfc_write. destruct (sfc_blocked_needed _); [destruct fits|]; apply G; auto.
  - cbn [sstep]. apply G; [auto|]. unfold sfc_lost. destruct (sf_blocked_at _); [destruct (_ =? _)|]; auto.
Qed.
Lemma prio_spec init s toks h p r : inv init s toks h -> inv init (ss_set_priority p r s) toks (h ++ [(OPrio p r, RNone, [])]).
Proof.
  intros I. assert (I' := I). destruct I as (I1 & I2 & I3 & I4 & I5 & I6 & I7 & _). eapply step_still; eauto; try reflexivity; fields; auto; [qu|apply sum_same; auto].
Qed.
Lemma low_spec init s toks h w : inv init s toks h -> 0 < w -> inv init (ss_set_low w s) toks (h ++ [(OLow w, RNone, [])]).
Proof.
  intros I Hw. assert (I' := I). destruct I as (I1 & I2 & I3 & I4 & I5 & I6 & I7 & _). eapply step_still; eauto; try reflexivity; fields; auto; [qu|apply sum_same; auto].
Qed.

(** ** Asking for data *)
(** There is something to write: stream data, or a FIN. *)
Definition unmarked_below (W : list N) (b : txb) (lim : N) : Prop := exists y, y < lenN W /\ y < lim /\ state_of (tb_rt b) y = None.
Lemma none_dec (t : rt) n : (exists y, y < n /\ state_of t y = None) \/ (forall y, y < n -> state_of t y <> None).
Proof.
  destruct (existsb (fun i => match state_of t (N.of_nat i) with None => true | _ => false end) (List.seq 0 (N.to_nat n))) eqn:E.
  - left. apply existsb_exists in E as (i & Hi & E). apply in_seq in Hi. exists (N.of_nat i). split; [lia|]. destruct (state_of _ _); [discriminate|reflexivity].
  - right. intros y Hy X. assert (C : existsb (fun i => match state_of t (N.of_nat i) with None => true | _ => false end) (List.seq 0 (N.to_nat n)) = true); [|congruence].
    apply existsb_exists. exists (N.to_nat y). split; [apply in_seq; lia|]. rewrite N2Nat.id, X. reflexivity.
Qed.
Lemma buf_has h W b lim : buf_ok h W b -> let '(b', x) := tb_has_before lim b in
  buf_ok h W b' /\ tb_retired b' = tb_retired b /\ tb_buf b' = tb_buf b /\ (forall y, state_of (tb_rt b') y = state_of (tb_rt b) y) /\
  (x = true <-> unmarked_below W b lim).
Proof.
  intros H. unfold tb_has_before. pose proof (buf_first _ _ _ H) as X. destruct (tb_first b) as [b' [[o ml]|]]; destruct X as (X1 & X2 & X3 & X4 & X5); splits; auto.
  - destruct X5 as (Y1 & Y2 & Y3). unfold unmarked_below. split.
    + intros HL. exists o. splits; try lia. destruct ml as [n|]; [destruct Y3 as (? & ? & Y3)|]; apply Y3; lia.
    + intros (y & A & B & C). destruct (N.lt_ge_cases y o) as [G|G]; [destruct (Y2 _ G C)|]. lia.
  - split; [discriminate|]. intros (y & A & B & C). destruct (X5 y A C).
Qed.
Lemma tb_has_eq h W b : buf_ok h W b -> tb_has b = tb_has_before (lenN W) b.
Proof.
  intros H. unfold tb_has, tb_has_before. pose proof (buf_first _ _ _ H) as X. destruct (tb_first b) as [b' [[o ml]|]]; [|reflexivity].
  destruct X as (_ & _ & _ & _ & X & _). replace (o <? lenN W) with true by lia. reflexivity.
Qed.

(** Fields that writing does not change. *)
Definition is_rs (s : ss) : bool := match ss_st s with StResetSent _ _ _ _ _ _ | StResetRecvd _ _ => true | _ => false end.
Definition same_obs (s s' : ss) : Prop := ss_acked s' = ss_acked s /\ ss_avail s' = ss_avail s /\ is_rs s' = is_rs s.
Definition same_but_state (s s' : ss) : Prop :=
  ss_id s' = ss_id s /\ ss_pri s' = ss_pri s /\ ss_eff s' = ss_eff s /\ ss_retx s' = ss_retx s /\ ss_low s' = ss_low s /\
  (sf_used (ss_conn s) <= sf_limit (ss_conn s) -> sf_used (ss_conn s') <= sf_limit (ss_conn s')) /\ same_obs s s'.
Lemma obs_refl s : same_obs s s. Proof. unfold same_obs. auto. Qed.
Lemma same_refl s : same_but_state s s. Proof. unfold same_but_state. splits; auto using obs_refl. Qed.
Lemma same_st st s : same_obs s (with_st st s) -> same_but_state s (with_st st s). Proof. unfold same_but_state. intros. splits; auto. Qed.
Lemma same_trans a b c : same_but_state a b -> same_but_state b c -> same_but_state a c.
Proof.
  unfold same_but_state, same_obs. intros (A1 & A2 & A3 & A4 & A5 & A6 & A7 & A8 & A9) (B1 & B2 & B3 & B4 & B5 & B6 & B7 & B8 & B9).
  splits; try congruence. auto.
Qed.
Lemma blocked_avail fc : sfc_available (sfc_blocked fc) = sfc_available fc.
Proof. unfold sfc_blocked, sfc_available. destruct (sf_blocked_at fc); [destruct (_ <=? _)|]; reflexivity. Qed.
Lemma blocked_if_avail fc n : sfc_available (if sfc_available fc <=? n then sfc_blocked fc else fc) = sfc_available fc.
Proof. destruct (_ <=? _); [apply blocked_avail|reflexivity]. Qed.
Lemma sent_avail fc : sfc_available (sfc_sent fc) = sfc_available fc. Proof. reflexivity. Qed.
Ltac obs Es := unfold same_obs, ss_acked, ss_avail, is_rs, tb_avail, tb_buffered; cbn [with_st with_conn ss_st ss_conn]; rewrite ?Es, ?blocked_if_avail, ?sent_avail; splits; congruence.
Ltac sst Es := apply same_st; obs Es.

Definition has_stuff (W : list N) (re : bool) (s : ss) : Prop :=
  match ss_st s with
  | StSend _ b _ => unmarked_below W b (if re then ss_retx s else lenN W)
  | StDataSent b fs _ _ => unmarked_below W b (lenN W) \/ fs = false
  | StResetRel b _ _ r _ _ => unmarked_below W b (if re then N.min (ss_retx s) r else r)
  | _ => False
  end.
Lemma has_next_spec L h W m re s : st_ok L h W m (ss_st s) -> let '(s', x) := ss_has_next re s in
  same_but_state s s' /\ ss_bytes s' = ss_bytes s /\ st_ok L h W m (ss_st s') /\ (x = true <-> has_stuff W re s).
Proof.
  intros H. unfold ss_has_next, has_stuff. destruct (ss_st s) eqn:Es; cbn [st_ok] in H.
  - rewrite Es. splits; auto using same_refl. split; [discriminate|tauto].
  - destruct H as (A & B & C & D & E).
    assert (X : exists lim, (if re then tb_has_before (ss_retx s) b else tb_has b) = tb_has_before lim b /\ lim = if re then ss_retx s else lenN W).
    { destruct re; [eauto|]. exists (lenN W). split; [apply (tb_has_eq _ _ _ D)|reflexivity]. }
    destruct X as (lim & -> & El). pose proof (buf_has _ _ _ lim D) as F. destruct (tb_has_before lim b) as [b' x]. destruct F as (F1 & F2 & F3 & F4 & F5). subst lim.
    splits; [sst Es|reflexivity|cbn [with_st ss_st st_ok]; splits; auto|tauto].
  - destruct H as (A & B & D & E). rewrite (tb_has_eq _ _ _ D). pose proof (buf_has _ _ _ (lenN W) D) as F. destruct (tb_has_before (lenN W) b) as [b' x]. destruct F as (F1 & F2 & F3 & F4 & F5).
    splits; [sst Es|reflexivity|cbn [with_st ss_st st_ok]; rewrite F3; splits; auto; apply E|].
    rewrite <- F5. destruct x, fin_sent; cbn; intuition congruence.
  - rewrite Es. splits; auto using same_refl. split; [discriminate|tauto].
  - rewrite Es. splits; auto using same_refl. split; [discriminate|tauto].
  - destruct H as (A & B & C & D & E & F & G & H).
    pose proof (buf_has _ _ _ (if re then N.min (ss_retx s) reliable else reliable) F) as X. destruct (tb_has_before _ b) as [b' x]. destruct X as (F1 & F2 & F3 & F4 & F5).
    splits; [sst Es|reflexivity|cbn [with_st ss_st st_ok]; rewrite F2; splits; auto; apply H|exact F5].
  - rewrite Es. splits; auto using same_refl. split; [discriminate|tauto].
Qed.

(** What is offered for sending. *)
Definition offered (W : list N) (s : ss) (o : N) (d : list N) : Prop :=
  exists len, d = slice o len W /\ o + len <= lenN W /\
  match ss_st s with
  | StSend _ b _ => 0 < len /\ (forall y, o <= y < o + len -> state_of (tb_rt b) y = None)
  | StDataSent b fs _ _ => (0 < len \/ len = 0 /\ o = lenN W /\ fs = false) /\ (forall y, o <= y < o + len -> state_of (tb_rt b) y = None)
  | StResetRel b _ _ r _ _ => 0 < len /\ o + len <= r /\ (forall y, o <= y < o + len -> state_of (tb_rt b) y = None)
  | _ => False
  end.
Lemma cut_slice W o len k : o + len <= lenN W -> firstnN (N.min k (lenN (slice o len W))) (slice o len W) = slice o (N.min k len) W.
Proof. intros H. rewrite lenN_slice by exact H. rewrite firstnN_slice. f_equal. lia. Qed.
Lemma next_spec L h W m re sp s : st_ok L h W m (ss_st s) -> exists s' x, ss_next re sp s = Some (s', x) /\
  same_but_state s s' /\ ss_bytes s' = ss_bytes s /\ ss_conn s' = ss_conn s /\ st_ok L h W m (ss_st s') /\
  match x with None => ~ has_stuff W re s | Some (o, d) => has_stuff W re s /\ offered W s o d end /\
  match ss_st s, ss_st s' with
  | StSend fc b c, StSend fc' b' c' => fc' = fc /\ c' = c
  | StDataSent b fs fa c, StDataSent b' fs' fa' c' => fs' = fs /\ fa' = fa /\ c' = c
  | StResetRel b e f r p a, StResetRel b' e' f' r' p' a' => e' = e /\ f' = f /\ r' = r /\ p' = p /\ a' = a
  | StSend _ _ _, _ | StDataSent _ _ _ _, _ | StResetRel _ _ _ _ _ _, _ => False
  | a, b => b = a
  end.
Proof.
  intros H. unfold ss_next, has_stuff, offered. destruct (ss_st s) eqn:Es; cbn [st_ok] in H.
  - exists s, None. rewrite Es. splits; auto using same_refl.
  - destruct H as (A & B & C & D & E). destruct (buf_next _ _ _ sp D) as (b' & x & -> & B1 & B2 & B3 & B4 & B5).
    eexists _, _. splits; [reflexivity|sst Es|reflexivity|reflexivity|cbn [with_st ss_st st_ok]; splits; auto| |cbn; auto].
    destruct x as [[o d]|].
    + destruct B5 as (L1 & len & -> & L2 & L3 & L4). destruct re.
      * destruct (o <? ss_retx s) eqn:Er.
        -- split; [exists o; splits; try lia; apply L4; lia|]. rewrite cut_slice by exact L3. eexists. splits; [reflexivity|lia|lia|].
           intros y Hy. apply L4. lia.
        -- intros (y & Y1 & Y2 & Y3). apply (L1 y); [lia|exact Y3].
      * split; [exists o; splits; try lia; apply L4; lia|]. exists len. splits; auto.
    + intros (y & Y1 & Y2 & Y3). apply (B5 y); [lia|exact Y3].
  - destruct H as (A & B & D & E). destruct (buf_next _ _ _ sp D) as (b' & x & -> & B1 & B2 & B3 & B4 & B5).
    eexists _, _. splits; [reflexivity|sst Es|reflexivity|reflexivity|cbn [with_st ss_st st_ok]; rewrite B3; splits; auto; apply E| |cbn; auto].
    destruct x as [[o d]|].
    + destruct B5 as (L1 & len & -> & L2 & L3 & L4). split; [left; exists o; splits; try lia; apply L4; lia|]. exists len. splits; auto.
    + destruct fin_sent.
      * intros [(y & Y1 & Y2 & Y3)|X]; [|discriminate]. apply (B5 y); [lia|exact Y3].
      * split; [auto|]. rewrite (buf_used _ _ _ D). exists 0. splits; [reflexivity|lia|right; auto|lia].
  - exists s, None. rewrite Es. splits; auto using same_refl.
  - exists s, None. rewrite Es. splits; auto using same_refl.
  - destruct H as (A & B & C & D & E & F & G & H). destruct (buf_next _ _ _ sp F) as (b' & x & -> & B1 & B2 & B3 & B4 & B5).
    eexists _, _. splits; [reflexivity|sst Es|reflexivity|reflexivity|cbn [with_st ss_st st_ok]; rewrite B2; splits; auto; apply H| |cbn; splits; auto].
    destruct x as [[o d]|].
    + destruct B5 as (L1 & len & -> & L2 & L3 & L4). cbv zeta. set (lim := if re then N.min (ss_retx s) reliable else reliable) in *.
      assert (Hlim : lim <= reliable) by (subst lim; destruct re; lia).
      destruct (o <? lim) eqn:Er.
      * split; [exists o; splits; try lia; apply L4; lia|]. rewrite cut_slice by exact L3. eexists. splits; [reflexivity|lia|lia|lia|].
        intros y Hy. apply L4. lia.
      * intros (y & Y1 & Y2 & Y3). apply (L1 y); [lia|exact Y3].
    + intros (y & Y1 & Y2 & Y3). apply (B5 y); [lia|exact Y3].
  - exists s, None. rewrite Es. splits; auto using same_refl.
Qed.

Lemma varint_len_8 v n : varint_len v = Some n -> 0 < n <= 8.
Proof. unfold varint_len. repeat (destruct (_ <? _)); intros E; inv E; lia. Qed.
Lemma wr_stream_writes rem id off d fo r : id < 2 ^ 62 -> off + lenN d < 2 ^ 62 -> 18 <= rem -> (0 < lenN d \/ fo = Some off) ->
  wr_stream rem id off d fo = Some r -> r <> None.
Proof.
  intros Hi Ho Hr Hd. unfold wr_stream. destruct (varint_len id) as [li|] eqn:Eli; [|discriminate]. apply varint_len_8 in Eli.
  assert (Lo : forall lo, (if 0 <? off then varint_len off else Some 0) = Some lo -> lo <= 8).
  { intros lo. destruct (0 <? off); intros X; [apply varint_len_8 in X; lia|inv X; lia]. }
  destruct (if 0 <? off then varint_len off else Some 0) as [lo|]; [|discriminate]. specialize (Lo _ eq_refl). cbv zeta.
  replace (rem <? 1 + li + lo) with false by lia. unfold length_and_fill.
  destruct (rem - (1 + li + lo) <=? lenN d) eqn:E1.
  - replace (rem - (1 + li + lo) =? 0) with false by lia. cbn [andb]. destruct (fbytes _ _ _); intros X; inv X. discriminate.
  - destruct (varint_len (N.min _ _)) as [ll|]; [|discriminate].
    destruct Hd as [Hd| ->].
    + replace (lenN d =? 0) with false by lia. cbn [andb]. destruct (fbytes _ _ _); intros X; inv X. discriminate.
    + destruct (lenN d =? 0) eqn:E0; cbn [andb].
      * replace (off =? off + lenN d) with true by lia. cbn [negb]. destruct (fbytes _ _ _); intros X; inv X. discriminate.
      * destruct (fbytes _ _ _); intros X; inv X. discriminate.
Qed.
Lemma vi_len f l n : (forall v, In v f -> exists x, v = Vi x) -> fields_bytes f = Some l -> n = 8 * lenN f -> lenN l <= n.
Proof.
  intros H. revert l n. induction f as [|v f IH]; intros l n E ->; [inv E; cbn; lia|]. cbn [fields_bytes] in E.
  destruct (H v (or_introl eq_refl)) as [x ->]. cbn [field_bytes] in E. destruct (varint_bytes x) as [a|] eqn:Ea; [|discriminate].
  destruct (fields_bytes f) as [c|]; [|discriminate]. inv E. apply varint_bytes_len, varint_len_8 in Ea.
  specialize (IH (fun v h => H v (or_intror h)) c _ eq_refl eq_refl). rewrite lenN_app, lenN_cons. lia.
Qed.

Lemma mark_sent_st L h W m s off len (fin : bool) : st_ok L h W m (ss_st s) -> off + len <= lenN W ->
  (match ss_st s with StSend _ _ _ | StDataSent _ _ _ _ | StResetRel _ _ _ _ _ _ => True | _ => False end) ->
  (forall x, covers off len x -> in_flight h (fun t => carries t x)) -> (fin = true -> in_flight h is_fin) ->
  exists s', ss_mark_sent off len fin s = Some s' /\ same_but_state s s' /\ ss_bytes s' = N.max (ss_bytes s) (off + len) /\ st_ok L h W m (ss_st s').
Proof.
  intros H Hl Hst Hf Hfin. unfold ss_mark_sent. cbn [ss_st]. destruct (ss_st s) eqn:Es; cbn [st_ok] in H; try tauto.
  - destruct H as (A & B & C & D & E). destruct (buf_sent _ _ _ off len D Hl Hf) as (b' & -> & B1 & B2 & B3 & B4).
    eexists. splits; [reflexivity| |reflexivity|].
    + unfold same_but_state, ss_blocked_if. cbn [ss_st with_st with_conn ss_id ss_pri ss_eff ss_retx ss_low ss_conn]. splits; auto; [|obs Es].
      intros X. destruct (_ <=? _); [destruct (blocked_room (ss_conn s)) as [-> ->]|]; auto.
    + unfold ss_blocked_if. cbn [ss_st with_st with_conn st_ok]. splits; auto. apply fc_blocked_if_ok; auto.
  - destruct H as (A & B & D & E & F & G & H). destruct (buf_sent _ _ _ off len D Hl Hf) as (b' & -> & B1 & B2 & B3 & B4).
    eexists. splits; [reflexivity|unfold same_but_state; cbn [with_st ss_id ss_pri ss_eff ss_retx ss_low ss_conn]; splits; auto; obs Es|reflexivity|].
    cbn [ss_st with_st st_ok]. rewrite B3. splits; auto; try apply F. intros X. apply orb_true_iff in X as [X|X]; auto.
  - destruct H as (A & B & C & D & E & F & G & H). destruct (buf_sent _ _ _ off len F Hl Hf) as (b' & -> & B1 & B2 & B3 & B4).
    eexists. splits; [reflexivity|unfold same_but_state; cbn [with_st ss_id ss_pri ss_eff ss_retx ss_low ss_conn]; splits; auto; obs Es|reflexivity|].
    cbn [ss_st with_st st_ok]. rewrite B2. splits; auto; apply H.
Qed.
