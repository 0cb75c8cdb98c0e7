(** Invariants of CRYPTO streams. *)
From Verif Require Import Base Lib CodecModel CodecProofs FcModel RtModel RtSpec RtProofs SsModel SsSpec SsProofs RxModel RxSpec FcProofs RxProofs LrModel LrProofs2 SniModel SniProps CryModel CrySpec.
From Coq Require Import Lia.

(** * How much is buffered *)
Fixpoint tot (ret : N) (l : rmap) : N := match l with [] => 0 | (k, v) :: r => (lenN v - (ret - k)) + tot ret r end.
Lemma tot_mono ret ret' l : ret <= ret' -> tot ret' l <= tot ret l.
Proof. intros H. induction l as [|[k v] l IH]; cbn [tot]; lia. Qed.
Lemma tot_app ret a b : tot ret (a ++ b) = tot ret a + tot ret b.
Proof. induction a as [|[k v] a IH]; cbn [tot app]; lia. Qed.
Lemma tot_insert ret k v l : tot ret (m_insert k v l) <= tot ret l + lenN v.
Proof. induction l as [|[k' v'] l IH]; cbn [m_insert tot]; [lia|]. repeat (dmatch; cbn [tot]); lia. Qed.
Lemma tot_remove ret k l : tot ret (m_remove k l) <= tot ret l.
Proof. induction l as [|[k' v'] l IH]; unfold m_remove in *; cbn [filter tot]; [lia|]. dmatch; cbn [tot]; lia. Qed.
Lemma tot_take ret k v l : ret <= k -> m_get k l = Some v -> tot ret (m_remove k l) + lenN v <= tot ret l.
Proof.
  intros Hk. induction l as [|[k' v'] l IH]; unfold m_remove, m_get in *; cbn [filter tot fst]; [discriminate|].
  destruct (N.eqb_spec k' k) as [->|E]; cbn [negb].
  - intros H. apply some_inj in H. subst v'. pose proof (tot_remove ret k l) as X. unfold m_remove in X. lia.
  - intros H. cbn [tot]. specialize (IH H). lia.
Qed.
Lemma tot_extend ret k v x l : forall lo, rok lo l -> m_get k l = Some v -> tot ret (m_insert k (v ++ x) l) <= tot ret l + lenN x.
Proof.
  induction l as [|[k' v'] l IH]; intros lo Ho; unfold m_get in *; cbn [filter m_insert tot fst]; [discriminate|].
  cbn [rok] in Ho. destruct Ho as (_ & Hv & Ho).
  destruct (N.eqb_spec k' k) as [->|E].
  - intros H. apply some_inj in H. subst v'. rewrite ?N.ltb_irrefl, ?N.eqb_refl. cbn [tot]. rewrite lenN_app. lia.
  - intros H. specialize (IH _ Ho H).
    assert (k' < k).
    { destruct (filter _ l) as [|[k2 v2] fl] eqn:F; [discriminate|]. assert (F0 : In (k2, v2) (filter (fun e => fst e =? k) l)) by (rewrite F; now left). apply filter_In in F0 as [F1 F2]. cbn in F2. apply N.eqb_eq in F2. subst k2.
      pose proof (rok_keys _ _ Ho) as X. rewrite Forall_forall in X. specialize (X _ F1). cbn in X. pose proof (lenN_pos _ Hv). lia. }
    repeat (dmatch; cbn [tot]); lia.
Qed.
Lemma tot_fold ret ks : forall l, tot ret (fold_left (fun m k => m_remove k m) ks l) <= tot ret l.
Proof. induction ks as [|k ks IH]; intros l; cbn [fold_left]; [lia|]. specialize (IH (m_remove k l)). pose proof (tot_remove ret k l). lia. Qed.

Definition counted (s : rx) : Prop := rx_retired s + tot (rx_retired s) (rx_ranges s) <= rx_received s.
Lemma counted_insert st d s s' ok : rx_insert st d s = Some (s', ok) -> rx_retired s + tot (rx_retired s) (rx_ranges s) + lenN d <= rx_received s -> counted s'.
Proof. unfold rx_insert, counted. dmatch; [|discriminate]. intros H. inv H. cbn. pose proof (tot_insert (rx_retired s) st d (rx_ranges s)). lia. Qed.
Lemma counted_add st ne d ext s s' ok : rok 0 (rx_ranges s) -> rx_retired s <= st -> counted s -> rx_add st ne d ext s = Some (s', ok) -> counted s'.
Proof.
  intros R St C. unfold rx_add. match goal with |- match ?X with Some _ => _ | None => _ end = _ -> _ => destruct X as [[t rm]|] end; [|discriminate].
  pose proof (tot_fold (rx_retired s) rm (rx_ranges s)) as TF. pose proof (fold_remove_ok rm _ _ R) as RF.
  set (ranges := fold_left _ rm (rx_ranges s)) in *. unfold counted in C.
  destruct t as [|t0 t'] eqn:Et.
  - intros H. inv H. unfold counted. cbn. lia.
  - rewrite <- Et. clear Et t0 t'. destruct ext as [[ps plen]|].
    + set (pr := match m_get (st + lenN t) ranges with Some _ => _ | None => _ end).
      assert (P : tot (rx_retired s) (fst pr) + lenN (snd pr) <= tot (rx_retired s) ranges /\ rok 0 (fst pr)).
      { unfold pr. destruct (m_get (st + lenN t) ranges) as [nv|] eqn:G; [|cbn [fst snd]; rewrite lenN_nil; split; [lia|exact RF]].
        dmatch; cbn [fst snd]; [|rewrite lenN_nil; split; [lia|exact RF]]. split; [apply tot_take; [lia|exact G]|]. apply rok_filter. exact RF. }
      destruct pr as [r2 next]. cbn [fst snd] in P. destruct P as [P1 P2]. intros H. inv H. unfold counted. cbn.
      destruct (m_get ps r2) as [buf|] eqn:G2; [|lia]. pose proof (tot_extend (rx_retired s) ps buf (t ++ next) r2 0 P2 G2) as X. rewrite lenN_app in X. lia.
    + intros H. apply counted_insert in H; [exact H|]. cbn. lia.
Qed.
Lemma counted_inbound start data s s' ok : rxinv s -> counted s -> rx_inbound start data s = Some (s', ok) -> counted s'.
Proof.
  intros I C. unfold rx_inbound. destruct (chk _) as [ne|]; [|discriminate].
  destruct (ne <=? rx_retired s); [intros H; inv H; exact C|].
  set (p := if start <? rx_retired s then (rx_retired s, skipnN (rx_retired s - start) data) else (start, data)).
  assert (P : rx_retired s <= fst p) by (unfold p; destruct (N.ltb_spec start (rx_retired s)); cbn; lia).
  destruct p as [st d]. cbn [fst] in P. destruct d as [|d0 d'] eqn:Ed; [intros H; inv H; exact C|]. rewrite <- Ed. clear Ed d0 d'.
  pose proof (xi_ok _ I) as Ok.
  destruct (rx_end s <=? st).
  - set (le := match m_last (rx_ranges s) with Some _ => _ | None => _ end). destruct (negb (rx_end s =? le)); [discriminate|]. subst le.
    destruct (m_last (rx_ranges s)) as [[k v]|] eqn:El.
    + destruct ((st =? rx_end s) && _).
      * intros H. inv H. unfold counted in *. cbn. apply m_last_inv in El as [a El].
        assert (G : m_get k (rx_ranges s) = Some v).
        { rewrite El. apply m_get_split. rewrite El in Ok. apply rok_app in Ok as [O1 O2]. cbn [rok] in O2. eapply kless_rok; [exact O1|tauto]. }
        pose proof (tot_extend (rx_retired s) k v d (rx_ranges s) 0 Ok G). lia.
      * intros H. apply counted_insert in H; [exact H|]. unfold counted in C. cbn. lia.
    + intros H. apply counted_insert in H; [exact H|]. unfold counted in C. cbn. lia.
  - destruct (m_upto st (rx_ranges s)) as [[ps pv]|].
    + destruct (ps + lenN pv <? ne); [|intros H; inv H; exact C]. intros H. eapply counted_add; [exact Ok| |exact C|exact H]. lia.
    + intros H. eapply counted_add; [exact Ok| |exact C|exact H]. lia.
Qed.
Lemma tot_read l : forall ret space out ret' l' all, read_loop ret space l = Some (out, ret', l', all) -> ret' + tot ret' l' <= ret + tot ret l /\ ret <= ret'.
Proof.
  induction l as [|[k v] l IH]; intros ret space out ret' l' all; cbn [read_loop tot].
  - intros H. inv H. cbn. lia.
  - destruct (N.leb_spec k ret) as [Hk|Hk].
    + destruct (csub (lenN v) (ret - k)) as [av|] eqn:Ec; [|discriminate]. unfold csub in Ec. destruct (ret - k <=? lenN v) eqn:El; [|discriminate]. apply some_inj in Ec.
      destruct (N.ltb_spec space av).
      * intros X. inv X. cbn [tot]. pose proof (tot_mono ret (ret + space) l). lia.
      * destruct (read_loop (ret + av) (space - av) l) as [[[[o r] lo] al]|] eqn:R; [|discriminate]. intros X. inv X.
        apply IH in R. pose proof (tot_mono ret (ret + (lenN v - (ret - k))) l). lia.
    + intros X. inv X. cbn [tot]. lia.
Qed.
Lemma counted_read n s s' out : counted s -> rx_read n s = Some (s', out) -> counted s'.
Proof.
  unfold counted, rx_read. intros C. destruct (read_loop _ _ _) as [[[[o r] l] al]|] eqn:R; [|discriminate]. intros H. inv H. cbn. apply tot_read in R. lia.
Qed.
Lemma buffered_tot s : rxinv s -> rx_buffered s = Some (tot (rx_retired s) (rx_ranges s)).
Proof.
  intros I. pose proof (xi_past _ I) as P. unfold rx_buffered. induction (rx_ranges s) as [|[k v] l IH]; cbn [buffered_loop tot]; [reflexivity|].
  apply Forall_cons_iff in P as [P1 P2]. cbn in P1. unfold csub. replace (rx_retired s - k <=? lenN v) with true by lia. rewrite IH by exact P2. reflexivity.
Qed.

(** * The receive side of one space *)
Record rinv (fs all : list (N * list N)) (dl : list N) (r : rx) : Prop := {
  ri_hist : exists st, hist st dl r /\ (forall f, In f fs -> In f st) /\ (forall f, In f st -> In f all);
  ri_cnt : counted r;
  ri_end : rx_end r <= 2 ^ 62 }.
Lemma rinv_inv fs all dl r : rinv fs all dl r -> rxinv r.
Proof. intros [(st & H & _) _ _]. apply H. Qed.
Lemma end_inbound start data s s' ok : rx_inbound start data s = Some (s', ok) -> rx_end s' <= N.max (rx_end s) (start + lenN data).
Proof.
  unfold rx_inbound. unfold chk. destruct (_ <? 2 ^ 64); [|discriminate]. set (ne := start + lenN data).
  destruct (ne <=? rx_retired s); [intros H; inv H; lia|]. set (p := if start <? _ then _ else _). destruct p as [st d].
  destruct d as [|d0 d'] eqn:Ed; [intros H; inv H; lia|]. rewrite <- Ed. clear Ed d0 d'.
  assert (AD : forall ext d2 st2, rx_add st2 ne d2 ext s = Some (s', ok) -> rx_end s' <= N.max (rx_end s) ne).
  { intros ext d2 st2. unfold rx_add. match goal with |- match ?X with Some _ => _ | None => _ end = _ -> _ => destruct X as [[t rm]|] end; [|discriminate].
    destruct t as [|t0 t'] eqn:Et; [intros H; inv H; cbn; lia|]. rewrite <- Et. clear Et t0 t'. destruct ext as [[ps plen]|].
    - set (pr := match m_get _ _ with Some _ => _ | None => _ end). destruct pr as [r2 nx]. intros H. inv H. cbn. lia.
    - unfold rx_insert. dmatch; [|discriminate]. intros H. inv H. cbn. lia. }
  destruct (rx_end s <=? st) eqn:E.
  - destruct (negb _); [discriminate|]. destruct (m_last (rx_ranges s)) as [[k v]|].
    + destruct (_ && _); [intros H; inv H; cbn; lia|]. unfold rx_insert. dmatch; [|discriminate]. intros H. inv H. cbn. lia.
    + unfold rx_insert. dmatch; [|discriminate]. intros H. inv H. cbn. lia.
  - destruct (m_upto st (rx_ranges s)) as [[ps pv]|].
    + destruct (_ <? ne); [|intros H; inv H; lia]. intros H. eapply AD; exact H.
    + intros H. eapply AD; exact H.
Qed.
Lemma rinv_frame fs all dl r off d : rinv fs all dl r -> off + lenN d <= 2 ^ 62 ->
  exists r' e, rx_crypto off d r = Some (r', e) /\ rinv (match e with None => fs ++ [(off, d)] | Some _ => fs end) (all ++ [(off, d)]) dl r' /\
    rx_retired r' = rx_retired r /\
    (d <> [] -> rx_retired r + BUFFER_LIMIT < off -> r' = r /\ e = Some EBufferExceeded) /\
    (e = None -> tot (rx_retired r') (rx_ranges r') <= BUFFER_LIMIT).
Proof.
  intros V Hd. pose proof (rinv_inv _ _ _ _ V) as I. destruct V as [(st & H & Hf & Ha) C E].
  pose proof (xi_retired_le _ I) as Re. unfold rx_crypto. rewrite chk_ok by (unfold BUFFER_LIMIT; lia).
  destruct ((match d with [] => false | _ => true end) && (rx_retired r + BUFFER_LIMIT <? off)) eqn:Far.
  - exists r, (Some EBufferExceeded). splits; auto; [|discriminate]. split; auto. exists st. splits; auto. intros f X. apply in_or_app. auto.
  - destruct (xstep_hist st dl r (XFrame off d) H Hd) as (r' & out & X & H').
    cbn [xstep] in X. destruct (rx_inbound off d r) as [[r1 ok]|] eqn:B; [|discriminate]. apply some_inj, pair_equal_spec in X. destruct X as [<- <-].
    pose proof (counted_inbound _ _ _ _ _ I C B) as C'. pose proof (end_inbound _ _ _ _ _ B) as E'.
    destruct (rx_inbound_spec r off d I) as (r2 & ok2 & B2 & _ & (Rt & _)); [lia|]. rewrite B in B2. apply some_inj, pair_equal_spec in B2. destruct B2 as [<- <-].
    assert (Nf : d <> [] -> rx_retired r + BUFFER_LIMIT < off -> False).
    { intros Hn Hl. destruct d; [congruence|]. cbn in Far. apply N.ltb_ge in Far. lia. }
    assert (RI : forall q, (q = fs \/ q = fs ++ [(off, d)]) -> rinv q (all ++ [(off, d)]) dl r1).
    { intros q Hq. split; [|exact C'|lia]. exists (st ++ [(off, d)]). splits.
      - replace (delivered [if ok then XAccepted else XViolation]) with (@nil N) in H' by (destruct ok; reflexivity). rewrite app_nil_r in H'. exact H'.
      - intros f X. destruct Hq as [->| ->]; apply in_or_app; [auto|]. apply in_app_or in X as [X|X]; auto.
      - intros f X. apply in_app_or in X as [X|X]; apply in_or_app; auto. }
    destruct ok.
    + unfold counted in C'. unfold csub. replace (rx_retired r1 <=? rx_received r1) with true by lia.
      eexists r1, _. split; [reflexivity|]. splits; auto.
      * apply RI. destruct (_ <=? BUFFER_LIMIT); auto.
      * intros Hn Hl. destruct (Nf Hn Hl).
      * destruct (N.leb_spec (rx_received r1 - rx_retired r1) BUFFER_LIMIT); [|discriminate]. intros _. lia.
    + eexists r1, _. split; [reflexivity|]. splits; auto.
      * intros Hn Hl. destruct (Nf Hn Hl).
      * discriminate.
Qed.
Lemma rinv_read fs all dl r : rinv fs all dl r -> exists r' l, rx_read_to_end r = Some (r', l) /\ rinv fs all (dl ++ l) r' /\ ~ arrived fs (lenN dl + lenN l).
Proof.
  intros V. pose proof (rinv_inv _ _ _ _ V) as I. destruct V as [(st & H & Hf & Ha) C E]. unfold rx_read_to_end.
  destruct (bytes_ready_spec (rx_ranges r) 0 (rx_retired r) (xi_ok _ I) (xi_past _ I)) as (n & En & N1 & N2).
  unfold rx_bytes_ready. rewrite En.
  destruct (xstep_hist st dl r (XRead n) H Logic.I) as (r' & out & X & H'). cbn [xstep] in X.
  destruct (rx_read_spec r n I) as (r1 & l & R & I1 & R1 & R2 & R3 & R4 & R5 & R6 & R7). rewrite R in *. apply some_inj, pair_equal_spec in X. destruct X as [<- <-].
  cbn [frames delivered] in H'. rewrite !app_nil_r in H'.
  exists r1, l. splits; auto.
  - split; [|eapply counted_read; eauto|lia]. exists st. auto.
  - intros A. assert (A' : arrived st (lenN dl + lenN l)) by (destruct A as (f & b & F1 & F2); exists f, b; auto).
    destruct (N.lt_ge_cases (lenN l) n) as [Hl|Hl].
    + rewrite <- (h_len _ _ _ H), <- R1 in A'. apply (h_all _ _ _ H') in A'; [|lia]. rewrite R4 in A' by lia. apply A'. apply R5. exact Hl.
    + assert (lenN l = n) by lia. rewrite <- (h_len _ _ _ H) in A'. apply (h_all _ _ _ H) in A'; [|lia]. rewrite H0 in A'. congruence.
Qed.

(** * The send side *)
Definition bok (W : list N) (b : txb) : Prop :=
  rt_wf (tb_rt b) /\ tb_buf b = skipnN (tb_retired b) W /\ tb_retired b <= lenN W /\ (forall x, lenN W <= x -> state_of (tb_rt b) x = None).
Lemma bok_buffered W b : bok W b -> tb_buffered b = lenN W - tb_retired b.
Proof. intros (_ & B & _). unfold tb_buffered. rewrite B, lenN_skipnN. reflexivity. Qed.

Lemma bok_first W b : bok W b -> let '(b', x) := tb_first b in
  bok W b' /\ (forall y, state_of (tb_rt b') y = state_of (tb_rt b) y) /\ tb_retired b' = tb_retired b /\
  match x with
  | None => forall y, y < lenN W -> state_of (tb_rt b) y <> None
  | Some (o, ml) =>
      tb_retired b <= o < lenN W /\ (forall y, y < o -> state_of (tb_rt b) y <> None) /\ state_of (tb_rt b) o = None /\
      match ml with
      | Some n => 0 < n /\ o + n <= lenN W /\ forall y, o <= y < o + n -> state_of (tb_rt b) y = None
      | None => forall y, o <= y -> state_of (tb_rt b) y = None
      end
  end.
Proof.
  intros H. pose proof (bok_buffered _ _ H) as HB. destruct H as (A & B & C & E).
  unfold tb_first. pose proof (first_unmarked_spec _ A) as X. destruct (rt_first_unmarked (tb_rt b)) as [r [o l]].
  destruct X as (X1 & X2 & X3 & X4 & X5).
  assert (S : forall y, state_of r y = state_of (tb_rt b) y) by (intros y; unfold state_of; rewrite X2, X3; reflexivity).
  assert (O : o <= lenN W).
  { destruct (N.le_gt_cases o (lenN W)) as [|Hg]; [assumption|]. exfalso. apply (X4 (lenN W)); [lia|apply E; lia]. }
  assert (So : state_of (tb_rt b) o = None) by (destruct l as [n|]; [destruct X5 as (? & X5 & _); apply X5; lia|apply X5; lia]).
  assert (R : tb_retired b <= o).
  { destruct (N.le_gt_cases (tb_retired b) o) as [|Hg]; [assumption|]. exfalso.
    assert (Y : state_of (tb_rt b) o = Some true) by (apply acked_below; exact Hg). congruence. }
  unfold bok, tb_retired, tb_buffered in *. cbn [tb_rt tb_buf].
  splits; auto.
  - rewrite X2. exact B.
  - rewrite X2. exact C.
  - intros x Hx. rewrite S. auto.
  - destruct (o =? rt_acked (tb_rt b) + lenN (tb_buf b)) eqn:EO.
    + intros y Hy. apply X4. lia.
    + splits; [lia|lia|exact X4|exact So|]. destruct l as [n|]; [|exact X5]. destruct X5 as (N1 & N2 & N3). splits; auto.
      destruct (N.le_gt_cases (o + n) (lenN W)) as [|Hg]; [assumption|]. exfalso. apply N3. apply E. lia.
Qed.
Lemma bok_next W b sp : bok W b -> exists b' x, tb_next sp b = Some (b', x) /\
  bok W b' /\ (forall y, state_of (tb_rt b') y = state_of (tb_rt b) y) /\
  match x with
  | None => forall y, y < lenN W -> state_of (tb_rt b) y <> None
  | Some (o, d) =>
      (forall y, y < o -> state_of (tb_rt b) y <> None) /\
      exists len, d = slice o len W /\ 0 < len /\ o + len <= lenN W /\ forall y, o <= y < o + len -> state_of (tb_rt b) y = None
  end.
Proof.
  intros H. pose proof (bok_buffered _ _ H) as HB. unfold tb_next. pose proof (bok_first _ _ H) as X.
  destruct (tb_first b) as [b' [[o ml]|]]; destruct X as (X1 & X4 & X2 & X5).
  2:{ exists b', None. splits; auto. }
  destruct X5 as (O & Low & _ & R). destruct H as (_ & B & C & _).
  unfold csub. replace (tb_retired b <=? o) with true by lia.
  replace (tb_buffered b <? o - tb_retired b) with false by lia.
  set (sl := if _ <? _ then _ else _).
  assert (SL : exists k, sl = slice o k W /\ 0 < k /\ o + k <= lenN W).
  { subst sl. destruct (_ <? _) eqn:E.
    - exists (N.min sp (tb_buffered b) - (o - tb_retired b)). rewrite B, slice_skipn by lia. splits; [reflexivity|lia|lia].
    - exists (lenN W - o). rewrite B. splits; [|lia|lia]. rewrite <- slice_skipn with (r := tb_retired b) by lia.
      rewrite SsProofs.firstnN_all; [reflexivity|]. rewrite !SsProofs.lenN_skipnN. lia. }
  destruct SL as (k & -> & K1 & K2). rewrite lenN_slice by exact K2.
  set (len := match ml with None => k | Some r => N.min r k end).
  assert (LK : 0 < len <= k) by (subst len; destruct ml as [n|]; [destruct R as (? & _)|]; lia).
  replace (len =? 0) with false by lia. exists b', (Some (o, firstnN len (slice o k W))). splits; auto.
  exists len. rewrite firstnN_slice. replace (N.min len k) with len by lia. splits; [reflexivity|lia|lia|].
  intros y Hy. subst len. destruct ml as [n|]; [destruct R as (_ & _ & R)|]; apply R; lia.
Qed.
Lemma bok_sent W b off len : bok W b -> off + len <= lenN W ->
  exists b', tb_sent off len b = Some b' /\ bok W b' /\
    forall y, state_of (tb_rt b') y = if coversb off len y then sent_over (state_of (tb_rt b) y) else state_of (tb_rt b) y.
Proof.
  intros (A & B & C & E) Hl. unfold tb_sent.
  destruct (mark_sent_spec off len _ A) as (r & -> & Rw & Ra & Rs).
  eexists. splits; [reflexivity| |exact Rs].
  unfold bok, tb_retired, tb_buffered in *. cbn [tb_rt tb_buf]. splits; auto.
  - rewrite Ra. exact B.
  - rewrite Ra. exact C.
  - intros x Hx. rewrite Rs. unfold coversb. replace ((off <=? x) && (x <? off + len)) with false by lia. auto.
Qed.
Lemma bok_acked W b off len : bok W b -> off + len <= lenN W ->
  exists b', tb_acked off len b = Some b' /\ bok W b' /\ forall y, state_of (tb_rt b') y = if coversb off len y then Some true else state_of (tb_rt b) y.
Proof.
  intros H Hl. pose proof (bok_buffered _ _ H) as HB. destruct H as (A & B & C & E). unfold tb_acked.
  destruct (mark_acked_spec off len _ A) as (Rw & Rs).
  set (r := rt_mark_acked off len (tb_rt b)) in *.
  assert (Hi : forall x, lenN W <= x -> state_of r x = None).
  { intros x Hx. rewrite Rs. unfold coversb. replace ((off <=? x) && (x <? off + len)) with false by lia. auto. }
  assert (R1 : tb_retired b <= rt_acked r).
  { destruct (N.le_gt_cases (tb_retired b) (rt_acked r)) as [|Hg]; [assumption|]. exfalso. apply (not_acked_at r Rw).
    rewrite Rs. destruct (coversb _ _ _); [reflexivity|]. apply acked_below. exact Hg. }
  assert (R2 : rt_acked r <= lenN W).
  { destruct (N.le_gt_cases (rt_acked r) (lenN W)) as [|Hg]; [assumption|]. exfalso.
    pose proof (acked_below r _ Hg). rewrite Hi in H by lia. discriminate. }
  unfold csub. replace (tb_retired b <=? rt_acked r) with true by lia.
  replace (rt_acked r - tb_retired b <=? tb_buffered b) with true by lia.
  eexists. splits; [reflexivity| |exact Rs].
  unfold bok, tb_retired, tb_buffered in *. cbn [tb_rt tb_buf]. splits; auto.
  rewrite B, skipnN_skipnN. f_equal. lia.
Qed.
Lemma bok_lost W b off len : bok W b -> off + len <= lenN W ->
  exists b', tb_lost off len b = Some b' /\ bok W b' /\
    forall y, (state_of (tb_rt b') y = Some true <-> state_of (tb_rt b) y = Some true) /\
              (state_of (tb_rt b') y = Some false -> state_of (tb_rt b) y = Some false /\ ~ covers off len y).
Proof.
  intros (A & B & C & E) Hl. unfold tb_lost.
  destruct (unmark_spec off len _ A) as (r & Er & Rw & Ra & Rc). rewrite Er.
  assert (SB : forall x, state_of r x = ideal1 (TLost off len) x (state_of (tb_rt b) x) \/ state_of r x = None /\ state_of (tb_rt b) x = Some false).
  { intros x. destruct (step_bytes (tb_rt b) (TLost off len) r None x A) as [S|(o & l & Eo & _ & LT & S)]; [cbn; rewrite Er; reflexivity|auto|].
    right. split; [exact S|]. destruct LT as (_ & L2 & L3). injection Eo as <- <-. apply L3. lia. }
  eexists. splits; [reflexivity| |].
  - unfold bok, tb_retired, tb_buffered in *. cbn [tb_rt tb_buf]. splits; auto.
    + rewrite Ra. exact B.
    + rewrite Ra. exact C.
    + intros x Hx. destruct (SB x) as [->|[-> _]]; [|reflexivity]. cbn [ideal1]. rewrite E by exact Hx. destruct (coversb off len x); reflexivity.
  - intros y. cbn [tb_rt]. destruct (SB y) as [->|[-> ->]].
    + cbn [ideal1]. unfold coversb. destruct ((off <=? y) && (y <? off + len)) eqn:Ec; destruct (state_of (tb_rt b) y) as [[|]|]; unfold covers; split; try tauto; try congruence; try lia; try (split; congruence).
      intros _. split; [reflexivity|lia].
    + split; [split; discriminate|discriminate].
Qed.

(** * The write loop *)
Lemma slice_sub o off len n (W : list N) : off <= o -> o + n <= off + len ->
  firstn (N.to_nat n) (skipn (N.to_nat (o - off)) (slice off len W)) = slice o n W.
Proof.
  intros H1 H2. unfold slice, firstnN, skipnN. rewrite skipn_firstn_comm, firstn_firstn.
  replace (Nat.min (N.to_nat n) (N.to_nat len - N.to_nat (o - off))) with (N.to_nat n) by lia.
  rewrite <- skipn_add. do 2 f_equal. lia.
Qed.
Lemma chunk_pos room c o d n : write_chunk room c = Some (Some (o, d, n)) -> 1 <= n.
Proof.
  unfold write_chunk. destruct c as [o0 d0]. destruct (varint_len o0) as [vo|]; [|discriminate]. dmatch; [discriminate|].
  destruct (varint_len _) as [vl|]; [|discriminate]. dmatch; [discriminate|]. destruct (varint_len _) as [vl1|]; [|discriminate].
  intros H. inv H. lia.
Qed.
Lemma chunk_some room o d : o < 2 ^ 62 -> room < 2 ^ 62 -> 11 <= room -> exists w, write_chunk room (o, d) = Some (Some w).
Proof.
  intros Ho Hr Hm. destruct (write_chunk_spec room o d Ho Hr) as (w & E & _). destruct w as [w|]; [eauto|]. exfalso.
  unfold write_chunk in E. destruct (varint_len_some o Ho) as (vo & Ev). rewrite Ev in E. destruct (varint_len_small _ _ Ev) as (V & _).
  replace (room <? 1 + vo + 1 + 1) with false in E by lia. repeat (dmatch_in E; try discriminate).
Qed.
Lemma turn_sizes slicing limit room offset data fs : crypto_turn slicing limit room offset data = Some fs ->
  (length fs <= 2)%nat /\ Forall (fun f => 1 <= snd f) fs.
Proof.
  unfold crypto_turn.
  assert (WH : match write_chunk room (offset, data) with None => None | Some None => Some [] | Some (Some w) => Some [w] end = Some fs -> (length fs <= 2)%nat /\ Forall (fun f => 1 <= snd f) fs).
  { destruct (write_chunk room (offset, data)) as [[[[o d] n]|]|] eqn:E; intros H; inv H; cbn [length]; split; try lia; repeat constructor. apply chunk_pos in E. exact E. }
  destruct (slicing && _); [|exact WH]. destruct (find_sni data) as [[[s e]|]|]; [|exact WH|discriminate].
  repeat (dmatch; [discriminate|]).
  destruct (limit_chunks _ _ _) as [l r]. destruct (write_chunk room r) as [wr|] eqn:K1; [|discriminate].
  destruct (write_chunk _ l) as [wl|] eqn:K2; [|discriminate]. intros H. apply some_inj in H. subst fs.
  destruct wr as [[[o1 d1] n1]|], wl as [[[o2 d2] n2]|]; cbn [app length]; split; try lia; repeat constructor; try (apply chunk_pos in K1; exact K1); try (apply chunk_pos in K2; exact K2).
Qed.
Lemma turn_some slicing limit room offset data fs : 0 < limit -> data <> [] -> offset + lenN data < 2 ^ 62 -> room < 2 ^ 62 -> 11 <= room ->
  crypto_turn slicing limit room offset data = Some fs -> fs <> [] /\ (slicing = false -> exists b n, fs = [(offset, b, n)] /\ b <> []).
Proof.
  intros Hl Hd Ho Hr Hm. unfold crypto_turn.
  destruct (chunk_some room offset data ltac:(lia) Hr Hm) as (w & Ew).
  assert (B : exists b n, w = (offset, b, n) /\ b <> []).
  { destruct (write_chunk_spec room offset data ltac:(lia) Hr) as (w' & E' & X). rewrite Ew in E'. apply some_inj in E'. subst w'. destruct w as [[o b] n]. destruct X as (-> & _ & _ & _ & X). eauto. }
  rewrite Ew.
  assert (WH : Some [w] = Some fs -> fs <> [] /\ (slicing = false -> exists b n, fs = [(offset, b, n)] /\ b <> [])).
  { intros H. apply some_inj in H. subst fs. split; [discriminate|]. destruct B as (b & n & -> & B). eauto. }
  destruct (slicing && (offset =? 0)) eqn:Es; [|exact WH]. apply andb_prop in Es as [-> _].
  destruct (find_sni_in_bounds data) as [-> | (s & e & -> & Hse & He)]; [exact WH|]. clear WH.
  destruct (Nat.ltb _ _); [discriminate|]. replace (limit =? 0) with false by lia. destruct (Nat.eqb _ _); [discriminate|].
  match goal with |- context [limit_chunks ?a ?b ?c] => destruct (limit_chunks a b c) as [l r] eqn:LC end.
  assert (Hro : fst r < 2 ^ 62).
  { unfold limit_chunks in LC. unfold lenN in Ho. repeat (dmatch_in LC); apply pair_equal_spec in LC; destruct LC as [_ <-]; cbn [fst]; try rewrite ?skipn_length, ?firstn_length in *; lia. }
  destruct r as [ro rd]. cbn [fst] in Hro. destruct (chunk_some room ro rd Hro Hr Hm) as (wr & ->).
  destruct (write_chunk _ l) as [wl|]; [|discriminate]. intros H. apply some_inj in H. subst fs. split; [destruct wl; discriminate|discriminate].
Qed.

Definition inframes (fs : list (N * list N * N)) (y : N) : bool := existsb (fun f => coversb (fst (fst f)) (lenN (snd (fst f))) y) fs.
Definition frame_of (W : list N) (f : N * list N * N) : Prop :=
  fst (fst f) + lenN (snd (fst f)) <= lenN W /\ snd (fst f) = slice (fst (fst f)) (lenN (snd (fst f))) W.
(** No byte is in two frames. *)
Definition once (fs : list (N * list N * N)) : Prop :=
  ForallOrdPairs (fun f g => forall y, ~ (covers (fst (fst f)) (lenN (snd (fst f))) y /\ covers (fst (fst g)) (lenN (snd (fst g))) y)) fs.
Lemma sent_over_twice s : sent_over (sent_over s) = sent_over s.
Proof. destruct s as [[|]|]; reflexivity. Qed.

Lemma loop_spec W slicing limit sp : 0 < limit -> lenN W < 2 ^ 62 -> forall fuel room b, bok W b -> room < 2 ^ 62 -> (N.to_nat room < fuel)%nat ->
  exists b' fs, write_loop fuel slicing limit sp room b = Some (b', fs) /\ bok W b' /\
    (forall y, state_of (tb_rt b') y = if inframes fs y then sent_over (state_of (tb_rt b) y) else state_of (tb_rt b) y) /\
    Forall (frame_of W) fs /\ frames_size fs <= room /\ once fs /\
    (forall y, inframes fs y = true -> state_of (tb_rt b) y = None) /\
    (forall y, y < lenN W -> state_of (tb_rt b) y = None -> 11 <= room -> fs <> [] /\
       (slicing = false -> exists o d n r, fs = (o, d, n) :: r /\ d <> [] /\ o <= y /\ forall z, z < o -> state_of (tb_rt b) z <> None)).
Proof.
  intros Hlim HW. induction fuel as [|fuel IH]; intros room b B Hr Hf; [lia|]. cbn [write_loop].
  destruct (bok_next W b sp B) as (b1 & x & -> & B1 & S1 & X). destruct x as [[off data]|].
  2:{ exists b1, []. splits; auto; try constructor; try (cbn; lia); try discriminate.
      all: exfalso; eapply X; eassumption. }
  destruct X as (Low & len & Ed & L0 & L1 & Un).
  assert (Dl : lenN data = len) by (rewrite Ed; apply lenN_slice; lia).
  assert (Dn : data <> []) by (intros Z; rewrite Z, lenN_nil in Dl; lia).
  destruct (crypto_frames_right slicing limit room off data Hlim Dn) as (fs & Et & FR & FD & FS); [lia|exact Hr|].
  rewrite Et. destruct (turn_sizes _ _ _ _ _ _ Et) as (T1 & T2).
  assert (FO : Forall (fun f => frame_of W f /\ off <= fst (fst f) /\ fst (fst f) + lenN (snd (fst f)) <= off + len) fs).
  { eapply Forall_impl; [|exact FR]. intros [[o d] n] (R1 & R2 & R3). unfold frame_of. cbn [fst snd]. rewrite Dl in R2. splits; try lia.
    rewrite R3 at 1. rewrite Ed. replace (length d) with (N.to_nat (lenN d)) by (unfold lenN; lia). apply slice_sub; lia. }
  assert (Un' : forall y, inframes fs y = true -> state_of (tb_rt b) y = None).
  { intros y Hy. unfold inframes in Hy. apply existsb_exists in Hy as ([[o d] n] & Hi & Hc). rewrite Forall_forall in FO. destruct (FO _ Hi) as (_ & F2 & F3). cbn [fst snd] in *. apply Un. unfold coversb in Hc. lia. }
  assert (Prog : forall y, y < lenN W -> state_of (tb_rt b) y = None -> 11 <= room -> fs <> [] /\ (slicing = false -> exists d n, fs = [(off, d, n)] /\ d <> [] /\ off <= y)).
  { intros y H1 H2 H3. destruct (turn_some slicing limit room off data fs Hlim Dn ltac:(lia) Hr H3 Et) as (P1 & P2). split; [exact P1|].
    intros Hs. destruct (P2 Hs) as (d & n & P3 & P4). exists d, n. splits; auto. destruct (N.le_gt_cases off y) as [|Hg]; [assumption|]. destruct (Low y Hg H2). }
  destruct fs as [|[[o d] n] [|[[o2 d2] n2] [|]]]; [| | |cbn in T1; lia].
  - exists b1, []. splits; auto; try constructor; destruct (Prog y) as (P & _); auto; congruence.
  - apply Forall_cons_iff in FO as [(F1 & F2 & F3) _]. cbn [fst snd] in *. apply Forall_cons_iff in T2 as [T2 _]. cbn [snd] in T2.
    destruct F1 as [F1 F1']. cbn [fst snd] in F1, F1'. destruct (bok_sent W b1 o (lenN d) B1 F1) as (b2 & -> & B2 & S2).
    cbn [frames_size fold_right snd] in FS.
    destruct (IH (room - n) b2 B2 ltac:(lia) ltac:(lia)) as (b3 & fs & -> & B3 & S3 & G1 & G2 & G3 & G4 & G5).
    exists b3, ((o, d, n) :: fs). splits; auto.
    + intros y. rewrite S3, S2, S1. cbn [inframes existsb fst snd]. fold (inframes fs y). destruct (coversb o (lenN d) y), (inframes fs y); cbn [orb]; rewrite ?sent_over_twice; reflexivity.
    + constructor; [split; [exact F1|exact F1']|exact G1].
    + cbn [frames_size fold_right snd]. fold (frames_size fs). lia.
    + constructor; [|exact G3]. apply Forall_forall. intros [[o' d'] n'] Hi. cbn [fst snd].
      intros y [Y1 Y2]. assert (I1 : inframes fs y = true).
      { apply existsb_exists. exists (o', d', n'). split; [exact Hi|]. cbn [fst snd]. unfold coversb, covers in *. lia. }
      apply G4 in I1. rewrite S2 in I1. unfold coversb in I1. unfold covers in Y1. replace ((o <=? y) && (y <? o + lenN d)) with true in I1 by lia.
      destruct (state_of (tb_rt b1) y) as [[|]|]; discriminate.
    + intros y Hy. cbn [inframes existsb fst snd] in Hy. fold (inframes fs y) in Hy. apply orb_prop in Hy as [Hy|Hy].
      * apply Un'. cbn [inframes existsb fst snd]. rewrite Hy. reflexivity.
      * apply G4 in Hy. rewrite S2 in Hy. destruct (coversb o (lenN d) y) eqn:Ec; [|rewrite S1 in Hy; exact Hy]. apply Un'. cbn [inframes existsb fst snd]. rewrite Ec. reflexivity.
    + intros y H H0 H1. split; [discriminate|]. intros Hs. destruct (Prog y H H0 H1) as (_ & P). destruct (P Hs) as (d9 & n9 & P1 & P2 & P3). inv P1. exists off, d9, n9, fs. splits; auto.
  - pose proof FO as FO'. apply Forall_cons_iff in FO as [((F1 & F1') & F2 & F3) FO]. apply Forall_cons_iff in FO as [((G1 & G1') & G2 & G3) _]. cbn [fst snd] in *.
    destruct (bok_sent W b1 o (lenN d) B1 F1) as (b2 & -> & B2 & S2). destruct (bok_sent W b2 o2 (lenN d2) B2 G1) as (b3 & -> & B3 & S3).
    exists b3, [(o, d, n); (o2, d2, n2)]. splits; auto.
    + intros y. rewrite S3, S2, S1. cbn [inframes existsb fst snd]. destruct (coversb o (lenN d) y), (coversb o2 (lenN d2) y); cbn [orb]; rewrite ?sent_over_twice; reflexivity.
    + eapply Forall_impl; [|exact FO']. cbn. tauto.
    + inversion FD as [|? ? Fd _]; subst. apply Forall_cons_iff in Fd as [Fd _]. cbn [fst snd] in Fd. constructor; [|constructor; [constructor|constructor]].
      constructor; [|constructor]. cbn [fst snd]. unfold covers. intros y. lia.
    + intros y H H0 H1. split; [discriminate|]. intros Hs. destruct (Prog y H H0 H1) as (_ & P). destruct (P Hs) as (d9 & n9 & P1 & _). discriminate.
Qed.

(** * Histories *)
Lemma acked_app sp h e y : k_acked sp (h ++ [e]) y <-> k_acked sp h y \/ k_acked sp [e] y.
Proof.
  unfold k_acked. split.
  - intros (o & l & I & C). apply in_app_or in I as [I|I]; [left|right]; eauto.
  - intros [(o & l & I & C)|(o & l & I & C)]; exists o, l; split; auto; apply in_or_app; auto.
Qed.
Lemma flight_keep sp h e y : k_flight sp h y -> ~ loses sp y e -> k_flight sp (h ++ [e]) y.
Proof.
  intros (h1 & x & h2 & -> & W & L) N. exists h1, x, (h2 ++ [e]). splits; [rewrite <- app_assoc; reflexivity|exact W|].
  intros e' I. apply in_app_or in I as [I|[<-|[]]]; auto.
Qed.
Lemma flight_new sp h e y : writes sp y e -> k_flight sp (h ++ [e]) y.
Proof. intros W. exists h, e, []. splits; auto. Qed.
Lemma supplied_app sp h e : supplied sp (h ++ [e]) = supplied sp h ++ supplied sp [e].
Proof. unfold supplied. apply flat_map_app. Qed.
Lemma got_app sp h e : got sp (h ++ [e]) = got sp h ++ got sp [e].
Proof. unfold got. apply flat_map_app. Qed.
Lemma accepted_app sp h e : accepted sp (h ++ [e]) = accepted sp h ++ accepted sp [e].
Proof. unfold accepted. apply flat_map_app. Qed.
Lemma handed_app sp h e : handed sp (h ++ [e]) = handed sp h ++ handed sp [e].
Proof. unfold handed. apply flat_map_app. Qed.

Record sinv (sp : space) (h : khist) (x : cstream) : Prop := {
  si_rx : rinv (accepted sp h) (got sp h) (handed sp h) (cs_rx x);
  si_tx : bok (supplied sp h) (cs_tx x);
  si_max : lenN (supplied sp h) <= MAX_SIZE;
  si_acked : forall y, state_of (tb_rt (cs_tx x)) y = Some true <-> k_acked sp h y;
  si_flight : forall y, state_of (tb_rt (cs_tx x)) y = Some false -> k_flight sp h y;
  si_wrote : forall sl lim room spl fs, In (KWrite sp sl lim room spl, OFrames fs) h -> Forall (frame_of (supplied sp h)) fs }.

Lemma rinv_new : rinv [] [] [] rx_new.
Proof. split; [exists []; splits; [apply hist_new|auto|auto]|unfold counted; cbn; lia|cbn; lia]. Qed.
Lemma sinv_new sp : sinv sp [] cs_new.
Proof.
  split; cbn.
  - apply rinv_new.
  - unfold bok, tb_new, tb_retired. cbn [tb_rt tb_buf rt_new rt_acked]. splits; [apply new_wf|reflexivity|apply N.le_0_l|].
    intros x _. rewrite state_at. cbn. replace (x <? 0) with false by lia. reflexivity.
  - unfold MAX_SIZE. lia.
  - intros y. rewrite state_at. cbn. replace (y <? 0) with false by lia. split; [discriminate|]. intros (o & l & [] & _).
  - intros y. rewrite state_at. cbn. replace (y <? 0) with false by lia. discriminate.
  - intros ? ? ? ? ? [].
Qed.
Lemma max_small : MAX_SIZE < 2 ^ 62. Proof. unfold MAX_SIZE, MAX_LOCAL_MAX_STREAM_DATA. reflexivity. Qed.

(** An entry of another space, or one that changes neither side. *)
Definition neutral (sp : space) (e : kop * kout) : Prop :=
  supplied sp [e] = [] /\ got sp [e] = [] /\ accepted sp [e] = [] /\ handed sp [e] = [] /\ (forall y, ~ k_acked sp [e] y) /\ (forall y, ~ loses sp y e) /\
  (forall sl lim room spl fs, e <> (KWrite sp sl lim room spl, OFrames fs)).
Lemma sinv_neutral sp h e x : neutral sp e -> sinv sp h x -> sinv sp (h ++ [e]) x.
Proof.
  intros (N1 & N2 & N3 & N4 & N5 & N6 & N7) [A B C D E F].
  split; rewrite ?supplied_app, ?got_app, ?accepted_app, ?handed_app, ?N1, ?N2, ?N3, ?N4, ?app_nil_r; auto.
  - intros y. rewrite acked_app. specialize (N5 y). rewrite D. tauto.
  - intros y Hy. apply flight_keep; auto.
  - intros sl lim room spl fs I. apply in_app_or in I as [I|[I|[]]]; [eauto|]. destruct (N7 _ _ _ _ _ I).
Qed.
Lemma frame_of_app W W' f : frame_of W f -> frame_of (W ++ W') f.
Proof. intros [A B]. split; [rewrite lenN_app; lia|]. rewrite slice_app by exact A. exact B. Qed.
Lemma bok_states W b b' : bok W b -> tb_buf b' = tb_buf b -> rt_wf (tb_rt b') -> tb_retired b' = tb_retired b -> (forall y, lenN W <= y -> state_of (tb_rt b') y = None) -> bok W b'.
Proof. intros (A & B & C & D) E1 E2 E3 E4. unfold bok. rewrite E1, E3. splits; auto. Qed.

(** One call on the stream of its space. *)
Lemma local_ok sp h x o : sinv sp h x -> k_space o = sp -> k_fair h o -> (forall s, o <> KDiscard s) ->
  exists x' out, k_local o x = Some (x', out) /\ sinv sp (h ++ [(o, out)]) x'.
Proof.
  intros V Es Fair Nd. pose proof max_small as MS. destruct o as [s d|s off d|s|s|s off len|s off len|s|s|s sl lim room spl|s]; cbn [k_space k_local k_fair] in *; subst s.
  - (* send *)
    destruct V as [A B C D E F]. eexists _, _. split; [reflexivity|].
    pose proof (bok_buffered _ _ B) as HB. destruct B as (B1 & B2 & B3 & B4).
    assert (Ef : fst (tb_send d (cs_tx x)) = mkTb (tb_buf (cs_tx x) ++ d) (tb_rt (cs_tx x))).
    { unfold tb_send. cbn [fst]. f_equal. f_equal. rewrite SsProofs.firstnN_all; [reflexivity|]. lia. }
    rewrite Ef.
    split; rewrite ?supplied_app, ?got_app, ?accepted_app, ?handed_app; cbn [supplied got accepted handed flat_map app]; rewrite ?space_eqb_refl, ?app_nil_r; cbn [with_tx cs_rx cs_tx tb_rt]; auto.
    + unfold bok, tb_retired in *. cbn [tb_rt tb_buf]. splits; auto.
      * rewrite skipnN_app_le by exact B3. rewrite B2 at 1. reflexivity.
      * rewrite lenN_app. lia.
      * intros y Hy. rewrite lenN_app in Hy. apply B4. lia.
    + rewrite lenN_app. lia.
    + intros y. rewrite acked_app, D. split; [auto|]. intros [X|(o & l & [X|[]] & _)]; [exact X|discriminate].
    + intros y Hy. apply flight_keep; [auto|]. unfold loses. cbn. tauto.
    + intros sl lim room spl fs I. apply in_app_or in I as [I|[I|[]]]; [|discriminate]. eapply Forall_impl; [|eapply F; exact I]. intros f. apply frame_of_app.
  - (* frame *)
    destruct V as [A B C D E F]. destruct (rinv_frame _ _ _ _ off d A Fair) as (r' & e & -> & A' & _).
    eexists _, _. split; [reflexivity|].
    split; rewrite ?supplied_app, ?got_app, ?accepted_app, ?handed_app; cbn [supplied got accepted handed flat_map app]; rewrite ?space_eqb_refl, ?app_nil_r; cbn [with_rx cs_rx cs_tx tb_rt]; auto.
    + destruct e; cbn [app]; rewrite ?app_nil_r; exact A'.
    + intros y. rewrite acked_app, D. split; [auto|]. intros [X|(o & l & [X|[]] & _)]; [exact X|discriminate].
    + intros y Hy. apply flight_keep; [auto|]. unfold loses. cbn. tauto.
    + intros sl lim room spl fs I. apply in_app_or in I as [I|[I|[]]]; [eauto|discriminate].
  - (* ready *)
    eexists _, _. split; [reflexivity|]. apply sinv_neutral; [|exact V]. unfold neutral. splits; auto; try (intros y (o & l & [X|[]] & _); discriminate); try discriminate; unfold loses; cbn; tauto.
  - (* read *)
    destruct V as [A B C D E F]. destruct (rinv_read _ _ _ _ A) as (r' & l & -> & A' & _).
    eexists _, _. split; [reflexivity|].
    split; rewrite ?supplied_app, ?got_app, ?accepted_app, ?handed_app; cbn [supplied got accepted handed flat_map app]; rewrite ?space_eqb_refl, ?app_nil_r; cbn [with_rx cs_rx cs_tx tb_rt]; auto.
    + intros y. rewrite acked_app, D. split; [auto|]. intros [X|(o & l0 & [X|[]] & _)]; [exact X|discriminate].
    + intros y Hy. apply flight_keep; [auto|]. unfold loses. cbn. tauto.
    + intros sl lim room spl fs I. apply in_app_or in I as [I|[I|[]]]; [eauto|discriminate].
  - (* acked *)
    destruct V as [A B C D E F]. destruct Fair as (sl & lim & room & spl & fs & d & n & I1 & I2 & ->).
    assert (Hb : off + lenN d <= lenN (supplied sp h)). { specialize (F _ _ _ _ _ I1). rewrite Forall_forall in F. apply (F _ I2). }
    destruct (bok_acked _ _ off (lenN d) B Hb) as (b' & -> & B' & S').
    eexists _, _. split; [reflexivity|].
    split; rewrite ?supplied_app, ?got_app, ?accepted_app, ?handed_app; cbn [supplied got accepted handed flat_map app]; rewrite ?space_eqb_refl, ?app_nil_r; cbn [with_tx cs_rx cs_tx tb_rt]; auto.
    + intros y. rewrite S', acked_app. unfold coversb. destruct ((off <=? y) && (y <? off + lenN d)) eqn:Ec.
      * split; [|reflexivity]. intros _. right. exists off, (lenN d). split; [now left|]. unfold covers. lia.
      * rewrite D. split; [auto|]. intros [X|(o & l & [X|[]] & Cv)]; [exact X|]. inv X. unfold covers in Cv. lia.
    + intros y. rewrite S'. destruct (coversb _ _ y); [discriminate|]. intros Hy. apply flight_keep; [auto|]. unfold loses. cbn. tauto.
    + intros ? ? ? ? ? I. apply in_app_or in I as [I|[I|[]]]; [eauto|discriminate].
  - (* lost *)
    destruct V as [A B C D E F]. destruct Fair as (sl & lim & room & spl & fs & d & n & I1 & I2 & ->).
    assert (Hb : off + lenN d <= lenN (supplied sp h)). { specialize (F _ _ _ _ _ I1). rewrite Forall_forall in F. apply (F _ I2). }
    destruct (bok_lost _ _ off (lenN d) B Hb) as (b' & -> & B' & S').
    eexists _, _. split; [reflexivity|].
    split; rewrite ?supplied_app, ?got_app, ?accepted_app, ?handed_app; cbn [supplied got accepted handed flat_map app]; rewrite ?space_eqb_refl, ?app_nil_r; cbn [with_tx cs_rx cs_tx tb_rt]; auto.
    + intros y. rewrite (proj1 (S' y)), acked_app, D. split; [auto|]. intros [X|(o & l & [X|[]] & _)]; [exact X|discriminate].
    + intros y Hy. apply (proj2 (S' y)) in Hy as [Hy Hn]. apply flight_keep; [auto|]. unfold loses. cbn. tauto.
    + intros ? ? ? ? ? I. apply in_app_or in I as [I|[I|[]]]; [eauto|discriminate].
  - (* resend *)
    assert (Q : sp = SpApp \/ sp <> SpApp) by (destruct sp; [right|right|left]; congruence). destruct Q as [->|Q].
    + eexists _, _. split; [reflexivity|]. apply sinv_neutral; [|exact V]. unfold neutral. splits; auto; try (intros y (o & l & [X|[]] & _); discriminate); try discriminate; unfold loses; cbn; tauto.
    + destruct V as [A B C D E F]. destruct (unmark_sent_spec _ (proj1 B)) as (t' & Et & Hw & Ha & Hs).
      exists (with_tx (mkTb (tb_buf (cs_tx x)) t') x), OOk. split; [rewrite Et; destruct sp; congruence|].
      split; rewrite ?supplied_app, ?got_app, ?accepted_app, ?handed_app; cbn [supplied got accepted handed flat_map app]; rewrite ?space_eqb_refl, ?app_nil_r; cbn [with_tx cs_rx cs_tx tb_rt]; auto.
      * eapply bok_states; [exact B|reflexivity|exact Hw|exact Ha|]. cbn [tb_rt]. intros y Hy. rewrite Hs. rewrite (proj2 (proj2 (proj2 B)) y Hy). reflexivity.
      * intros y. rewrite Hs, acked_app, <- D. split; [intros X; left; destruct (state_of _ y) as [[|]|]; auto; discriminate|].
        intros [X|(o & l & [X|[]] & _)]; [rewrite X; reflexivity|discriminate].
      * intros y. rewrite Hs. destruct (state_of _ y) as [[|]|]; discriminate.
      * intros ? ? ? ? ? I. apply in_app_or in I as [I|[I|[]]]; [eauto|discriminate].
  - (* is_empty *)
    destruct V as [A B C D E F]. unfold tb_has. pose proof (bok_first _ _ B) as X. destruct (tb_first (cs_tx x)) as [b' r]. destruct X as (B' & S' & _).
    eexists _, _. split; [reflexivity|].
    split; rewrite ?supplied_app, ?got_app, ?accepted_app, ?handed_app; cbn [supplied got accepted handed flat_map app]; rewrite ?space_eqb_refl, ?app_nil_r; cbn [with_tx cs_rx cs_tx tb_rt]; auto.
    + intros y. rewrite S', acked_app, D. split; [auto|]. intros [X|(o & l & [X|[]] & _)]; [exact X|discriminate].
    + intros y Hy. rewrite S' in Hy. apply flight_keep; [auto|]. unfold loses. cbn. tauto.
    + intros ? ? ? ? ? I. apply in_app_or in I as [I|[I|[]]]; [eauto|discriminate].
  - (* write *)
    destruct V as [A B C D E F]. destruct Fair as [Fl Fr].
    destruct (loop_spec (supplied sp h) sl lim spl Fl ltac:(lia) (S (N.to_nat room)) room (cs_tx x) B Fr ltac:(lia)) as (b' & fs & Ew & B' & S' & G1 & G2 & G3 & G4 & _).
    rewrite Ew. eexists _, _. split; [reflexivity|].
    split; rewrite ?supplied_app, ?got_app, ?accepted_app, ?handed_app; cbn [supplied got accepted handed flat_map app]; rewrite ?space_eqb_refl, ?app_nil_r; cbn [with_tx cs_rx cs_tx tb_rt]; auto.
    + intros y. rewrite S', acked_app, <- D. destruct (inframes fs y) eqn:Ei.
      * rewrite (G4 _ Ei). split; [discriminate|]. intros [X|(o & l & [X|[]] & _)]; discriminate.
      * split; [auto|]. intros [X|(o & l & [X|[]] & _)]; [exact X|discriminate].
    + intros y. rewrite S'. destruct (inframes fs y) eqn:Ei.
      * intros _. apply flight_new. cbn. split; [reflexivity|]. apply existsb_exists in Ei as ([[o d] n] & I & Cv). exists o, d, n. split; [exact I|]. unfold coversb in Cv. cbn in Cv. unfold covers. lia.
      * intros Hy. apply flight_keep; [auto|]. unfold loses. cbn. tauto.
    + intros ? ? ? ? ? I. apply in_app_or in I as [I|[I|[]]]; [eauto|]. inv I. exact G1.
  - destruct (Nd sp eq_refl).
Qed.

(** * All spaces *)
Lemma get_put_same sp x x0 c : c_get sp c = Some x0 -> c_get sp (c_put sp x c) = Some x.
Proof. destruct c, sp; cbn; try discriminate; reflexivity. Qed.
Lemma get_put_other sp sp' x c : sp' <> sp -> c_get sp' (c_put sp x c) = c_get sp' c.
Proof. destruct c, sp, sp'; cbn; congruence. Qed.
Lemma discard_get sp sp' c c' : c_discard sp c = Some c' -> c_get sp' c' = if space_eqb sp' sp then None else c_get sp' c.
Proof. destruct sp, c; cbn; intros H; inv H; destruct sp'; reflexivity. Qed.
Definition cinv (h : khist) (c : cstreams) : Prop := forall sp x, c_get sp c = Some x -> sinv sp h x.
Lemma neutral_other sp e : k_space (fst e) <> sp -> neutral sp e.
Proof.
  intros H. destruct e as [o out]. cbn [fst] in H.
  assert (Q : space_eqb (k_space o) sp = false) by (destruct (space_eqb (k_space o) sp) eqn:Q; [apply space_eqb_eq in Q; congruence|reflexivity]).
  destruct o; cbn [k_space] in *; unfold neutral; cbn [supplied got accepted handed flat_map]; rewrite ?Q;
    splits; try reflexivity; try (destruct out; reflexivity); try (intros y (o' & l' & [X|[]] & _); congruence); try congruence; unfold loses; cbn; intuition congruence.
Qed.
Lemma neutral_discard sp s out : neutral sp (KDiscard s, out).
Proof. unfold neutral. splits; try reflexivity; try (intros y (o' & l' & [X|[]] & _); discriminate); try discriminate; unfold loses; cbn; tauto. Qed.
Lemma step_cinv h c o : cinv h c -> k_fair h o -> discard_ok c o -> exists c' out, k_step c o = Some (c', out) /\ cinv (h ++ [(o, out)]) c'.
Proof.
  intros V Fr Dk.
  assert (Q : (exists s, o = KDiscard s) \/ forall s, o <> KDiscard s) by (destruct o; eauto; right; discriminate). destruct Q as [[s ->]|Nd].
  - cbn [k_step]. assert (exists c', c_discard s c = Some c') as [c' Ec].
    { destruct s, c; cbn in *; try (eexists; reflexivity); try tauto; discriminate. }
    rewrite Ec. eexists c', _. split; [reflexivity|]. intros sp x G. rewrite (discard_get _ _ _ _ Ec) in G. destruct (space_eqb sp s); [discriminate|].
    apply sinv_neutral; [apply neutral_discard|]. apply V. exact G.
  - assert (E : k_step c o = match c_get (k_space o) c with None => Some (c, k_gone o) | Some x => match k_local o x with None => None | Some (x', out) => Some (c_put (k_space o) x' c, out) end end) by (destruct o; try reflexivity; destruct (Nd sp eq_refl)).
    rewrite E. destruct (c_get (k_space o) c) as [x|] eqn:G.
    + destruct (local_ok (k_space o) h x o (V _ _ G) eq_refl Fr Nd) as (x' & out & -> & V'). eexists _, _. split; [reflexivity|].
      intros sp y Gy. destruct (space_eqb sp (k_space o)) eqn:Q.
      * apply space_eqb_eq in Q. subst sp. rewrite (get_put_same _ _ _ _ G) in Gy. apply some_inj in Gy. subst y. exact V'.
      * assert (sp <> k_space o) by (intros ->; rewrite space_eqb_refl in Q; discriminate). rewrite get_put_other in Gy by assumption.
        apply sinv_neutral; [apply neutral_other; cbn; congruence|]. apply V. exact Gy.
    + eexists _, _. split; [reflexivity|]. intros sp y Gy. apply sinv_neutral; [apply neutral_other; cbn; congruence|]. apply V. exact Gy.
Qed.
Lemma run_cinv ops : forall h0 c c' h, cinv h0 c -> k_run c ops = Some (c', h) -> (forall h1 e h2, h = h1 ++ e :: h2 -> k_fair (h0 ++ h1) (fst e)) -> cinv (h0 ++ h) c'.
Proof.
  induction ops as [|o ops IH]; intros h0 c c' h V R Fr; cbn [k_run] in R.
  - inv R. rewrite app_nil_r. exact V.
  - destruct (k_step c o) as [[c1 out]|] eqn:St; [|discriminate]. destruct (k_run c1 ops) as [[c2 h2]|] eqn:R2; [|discriminate]. inv R.
    assert (F0 : k_fair h0 o) by (specialize (Fr [] (o, out) h2 eq_refl); rewrite app_nil_r in Fr; exact Fr).
    assert (Dk : discard_ok c o) by (destruct o; cbn; auto; cbn in St; destruct sp, c; cbn in *; try discriminate; auto).
    destruct (step_cinv h0 c o V F0 Dk) as (c1' & out' & St' & V1). rewrite St in St'. inv St'.
    replace (h0 ++ (o, out') :: h2) with ((h0 ++ [(o, out')]) ++ h2) by (rewrite <- app_assoc; reflexivity).
    eapply IH; eauto. intros h1 e h3 ->. rewrite <- app_assoc. apply (Fr ((o, out') :: h1) e h3). reflexivity.
Qed.
Lemma reach_cinv ops c h : k_run cstreams_new ops = Some (c, h) -> fair h -> cinv h c.
Proof.
  intros R Fr. apply (run_cinv ops [] cstreams_new c h); [|exact R|exact Fr].
  intros sp x G. replace x with cs_new by (destruct sp; cbn in G; congruence). apply sinv_new.
Qed.
