From Coq Require Import Sorted.
From Verif Require Import Base Lib CodecModel FcModel FcSpec.

(** * Sender *)
Definition b2n (b : bool) : nat := if b then 1%nat else 0%nat.
Definition ge_blocked (l : N) (s : sfc) : bool := match sf_blocked_at s with Some b => l <=? b | None => false end.
Definition pend_at (l : N) (s : sfc) : bool := match sf_blocked_at s with Some b => sf_frame s && (b =? l) | None => false end.
Definition optl (f : option N) : list N := match f with Some l => [l] | None => [] end.

Lemma sstep_spec s o s' f : sstep s o = Some (s', f) ->
  sf_used s <= sf_limit s -> (forall b, sf_blocked_at s = Some b -> b <= sf_limit s) ->
  sf_used s' = (match o with SConsume n => n + sf_used s | _ => sf_used s end) /\
  sf_limit s' = (match o with SUpdate x => N.max (sf_limit s) x | _ => sf_limit s end) /\
  sf_used s' <= sf_limit s' /\ (forall b, sf_blocked_at s' = Some b -> b <= sf_limit s') /\
  (forall l, f = Some l -> l = sf_limit s /\ exists fits, o = SWrite fits) /\
  (forall l c lo, (c + b2n (pend_at l s) <= b2n (ge_blocked l s) + lo)%nat ->
     (c + count_occ N.eq_dec (optl f) l + b2n (pend_at l s') <=
      b2n (ge_blocked l s') + (lo + match o with SLost x => b2n (N.eqb x l) | _ => O end))%nat).
Proof.
  intros H Hu Hb. destruct s as [lim used bat fr]. cbn [sf_used sf_limit sf_blocked_at] in *.
  destruct o as [x|n| |fits|x]; cbn [sstep] in H.
  - injection H as <- <-. unfold sfc_update. cbn [sf_limit]. destruct (N.ltb_spec lim x); cbn [fst]; cbn [sf_used sf_limit sf_blocked_at sf_frame optl count_occ].
    + splits; try lia; try discriminate; auto.
      * intros b Hb'. apply Hb in Hb'. lia.
      * intros l c lo. unfold pend_at, ge_blocked. cbn [sf_blocked_at sf_frame andb]. destruct bat; cbn [b2n]; lia.
    + splits; try lia; try discriminate; auto; try (intros; lia).
  - unfold sfc_consume in H. cbn [sf_used sf_limit] in H. destruct (N.leb_spec (used + n) lim); [|discriminate]. injection H as <- <-.
    cbn [sf_used sf_limit sf_blocked_at sf_frame optl count_occ]. splits; try lia; try discriminate; auto.
    intros l c lo. unfold pend_at, ge_blocked. cbn [sf_blocked_at sf_frame]. lia.
  - injection H as <- <-. unfold sfc_blocked. cbn [sf_blocked_at sf_limit sf_used].
    assert (Hset : let s' := mkS lim used (Some lim) true in
      (forall b, bat = Some b -> b < lim) -> sf_used s' = used /\ sf_limit s' = lim /\ sf_used s' <= sf_limit s' /\
      (forall b, sf_blocked_at s' = Some b -> b <= sf_limit s') /\
      (forall l, @None N = Some l -> l = lim /\ exists fits, SBlocked = SWrite fits) /\
      (forall l c lo, (c + b2n (pend_at l (mkS lim used bat fr)) <= b2n (ge_blocked l (mkS lim used bat fr)) + lo)%nat ->
       (c + count_occ N.eq_dec (optl None) l + b2n (pend_at l s') <= b2n (ge_blocked l s') + (lo + 0))%nat)).
    { intros s' Hlt. cbn [s' sf_used sf_limit sf_blocked_at]. splits; auto; try lia; try discriminate.
      - intros b E. injection E as <-. lia.
      - intros l c lo Hc. unfold pend_at, ge_blocked in *. cbn [s' sf_used sf_limit sf_blocked_at sf_frame optl count_occ andb] in *.
        destruct bat as [b|].
        + specialize (Hlt b eq_refl). destruct (N.eqb_spec lim l), (N.leb_spec l lim), (N.leb_spec l b), fr, (N.eqb_spec b l); cbn [b2n andb] in *; lia.
        + destruct (N.eqb_spec lim l), (N.leb_spec l lim); cbn [b2n] in *; lia. }
    destruct bat as [b|]; [destruct (N.leb_spec lim b)|].
    + cbn [sf_used sf_limit sf_blocked_at optl count_occ]. splits; auto; try discriminate. intros; lia.
    + apply Hset. intros ? E; injection E as <-; assumption.
    + apply Hset. discriminate.
  - injection H as H1. unfold sfc_write, sfc_blocked_needed in H1. cbn [sf_blocked_at sf_limit sf_used sf_frame] in H1.
    assert (Hno : (s', f) = (mkS lim used bat fr, None) -> sf_used s' = used /\ sf_limit s' = lim /\ sf_used s' <= sf_limit s' /\
       (forall b, sf_blocked_at s' = Some b -> b <= sf_limit s') /\
       (forall l, f = Some l -> l = lim /\ exists g, SWrite fits = SWrite g) /\
       (forall l c lo, (c + b2n (pend_at l (mkS lim used bat fr)) <= b2n (ge_blocked l (mkS lim used bat fr)) + lo)%nat ->
        (c + count_occ N.eq_dec (optl f) l + b2n (pend_at l s') <= b2n (ge_blocked l s') + (lo + 0))%nat)).
    { intros E. injection E as -> ->. cbn [sf_used sf_limit sf_blocked_at optl count_occ]. splits; auto; try discriminate. intros; lia. }
    destruct bat as [b|]; [|apply Hno; auto].
    destruct (fr && (lim <=? b)) eqn:E; [|apply Hno; auto].
    destruct fits; [|apply Hno; auto].
    apply andb_prop in E as [-> E]. apply N.leb_le in E. injection H1 as <- <-. specialize (Hb b eq_refl).
    cbn [sfc_sent sf_used sf_limit sf_blocked_at]. splits; auto.
    + intros b' E'. injection E' as <-. assumption.
    + intros l E'. injection E' as <-. split; [lia|eauto].
    + intros l c lo Hc. unfold pend_at, ge_blocked in *. cbn [sfc_sent sf_blocked_at sf_frame andb optl count_occ] in *.
      destruct (N.eq_dec b l); [subst; rewrite N.eqb_refl in *|destruct (N.eqb_spec b l); [congruence|]]; cbn [b2n] in *; lia.
  - injection H as <- <-. unfold sfc_lost. cbn [sf_blocked_at sf_limit sf_used].
    destruct bat as [b|]; [destruct (N.eqb_spec b x)|]; cbn [sf_used sf_limit sf_blocked_at optl count_occ]; splits; auto; try discriminate;
      intros l c lo Hc; unfold pend_at, ge_blocked in *; cbn [sf_blocked_at sf_frame andb] in *; try lia.
    subst x. destruct (N.eqb_spec b l); destruct fr; cbn [b2n andb] in *; lia.
Qed.

Lemma sruns_spec ops : forall s s' fs, sruns s ops = Some (s', fs) ->
  sf_used s <= sf_limit s -> (forall b, sf_blocked_at s = Some b -> b <= sf_limit s) ->
  sf_used s' = sf_used s + s_used ops /\ sf_limit s' = s_limit (sf_limit s) ops /\
  sf_used s' <= sf_limit s' /\ (forall b, sf_blocked_at s' = Some b -> b <= sf_limit s') /\
  Forall (fun l => l <= sf_limit s') fs /\ sf_limit s <= sf_limit s' /\
  (forall l c lo, (c + b2n (pend_at l s) <= b2n (ge_blocked l s) + lo)%nat ->
    (c + count_occ N.eq_dec fs l <= 1 + (lo + s_lost l ops))%nat).
Proof.
  induction ops as [|o ops IH]; intros s s' fs H Hu Hb; cbn [sruns] in H.
  - injection H as <- <-. cbn [s_used s_limit s_lost count_occ]. rewrite N.add_0_r. splits; auto; try lia.
    intros l c lo Hc. unfold ge_blocked, b2n in Hc. destruct (sf_blocked_at s) as [b|]; [destruct (l <=? b)|]; lia.
  - destruct (sstep s o) as [[s1 f]|] eqn:E; [|discriminate]. destruct (sruns s1 ops) as [[s2 fs2]|] eqn:E2; [|discriminate].
    injection H as <- <-. destruct (sstep_spec _ _ _ _ E Hu Hb) as (A1 & A2 & A3 & A4 & A5 & A6).
    destruct (IH _ _ _ E2 A3 A4) as (B1 & B2 & B3 & B4 & B5 & B6 & B7).
    assert (Hm : sf_limit s <= sf_limit s1) by (rewrite A2; destruct o; lia).
    splits; auto; try lia.
    + rewrite B1, A1. destruct o; cbn [s_used]; lia.
    + rewrite B2, A2. destruct o; reflexivity.
    + destruct f as [l|]; cbn [app]; [constructor; [|assumption]|assumption]. destruct (A5 l eq_refl) as [-> _]. lia.
    + intros l c lo Hc. apply A6 in Hc. apply B7 in Hc. change (match f with Some l0 => [l0] | None => [] end) with (optl f).
      rewrite count_occ_app. destruct o; cbn [s_lost]; try lia. unfold b2n in Hc. destruct (l0 =? l); lia.
Qed.

Lemma sender_lemma init ops s fs : sruns (sfc_new init) ops = Some (s, fs) ->
  sf_used s = s_used ops /\ sf_limit s = s_limit init ops /\ s_used ops <= s_limit init ops /\
  forall l, (count_occ N.eq_dec fs l <= 1 + s_lost l ops)%nat.
Proof.
  intros H. destruct (sruns_spec _ _ _ _ H) as (B1 & B2 & B3 & B4 & B5 & B6 & B7); cbn; try lia; try discriminate.
  cbn [sfc_new sf_used sf_limit] in *. rewrite N.add_0_l in B1. splits; auto; [lia|].
  intros l. specialize (B7 l 0%nat 0%nat). cbn in B7. apply B7. lia.
Qed.

Lemma sender_frame_lemma init ops s fs fits s' l : sruns (sfc_new init) ops = Some (s, fs) ->
  sstep s (SWrite fits) = Some (s', Some l) -> l = s_limit init ops /\ fits = true.
Proof.
  intros H W. destruct (sruns_spec _ _ _ _ H) as (B1 & B2 & B3 & B4 & _); cbn; try lia; try discriminate.
  destruct (sstep_spec _ _ _ _ W B3 B4) as (_ & _ & _ & _ & A5 & _). destruct (A5 l eq_refl) as [-> _]. split; [exact B2|].
  cbn [sstep] in W. unfold sfc_write in W. destruct (sfc_blocked_needed s); [|discriminate]. destruct fits; [reflexivity|discriminate].
Qed.

Lemma sender_no_panic ops : forall s, (forall n, In (SConsume n) ops -> False) -> sruns s ops <> None.
Proof.
  induction ops as [|o ops IH]; intros s H; cbn [sruns]; [discriminate|].
  assert (exists r, sstep s o = Some r) as [[s' f] ->].
  { destruct o; cbn [sstep]; eauto. exfalso. eapply H. left. reflexivity. }
  specialize (IH s' ltac:(intros n Hn; apply (H n); right; exact Hn)). destruct (sruns s' ops) as [[? ?]|]; congruence.
Qed.

Lemma sender_consume_iff init ops s fs n : sruns (sfc_new init) ops = Some (s, fs) ->
  (sstep s (SConsume n) <> None <-> s_used ops + n <= s_limit init ops).
Proof.
  intros H. destruct (sender_lemma _ _ _ _ H) as (A & B & _). cbn [sstep]. unfold sfc_consume. rewrite A, B.
  destruct (N.leb_spec (s_used ops + n) (s_limit init ops)); split; try congruence; try lia; discriminate.
Qed.

(** A sender that reports being blocked at a new limit sends the frame at the next chance. *)
Lemma sender_blocked_sent_lemma init ops s fs : sruns (sfc_new init) ops = Some (s, fs) ->
  ~ In (s_limit init ops) fs -> exists s1 s2, sstep s SBlocked = Some (s1, None) /\ sstep s1 (SWrite true) = Some (s2, Some (s_limit init ops)).
Proof.
  intros H Hin.
  assert (P : forall ops s s' fs, sruns s ops = Some (s', fs) ->
    (forall b, sf_blocked_at s = Some b -> b <= sf_limit s) -> sf_used s <= sf_limit s ->
    (sf_blocked_at s = Some (sf_limit s') -> sf_frame s = true \/ In (sf_limit s') fs) ->
    sf_blocked_at s' = Some (sf_limit s') -> sf_frame s' = true \/ In (sf_limit s') fs).
  { clear. induction ops as [|o ops IH]; intros s s' fs H Hb Hu Hs Hs'; cbn [sruns] in H.
    - injection H as <- <-. auto.
    - destruct (sstep s o) as [[s1 f]|] eqn:E; [|discriminate]. destruct (sruns s1 ops) as [[s2 fs2]|] eqn:E2; [|discriminate].
      injection H as <- <-. destruct (sstep_spec _ _ _ _ E Hu Hb) as (A1 & A2 & A3 & A4 & A5 & A6).
      destruct (sruns_spec _ _ _ _ E2 A3 A4) as (_ & _ & _ & _ & _ & B6 & _).
      destruct (in_dec N.eq_dec (sf_limit s2) (match f with Some l => [l] | None => [] end)) as [Hf|Hf]; [right; apply in_or_app; auto|].
      assert (G : sf_frame s2 = true \/ In (sf_limit s2) fs2).
      { apply (IH s1 s2 fs2 E2 A4 A3); [|assumption]. intros X.
        assert (Hl : sf_limit s <= sf_limit s1) by (rewrite A2; destruct o; lia).
        destruct o as [x|n| |fits|x]; cbn [sstep] in E.
        - injection E as <- <-. unfold sfc_update in *. destruct (N.ltb_spec (sf_limit s) x); cbn [fst sf_blocked_at sf_frame sf_limit] in *.
          + apply Hb in X. lia.
          + apply Hs in X as [X|X]; [auto|]. cbn [app] in X. auto.
        - destruct (sfc_consume n s) as [s3|] eqn:E3; [|discriminate]. injection E as <- <-. unfold sfc_consume in E3.
          destruct (sf_used s + n <=? sf_limit s); [|discriminate]. injection E3 as <-. cbn [sf_blocked_at sf_frame] in *. apply Hs in X. exact X.
        - injection E as <- <-. unfold sfc_blocked in *. destruct (sf_blocked_at s) as [b|] eqn:Eb; [destruct (sf_limit s <=? b)|]; auto. rewrite Eb in X. apply Hs in X. exact X.
        - injection E as E. unfold sfc_write in E. destruct (sfc_blocked_needed s) as [l|] eqn:En.
          + destruct fits.
            * injection E as <- <-. unfold sfc_blocked_needed in En. destruct (sf_blocked_at s) as [b|] eqn:Eb; [|discriminate].
              destruct (sf_frame s && (sf_limit s <=? b)); [|discriminate]. injection En as <-. cbn [sfc_sent sf_blocked_at] in X. rewrite Eb in X.
              injection X as ->. exfalso. apply Hf. left. reflexivity.
            * injection E as <- <-. apply Hs in X. exact X.
          + injection E as <- <-. apply Hs in X. exact X.
        - injection E as <- <-. unfold sfc_lost in *. destruct (sf_blocked_at s) as [b|] eqn:Eb; [destruct (b =? x)|]; auto; rewrite ?Eb in X; try discriminate. apply Hs in X. exact X. }
      destruct G; [auto|right; apply in_or_app; auto]. }
  destruct (sruns_spec _ _ _ _ H) as (B1 & B2 & B3 & B4 & _); cbn; try lia; try discriminate. cbn [sfc_new sf_limit] in B2.
  specialize (P _ _ _ _ H ltac:(discriminate) ltac:(cbn; lia) ltac:(discriminate)). rewrite B2 in P.
  exists (sfc_blocked s). cbn [sstep]. unfold sfc_write, sfc_blocked_needed, sfc_blocked, sfc_sent.
  destruct s as [lim used bat fr]. cbn [sf_blocked_at sf_limit sf_frame sf_used] in *. subst lim.
  destruct bat as [b|].
  - specialize (B4 b eq_refl). destruct (N.leb_spec (s_limit init ops) b).
    + assert (b = s_limit init ops) as -> by lia. destruct (P eq_refl) as [->|]; [|contradiction].
      cbn [sf_blocked_at sf_limit sf_frame sf_used andb]. rewrite N.leb_refl. eexists; split; reflexivity.
    + cbn [sf_blocked_at sf_limit sf_frame sf_used andb]. rewrite N.leb_refl. eexists; split; reflexivity.
  - cbn [sf_blocked_at sf_limit sf_frame sf_used andb]. rewrite N.leb_refl. eexists; split; reflexivity.
Qed.

(** * Receiver *)
Lemma chk_some x y : chk x = Some y -> y = x /\ x < 2 ^ 64.
Proof. unfold chk. destruct (N.ltb_spec x (2 ^ 64)); [|discriminate]. intros E; injection E as <-. auto. Qed.
Lemma chk_ok x : x < 2 ^ 64 -> chk x = Some x.
Proof. unfold chk. intros. destruct (N.ltb_spec x (2 ^ 64)); [reflexivity|lia]. Qed.
Lemma csub_some a b c : csub a b = Some c -> c = a - b /\ b <= a.
Proof. unfold csub. destruct (N.leb_spec b a); [|discriminate]. intros E; injection E as <-. auto. Qed.
Lemma csub_ok a b : b <= a -> csub a b = Some (a - b).
Proof. unfold csub. intros. destruct (N.leb_spec b a); [reflexivity|lia]. Qed.

Lemma auto_tune_spec now rtt w s s' : auto_tune now rtt w s = Some s' ->
  exists m, s' = with_active m s /\ rf_max_active s <= m /\ (m = rf_max_active s \/ m <= w).
Proof.
  assert (Hsame : exists m, s = with_active m s /\ rf_max_active s <= m /\ (m = rf_max_active s \/ m <= w)).
  { exists (rf_max_active s). splits; [destruct s; reflexivity|lia|auto]. }
  unfold auto_tune. intros H. destruct (rf_last s); [|injection H as <-; exact Hsame].
  destruct (negb _); [injection H as <-; exact Hsame|]. destruct (negb _ || _); [injection H as <-; exact Hsame|].
  destruct (chk (rf_max_active s * 3)); [|discriminate]. destruct (chk _) as [y|]; [|discriminate].
  destruct (csub (rf_max_allowed s) _) as [un|]; [|discriminate]. destruct (csub _ un) as [u|]; [|discriminate].
  destruct (u <? _); [injection H as <-; exact Hsame|]. destruct (chk _) as [z|]; [|discriminate]. destruct (chk _) as [ww|]; [|discriminate].
  destruct (N.leb_spec (N.min ww w) (rf_max_active s)); injection H as <-; [exact Hsame|]. exists (N.min ww w). splits; [reflexivity|lia|right; lia].
Qed.

Lemma auto_tune_ok now rtt w W s : rf_max_active s <= W -> W <= 2 ^ 61 -> W * (now / 1000) < 2 ^ 64 ->
  rf_retired s <= rf_max_allowed s -> rf_max_allowed s <= rf_retired s + rf_max_active s -> auto_tune now rtt w s <> None.
Proof.
  intros H1 H2 H3 H4 H5. unfold auto_tune. destruct (rf_last s) as [last|]; [|discriminate].
  destruct (negb _); [discriminate|]. destruct (negb _ || _); [discriminate|].
  rewrite chk_ok by lia.
  rewrite chk_ok.
  2: { eapply N.le_lt_trans; [|exact H3]. apply N.mul_le_mono; [|apply N.div_le_mono; lia].
       transitivity (rf_max_active s * 4 / 4); [apply N.div_le_mono; lia|]. rewrite N.div_mul by discriminate. assumption. }
  rewrite csub_ok by assumption. rewrite csub_ok by lia.
  set (e := _ / (rtt / 1000)). destruct (N.ltb_spec (rf_max_active s - (rf_max_allowed s - rf_retired s)) e); [discriminate|].
  rewrite chk_ok by lia. rewrite chk_ok by lia. destruct (_ <=? rf_max_active s); discriminate.
Qed.

Record rinv (k : rkind) (s : rfc) : Prop := {
  ri_rc : rf_retired s <= rf_consumed s;
  ri_ca : rf_consumed s <= rf_max_allowed s;
  ri_aw : rf_max_allowed s <= rf_retired s + rf_max_active s;
  ri_cap : rf_max_allowed s <= MAX_VARINT;
  ri_live : rf_pending s = true \/ rf_max_active s - rf_max_active s / 4 <= rf_max_allowed s - rf_retired s \/ rf_max_allowed s = MAX_VARINT }.

Lemma rinv_new k max : max <= MAX_VARINT -> rinv k (rfc_new max).
Proof. intros H. split; cbn; try lia. Qed.

Definition data (k : rkind) : Prop := k = RConn \/ k = RStream.
Definition raises (s : rfc) (o : rop) : Prop := match o with RSetMax m => rf_max_active s <= m | _ => True end.

Lemma quarter m : m / 4 <= m. Proof. apply N.div_le_upper_bound; lia. Qed.

Lemma rwrite_spec k now rtt fits s s' v : data k -> rfc_write k now rtt fits s = Some (s', v) ->
  exists m, rf_max_active s <= m /\ rf_max_active s' = m /\ rf_consumed s' = rf_consumed s /\ rf_retired s' = rf_retired s /\
   (m = rf_max_active s \/ m <= MAX_LOCAL_MAX_DATA) /\
   match v with
   | Some x => fits = true /\ rf_pending s = true /\ x = N.min (rf_retired s + m) MAX_VARINT /\ rf_max_allowed s' = x /\ rf_pending s' = false
   | None => rf_max_allowed s' = rf_max_allowed s /\ rf_pending s' = rf_pending s /\ (rf_pending s = false /\ s' = s \/ fits = false /\ rf_pending s = true)
   end.
Proof.
  intros Hk H. unfold rfc_write in H. destruct (rf_pending s) eqn:Ep; cbn [negb] in H.
  2: { injection H as <- <-. exists (rf_max_active s). splits; auto. lia. }
  destruct (match k with RConn => _ | RStream => _ | RTypes => _ end) as [s1|] eqn:E1; [|discriminate].
  assert (exists m, s1 = with_active m s /\ rf_max_active s <= m /\ (m = rf_max_active s \/ m <= MAX_LOCAL_MAX_DATA)) as (m & -> & Hm & Hm2).
  { destruct Hk as [-> | ->]; apply auto_tune_spec in E1 as (m & -> & A & B); exists m; splits; auto.
    destruct B; [auto|]. right. unfold MAX_LOCAL_MAX_DATA, MAX_LOCAL_MAX_STREAM_DATA in *. lia. }
  unfold rfc_next_limit in H. cbn [with_active rf_retired rf_max_active] in H.
  destruct (chk (rf_retired s + m)) as [y|] eqn:Ec; [|discriminate]. apply chk_some in Ec as [-> Ec].
  exists m. destruct fits; injection H as <- <-; cbn [with_active rf_max_active rf_max_allowed rf_consumed rf_retired rf_pending]; splits; auto.
Qed.

Lemma rstep_inv k s o s' out : data k -> rinv k s -> raises s o -> rstep k s o = Some (s', out) ->
  rinv k s' /\ rf_max_allowed s' = (match out with RFrame v => v | _ => rf_max_allowed s end) /\ rf_max_allowed s <= rf_max_allowed s' /\
  rf_consumed s' = (match o, out with RConsume n, RAccept _ => match k with RStream => N.max (rf_consumed s) n | _ => rf_consumed s + n end | _, _ => rf_consumed s end) /\
  rf_retired s' = (match o with RRetire n => n + rf_retired s | _ => rf_retired s end) /\
  (match o with RConsume n => True | _ => (forall a, out <> RAccept a) /\ out <> RReject end).
Proof.
  intros Hk I Hr H. destruct o as [n|n| |now rtt fits|v|m]; cbn [rstep] in H.
  - destruct (rfc_consume k n s) as [[s1 a]|] eqn:E; [|discriminate].
    assert (X : (s1 = s /\ a = None) \/ (exists a', a = Some a' /\ s1 = mkR (rf_max_active s) (rf_max_allowed s) (rf_last s) (match k with RStream => N.max (rf_consumed s) n | _ => rf_consumed s + n end) (rf_retired s) (rf_pending s)
       /\ match k with RStream => N.max (rf_consumed s) n | _ => rf_consumed s + n end <= rf_max_allowed s)).
    { pose proof (ri_ca _ _ I). destruct Hk as [-> | ->]; unfold rfc_consume in E.
      - destruct (chk _) as [x|] eqn:Ec; [|discriminate]. apply chk_some in Ec as [-> _].
        destruct (N.ltb_spec (rf_max_allowed s) (rf_consumed s + n)); injection E as <- <-; [auto|]. right. eexists; splits; [reflexivity|reflexivity|assumption].
      - destruct (N.leb_spec n (rf_consumed s)).
        + injection E as <- <-. right. eexists; splits; [reflexivity| |]; rewrite N.max_l by assumption; [destruct s; reflexivity|assumption].
        + destruct (N.ltb_spec (rf_max_allowed s) n); injection E as <- <-; [auto|]. right. eexists; splits; [reflexivity| |]; rewrite N.max_r by lia; [reflexivity|assumption]. }
    destruct X as [[-> ->]|(a' & -> & -> & Hle)]; injection H as <- <-.
    + splits; auto; try lia.
    + cbn [rf_max_allowed rf_consumed rf_retired]. splits; auto; try lia. destruct I. split; cbn [rf_max_allowed rf_consumed rf_retired rf_pending rf_max_active]; auto.
      destruct k; lia.
  - destruct (rfc_retire k n s) as [s1|] eqn:E; [|discriminate]. injection H as <- <-.
    assert (E' : (if rf_consumed s <? rf_retired s + n then None else
        match rfc_should_send (mkR (rf_max_active s) (rf_max_allowed s) (rf_last s) (rf_consumed s) (rf_retired s + n) (rf_pending s)) with
        | None => None | Some true => Some (with_pending true (mkR (rf_max_active s) (rf_max_allowed s) (rf_last s) (rf_consumed s) (rf_retired s + n) (rf_pending s)))
        | Some false => Some (mkR (rf_max_active s) (rf_max_allowed s) (rf_last s) (rf_consumed s) (rf_retired s + n) (rf_pending s)) end) = Some s1)
      by (destruct Hk as [-> | ->]; exact E). clear E. destruct I.
    destruct (N.ltb_spec (rf_consumed s) (rf_retired s + n)); [discriminate|]. unfold rfc_should_send in E'. cbn [rf_max_allowed rf_retired rf_max_active] in E'.
    rewrite csub_ok in E' by lia.
    destruct (N.ltb_spec (rf_max_allowed s - (rf_retired s + n)) (rf_max_active s - rf_max_active s / 4)); injection E' as <-;
      cbn [with_pending rf_max_allowed rf_consumed rf_retired rf_pending rf_max_active]; (splits; [split; cbn [with_pending rf_max_allowed rf_consumed rf_retired rf_pending rf_max_active]; auto; lia|auto|lia|auto|lia|discriminate|discriminate]).
  - destruct (rfc_flowc_update s) as [s1|] eqn:E; [|discriminate]. injection H as <- <-. unfold rfc_flowc_update in E.
    destruct (chk _) as [x|]; [|discriminate]. injection E as <-. destruct I. destruct (rf_max_allowed s <? x);
      cbn [with_pending rf_max_allowed rf_consumed rf_retired rf_pending rf_max_active]; (splits; [split; cbn [with_pending rf_max_allowed rf_consumed rf_retired rf_pending rf_max_active]; auto|auto|lia|auto|auto|discriminate|discriminate]).
  - destruct (rfc_write k now rtt fits s) as [[s1 v]|] eqn:E; [|discriminate].
    destruct (rwrite_spec _ _ _ _ _ _ _ Hk E) as (m & A1 & A2 & A3 & A4 & _ & A5). pose proof (quarter m). destruct I.
    destruct v as [x|]; injection H as <- <-.
    + destruct A5 as (_ & _ & -> & A6 & A7). rewrite A3, A4, A6. splits; auto; try lia; try discriminate.
      split; rewrite ?A2, ?A3, ?A4, ?A6, ?A7; lia.
    + destruct A5 as (A6 & A7 & A8). rewrite A3, A4, A6. splits; auto; try lia; try discriminate.
      split; rewrite ?A2, ?A3, ?A4, ?A6, ?A7; try lia. destruct A8 as [[? ->]|[_ ?]]; [|auto]. rewrite A2 in *. assumption.
  - injection H as <- <-. unfold rfc_lost. destruct I. destruct (v =? rf_max_allowed s);
      cbn [with_pending rf_max_allowed rf_consumed rf_retired rf_pending rf_max_active]; (splits; [split; cbn [with_pending rf_max_allowed rf_consumed rf_retired rf_pending rf_max_active]; auto|auto|lia|auto|auto|discriminate|discriminate]).
  - injection H as <- <-. unfold rfc_set_max. cbn [raises] in Hr. destruct I.
    cbn [with_active with_pending rf_max_allowed rf_consumed rf_retired rf_pending rf_max_active]; splits; auto; try lia; try discriminate.
    split; cbn [with_active with_pending rf_max_allowed rf_consumed rf_retired rf_pending rf_max_active]; auto; try lia.
Qed.

Lemma rruns_inv k ops : forall s s' outs, data k -> rinv k s -> only_raises k s ops -> rruns k s ops = Some (s', outs) ->
  rinv k s' /\ rf_max_allowed s' = last_limit (rf_max_allowed s) outs /\ rf_max_allowed s <= rf_max_allowed s' /\
  StronglySorted N.le (limits outs) /\ Forall (N.le (rf_max_allowed s)) (limits outs) /\
  rf_consumed s' = used_by_peer k (rf_consumed s) ops outs /\ rf_retired s' = rf_retired s + retired_total ops.
Proof.
  induction ops as [|o ops IH]; intros s s' outs Hk I Hr H; cbn [rruns] in H.
  - injection H as <- <-. cbn. splits; auto; try constructor; try lia.
  - destruct Hr as [Hr1 Hr2]. destruct (rstep k s o) as [[s1 out]|] eqn:E; [|discriminate].
    destruct (rruns k s1 ops) as [[s2 outs2]|] eqn:E2; [|discriminate]. injection H as <- <-.
    destruct (rstep_inv _ _ _ _ _ Hk I Hr1 E) as (I1 & A1 & A2 & A3 & A4 & A5).
    destruct (IH _ _ _ Hk I1 Hr2 E2) as (I2 & B1 & B2 & B3 & B4 & B5 & B6).
    assert (B4' : Forall (N.le (rf_max_allowed s)) (limits outs2)) by (eapply Forall_impl; [|exact B4]; cbn; intros; lia).
    splits; auto; try lia.
    + rewrite B1, A1. destruct out; reflexivity.
    + destruct out; cbn [limits]; auto. constructor; [assumption|]. rewrite <- A1. assumption.
    + destruct out; cbn [limits]; auto. constructor; [rewrite <- A1; assumption|assumption].
    + rewrite B5, A3. destruct o; cbn [used_by_peer]; destruct out; try reflexivity. 
    + rewrite B6, A4. destruct o; cbn [retired_total]; lia.
Qed.

Lemma receiver_lemma k init ops s outs : data k -> init <= MAX_VARINT -> only_raises k (rfc_new init) ops ->
  rruns k (rfc_new init) ops = Some (s, outs) ->
  rinv k s /\ rf_max_allowed s = last_limit init outs /\ StronglySorted N.le (init :: limits outs) /\
  rf_consumed s = used_by_peer k 0 ops outs /\ rf_retired s = retired_total ops.
Proof.
  intros Hk Hi Hr H. destruct (rruns_inv _ _ _ _ _ Hk (rinv_new k init Hi) Hr H) as (I & B1 & B2 & B3 & B4 & B5 & B6).
  splits; auto. constructor; assumption.
Qed.

Lemma credit_lemma k init ops s outs n s' out : data k -> init <= MAX_VARINT -> only_raises k (rfc_new init) ops ->
  rruns k (rfc_new init) ops = Some (s, outs) -> rstep k s (RConsume n) = Some (s', out) ->
  (out = RReject <-> last_limit init outs < match k with RStream => n | _ => used_by_peer k 0 ops outs + n end) /\
  (out <> RReject -> exists a, out = RAccept a).
Proof.
  intros Hk Hi Hr H W. destruct (receiver_lemma _ _ _ _ _ Hk Hi Hr H) as (I & B1 & B2 & B3 & B4). pose proof (ri_ca _ _ I) as Hca.
  rewrite <- B1, <- B3. cbn [rstep] in W. destruct Hk as [-> | ->]; unfold rfc_consume in W.
  - destruct (chk _) as [x|] eqn:Ec; [|discriminate]. apply chk_some in Ec as [-> _].
    destruct (N.ltb_spec (rf_max_allowed s) (rf_consumed s + n)); injection W as <- <-; split; try tauto; eauto; split; try discriminate; lia.
  - destruct (N.leb_spec n (rf_consumed s)); [|destruct (N.ltb_spec (rf_max_allowed s) n)]; injection W as <- <-; split; try tauto; eauto; split; try discriminate; lia.
Qed.

Lemma limits_lemma k init ops s outs : data k -> init <= MAX_VARINT -> only_raises k (rfc_new init) ops ->
  rruns k (rfc_new init) ops = Some (s, outs) ->
  StronglySorted N.le (init :: limits outs) /\ last_limit init outs <= MAX_VARINT /\
  retired_total ops <= used_by_peer k 0 ops outs <= last_limit init outs /\
  last_limit init outs <= retired_total ops + rf_max_active s.
Proof.
  intros Hk Hi Hr H. destruct (receiver_lemma _ _ _ _ _ Hk Hi Hr H) as ([] & B1 & B2 & B3 & B4). rewrite <- B1, <- B3, <- B4. splits; auto.
Qed.

Lemma reopen_lemma k init ops s outs now rtt s' out : data k -> init <= MAX_VARINT -> only_raises k (rfc_new init) ops ->
  rruns k (rfc_new init) ops = Some (s, outs) -> rstep k s (RWrite now rtt true) = Some (s', out) ->
  (out = RQuiet /\ rf_max_active s - rf_max_active s / 4 <= last_limit init outs - retired_total ops) \/
  (out = RQuiet /\ last_limit init outs = MAX_VARINT) \/
  exists w, rf_max_active s <= w /\ out = RFrame (N.min (retired_total ops + w) MAX_VARINT).
Proof.
  intros Hk Hi Hr H W. destruct (receiver_lemma _ _ _ _ _ Hk Hi Hr H) as ([] & B1 & B2 & B3 & B4). rewrite <- B1, <- B4.
  cbn [rstep] in W. destruct (rfc_write k now rtt true s) as [[s1 v]|] eqn:E; [|discriminate].
  destruct (rwrite_spec _ _ _ _ _ _ _ Hk E) as (m & A1 & A2 & A3 & A4 & _ & A5). destruct v as [x|].
  - injection W as <- <-. right; right. exists m. split; [assumption|]. destruct A5 as (_ & _ & -> & _). reflexivity.
  - injection W as <- <-. destruct A5 as (A6 & A7 & [[A8 _]|[? _]]); [|discriminate]. destruct ri_live0 as [?|[?|?]]; [congruence|auto|auto].
Qed.

Lemma lost_resent_lemma k init ops s outs now rtt s1 s2 o1 o2 : data k -> init <= MAX_VARINT -> only_raises k (rfc_new init) ops ->
  rruns k (rfc_new init) ops = Some (s, outs) -> rstep k s (RLost (last_limit init outs)) = Some (s1, o1) ->
  rstep k s1 (RWrite now rtt true) = Some (s2, o2) -> exists v, o2 = RFrame v /\ last_limit init outs <= v.
Proof.
  intros Hk Hi Hr H W1 W2. destruct (receiver_lemma _ _ _ _ _ Hk Hi Hr H) as (I & B1 & B2 & B3 & B4).
  destruct (rstep_inv _ _ _ _ _ Hk I (Logic.I : raises s (RLost _)) W1) as (I1 & C1 & C2 & _).
  destruct (rstep_inv _ _ _ _ _ Hk I1 (Logic.I : raises s1 (RWrite now rtt true)) W2) as (I2 & D1 & D2 & _).
  cbn [rstep] in W1. injection W1 as <- <-. rewrite <- B1 in *. unfold rfc_lost in *. rewrite N.eqb_refl in *.
  cbn [rstep] in W2. destruct (rfc_write k now rtt true (with_pending true s)) as [[s3 v]|] eqn:E; [|discriminate].
  destruct (rwrite_spec _ _ _ _ _ _ _ Hk E) as (m & A1 & A2 & A3 & A4 & _ & A5). destruct v as [x|].
  - injection W2 as <- <-. exists x. split; [reflexivity|]. cbn [with_pending rf_max_allowed] in *. lia.
  - exfalso. destruct A5 as (_ & _ & [[A8 _]|[? _]]); discriminate.
Qed.

Lemma receiver_no_panic k w ops : data k -> MAX_LOCAL_MAX_DATA <= w -> w <= 2 ^ 61 -> forall s,
  rinv k s -> rf_max_active s <= w -> calls_ok w k s ops -> rruns k s ops <> None.
Proof.
  intros Hk Hw0 Hw. induction ops as [|o ops IH]; intros s I Ha Hc; cbn [rruns]; [discriminate|].
  destruct Hc as [Hc1 Hc2]. unfold MAX_VARINT in *.
  assert (S : exists s' out, rstep k s o = Some (s', out) /\ rf_max_active s' <= w).
  { destruct I. unfold MAX_VARINT in *. destruct o as [n|n| |now rtt fits|v|m]; cbn [rstep].
    - assert (X : exists a c, rfc_consume k n s = Some (mkR (rf_max_active s) (rf_max_allowed s) (rf_last s) c (rf_retired s) (rf_pending s), a)).
      { destruct Hk as [-> | ->]; unfold rfc_consume.
        - rewrite chk_ok by lia. destruct (_ <? _); [exists None, (rf_consumed s)|]; [destruct s; reflexivity|eauto].
        - destruct (n <=? rf_consumed s); [exists (Some 0), (rf_consumed s); destruct s; reflexivity|]. destruct (_ <? _); [exists None, (rf_consumed s); destruct s; reflexivity|eauto]. }
      destruct X as (a & c & ->). destruct a; eexists _, _; split; [reflexivity|exact Ha|reflexivity|exact Ha].
    - assert (X : exists p, rfc_retire k n s = Some (mkR (rf_max_active s) (rf_max_allowed s) (rf_last s) (rf_consumed s) (rf_retired s + n) p)).
      { assert (Y : exists p, (if rf_consumed s <? rf_retired s + n then None else
        match rfc_should_send (mkR (rf_max_active s) (rf_max_allowed s) (rf_last s) (rf_consumed s) (rf_retired s + n) (rf_pending s)) with
        | None => None | Some true => Some (with_pending true (mkR (rf_max_active s) (rf_max_allowed s) (rf_last s) (rf_consumed s) (rf_retired s + n) (rf_pending s)))
        | Some false => Some (mkR (rf_max_active s) (rf_max_allowed s) (rf_last s) (rf_consumed s) (rf_retired s + n) (rf_pending s)) end) = Some (mkR (rf_max_active s) (rf_max_allowed s) (rf_last s) (rf_consumed s) (rf_retired s + n) p)).
        { destruct (N.ltb_spec (rf_consumed s) (rf_retired s + n)); [lia|]. unfold rfc_should_send. cbn [rf_max_allowed rf_retired]. rewrite csub_ok by lia.
          destruct (_ <? _); eexists; reflexivity. }
        destruct Hk as [-> | ->]; exact Y. }
      destruct X as (p & ->). eexists _, _; split; [reflexivity|exact Ha].
    - unfold rfc_flowc_update. rewrite chk_ok by lia. destruct (_ <? _); eexists _, _; split; try reflexivity; exact Ha.
    - assert (X : rfc_write k now rtt fits s <> None).
      { unfold rfc_write. destruct (negb (rf_pending s)); [discriminate|].
        assert (T : forall w', auto_tune now rtt w' s <> None) by (intros; eapply auto_tune_ok; eauto; lia).
        assert (T' : exists w', match k with RConn => auto_tune now rtt MAX_LOCAL_MAX_DATA s | RStream => auto_tune now rtt MAX_LOCAL_MAX_STREAM_DATA s | RTypes => Some s end = auto_tune now rtt w' s /\ w' <= MAX_LOCAL_MAX_DATA).
        { destruct Hk as [-> | ->]; eexists; split; try reflexivity; vm_compute; discriminate. }
        destruct T' as (w' & -> & Hw'). specialize (T w'). destruct (auto_tune now rtt w' s) as [s1|] eqn:Et; [|contradiction].
        apply auto_tune_spec in Et as (m & -> & _ & Hm). unfold rfc_next_limit. cbn [with_active rf_retired rf_max_active].
        rewrite chk_ok by lia. destruct fits; discriminate. }
      destruct (rfc_write k now rtt fits s) as [[s1 v]|] eqn:E; [|contradiction].
      destruct (rwrite_spec _ _ _ _ _ _ _ Hk E) as (m & A1 & A2 & A3 & A4 & Am & A5).
      destruct v; eexists _, _; (split; [reflexivity|rewrite A2; lia]).
    - eexists _, _; split; [reflexivity|]. unfold rfc_lost. destruct (_ =? _); exact Ha.
    - eexists _, _; split; [reflexivity|]. cbn. lia. }
  destruct S as (s' & out & E & Ha'). rewrite E in *.
  assert (Hr : raises s o) by (destruct o; cbn in *; auto; lia).
  destruct (rstep_inv _ _ _ _ _ Hk I Hr E) as (I' & _). specialize (IH s' I' Ha' Hc2).
  destruct (rruns k s' ops) as [[? ?]|]; congruence.
Qed.

Lemma receiver_no_panic_lemma k w init ops : data k -> MAX_LOCAL_MAX_DATA <= w -> w <= 2 ^ 61 -> init <= w ->
  calls_ok w k (rfc_new init) ops -> rruns k (rfc_new init) ops <> None.
Proof.
  intros Hk H1 H2 H3 H. eapply receiver_no_panic; eauto. apply rinv_new. unfold MAX_VARINT. lia.
Qed.

(** * Stream identifiers *)
Lemma ids_snoc t r n : ids t r (S n) = ids t r n ++ [4 * N.of_nat n + stype_num t + role_bit r].
Proof. unfold ids. rewrite seq_S, map_app. destruct t, r; reflexivity. Qed.

Lemma take_local_spec t r s : sf_used s <= sf_limit s -> 
  take_local t r s = if sf_used s <? sf_limit s
    then Some (mkS (sf_limit s) (sf_used s + 1) (sf_blocked_at s) (sf_frame s), Some (4 * sf_used s + stype_num t + role_bit r))
    else Some (sfc_blocked s, None).
Proof.
  intros H. unfold take_local, sfc_available, sfc_consume.
  destruct (N.ltb_spec (sf_used s) (sf_limit s)).
  - destruct (N.ltb_spec 0 (N.min (sf_limit s - sf_used s) (2 ^ 64 - 1))); [|lia].
    destruct (N.leb_spec (sf_used s + 1) (sf_limit s)); [|lia]. rewrite N.shiftl_mul_pow2. change (2 ^ 2) with 4. do 4 f_equal. lia.
  - destruct (N.ltb_spec 0 (N.min (sf_limit s - sf_used s) (2 ^ 64 - 1))); [lia|reflexivity].
Qed.

Lemma lruns_spec t r ops : forall s, sf_used s <= sf_limit s ->
  exists s' l, lruns t r s ops = Some (s', l) /\ sf_used s' <= sf_limit s' /\ sf_limit s' = l_limit (sf_limit s) ops /\
    sf_used s' = sf_used s + lenN (opened l) /\
    ids t r (N.to_nat (sf_used s)) ++ opened l = ids t r (N.to_nat (sf_used s')).
Proof.
  induction ops as [|o ops IH]; intros s H; cbn [lruns].
  - exists s, []. cbn [opened l_limit]. rewrite app_nil_r. change (lenN []) with 0. splits; auto. lia.
  - destruct o as [|x].
    + rewrite take_local_spec by assumption. destruct (N.ltb_spec (sf_used s) (sf_limit s)).
      * destruct (IH (mkS (sf_limit s) (sf_used s + 1) (sf_blocked_at s) (sf_frame s)) ltac:(cbn; lia)) as (s' & l & -> & A & B & C & D).
        cbn [sf_used sf_limit] in *. eexists _, _; split; [reflexivity|]. cbn [opened l_limit]. splits; auto; [rewrite lenN_cons; lia|].
        rewrite <- D. replace (N.to_nat (sf_used s + 1)) with (S (N.to_nat (sf_used s))) by lia. rewrite ids_snoc, <- app_assoc, N2Nat.id. reflexivity.
      * assert (E : sf_used (sfc_blocked s) = sf_used s /\ sf_limit (sfc_blocked s) = sf_limit s).
        { unfold sfc_blocked. destruct (sf_blocked_at s); [destruct (_ <=? _)|]; auto. }
        destruct E as [E1 E2]. destruct (IH (sfc_blocked s) ltac:(lia)) as (s' & l & -> & A & B & C & D). rewrite E1, E2 in *.
        eexists _, _; split; [reflexivity|]. cbn [opened l_limit]. splits; auto.
    + assert (E : sf_used (fst (sfc_update x s)) = sf_used s /\ sf_limit (fst (sfc_update x s)) = N.max (sf_limit s) x).
      { unfold sfc_update. destruct (N.ltb_spec (sf_limit s) x); cbn [fst sf_used sf_limit]; lia. }
      destruct E as [E1 E2]. destruct (IH (fst (sfc_update x s)) ltac:(lia)) as (s' & l & -> & A & B & C & D). rewrite E1, E2 in *.
      eexists _, _; split; [reflexivity|]. cbn [l_limit]. splits; auto.
Qed.

Lemma local_ids_lemma t r ops : exists s l, lruns t r (sfc_new 0) ops = Some (s, l) /\
  opened l = ids t r (length (opened l)) /\ lenN (opened l) <= l_limit 0 ops.
Proof.
  destruct (lruns_spec t r ops (sfc_new 0)) as (s & l & A & B & C & D & E); [cbn; lia|]. exists s, l. split; [assumption|].
  cbn [sfc_new sf_used sf_limit] in *. cbn in E. split; [|lia]. rewrite E at 1. f_equal. rewrite D. unfold lenN. lia.
Qed.

Lemma local_refused_lemma t r ops s l s' id : lruns t r (sfc_new 0) ops = Some (s, l) ->
  take_local t r s = Some (s', id) -> (id = None <-> lenN (opened l) = l_limit 0 ops) /\
  (forall i, id = Some i -> i = 4 * lenN (opened l) + stype_num t + role_bit r).
Proof.
  intros H W. destruct (lruns_spec t r ops (sfc_new 0)) as (s2 & l2 & A & B & C & D & E); [cbn; lia|].
  rewrite H in A. injection A as <- <-. rewrite take_local_spec in W by assumption. cbn [sfc_new sf_used sf_limit] in *.
  destruct (N.ltb_spec (sf_used s) (sf_limit s)); injection W as <- <-; split.
  - split; [discriminate|lia].
  - intros i Hi. injection Hi as <-. lia.
  - split; [lia|reflexivity].
  - discriminate.
Qed.

(** Remote streams. *)
Definition base (t : stype) (r : role) : N := stype_num t + role_bit r.
Lemma base_lt t r : base t r < 4. Proof. destruct t, r; reflexivity. Qed.

Lemma rsl_create_spec t r fuel : forall id s n, rl_next s = 4 * N.of_nat n + base t r -> id mod 4 = base t r -> id < 2 ^ 62 ->
  rf_max_allowed (rl_fc s) <= 2 ^ 62 -> N.of_nat n <= rf_max_allowed (rl_fc s) ->
  (N.to_nat (id + 4 - rl_next s) < fuel)%nat ->
  if id / 4 <? rf_max_allowed (rl_fc s)
  then exists m l, rsl_create fuel id s = Some (mkL (rl_fc s) (4 * N.of_nat m + base t r), OCreated l) /\ (n <= m)%nat /\
       ids t r n ++ l = ids t r m /\ id / 4 < N.of_nat m /\ (m = n \/ N.of_nat m = id / 4 + 1)
  else rsl_create fuel id s = Some (s, OStreamLimit).
Proof.
  induction fuel as [|f IH]; intros id s n Hn Hid Hlt Hmax Hle Hf; [lia|].
  pose proof (base_lt t r) as Hb. assert (Eid : id = 4 * (id / 4) + base t r) by (rewrite <- Hid; apply N.div_mod'; discriminate).
  cbn [rsl_create]. unfold rsl_is_new, rsl_allowed. rewrite N.shiftr_div_pow2. change (2 ^ 2) with 4.
  destruct (N.ltb_spec (id / 4) (rf_max_allowed (rl_fc s))) as [Ha|Ha]; [|reflexivity].
  destruct (N.leb_spec (rl_next s) id).
  - unfold rsl_take, rsl_allowed. rewrite chk_ok by lia. rewrite N.shiftr_div_pow2. change (2 ^ 2) with 4.
    assert (Hq : rl_next s / 4 = N.of_nat n) by (rewrite Hn, N.mul_comm, N.div_add_l by discriminate; rewrite N.div_small by assumption; lia).
    rewrite Hq. destruct (N.ltb_spec (N.of_nat n) (rf_max_allowed (rl_fc s))); [|lia].
    specialize (IH id (mkL (rl_fc s) (rl_next s + 4)) (S n)). cbn [rl_next rl_fc] in IH.
    destruct (N.ltb_spec (id / 4) (rf_max_allowed (rl_fc s))); [|lia].
    destruct IH as (m & l & -> & A & B & C & D); try assumption; try lia.
    exists m, (rl_next s :: l). splits; auto; [lia| |].
    + rewrite <- B, ids_snoc, <- app_assoc. cbn [app]. rewrite Hn. unfold base. rewrite N.add_assoc. reflexivity.
    + right. destruct D as [->|D]; lia.
  - exists n, []. rewrite app_nil_r. splits; auto; [|lia]. rewrite <- Hn. destruct s; reflexivity.
Qed.

Record minv (t : stype) (r : role) (s : rsl) (n : nat) : Prop := {
  mi_next : rl_next s = 4 * N.of_nat n + base t r;
  mi_le : N.of_nat n <= rf_max_allowed (rl_fc s);
  mi_ret : rf_retired (rl_fc s) <= N.of_nat n;
  mi_aw : rf_max_allowed (rl_fc s) <= rf_retired (rl_fc s) + rf_max_active (rl_fc s);
  mi_cap : rf_max_allowed (rl_fc s) <= MAX_VARINT;
  mi_live : rf_pending (rl_fc s) = true \/ rf_max_allowed (rl_fc s) = N.min (rf_retired (rl_fc s) + rf_max_active (rl_fc s)) MAX_VARINT }.

Lemma mstep_inv t r s n o : minv t r s n -> rf_max_active (rl_fc s) <= MAX_VARINT ->
  (match o with MFrame id => id mod 4 = base t r /\ id < 2 ^ 62 | MRetire k => rf_retired (rl_fc s) + k <= rl_next s / 4 | _ => True end) ->
  exists s' out m, mstep s o = Some (s', out) /\ minv t r s' m /\ rf_max_active (rl_fc s') = rf_max_active (rl_fc s) /\
    ids t r n ++ created [out] = ids t r m /\ rf_max_allowed (rl_fc s') = m_limit (rf_max_allowed (rl_fc s)) [out] /\
    rf_max_allowed (rl_fc s) <= rf_max_allowed (rl_fc s') /\
    rf_retired (rl_fc s') = rf_retired (rl_fc s) + m_retired [o] /\
    (match o with
     | MFrame id => (out = MLimit /\ rf_max_allowed (rl_fc s) <= id / 4) \/ (exists l, out = MCreated l) /\ id / 4 < rf_max_allowed (rl_fc s) /\ id / 4 < N.of_nat m /\ (m = n \/ N.of_nat m = id / 4 + 1)
     | MWrite true => out = MSent (N.min (rf_retired (rl_fc s) + rf_max_active (rl_fc s)) MAX_VARINT) \/ (out = MQuiet /\ rf_pending (rl_fc s) = false)
     | _ => True end).
Proof.
  intros I Hw Ho. pose proof (base_lt t r) as Hb.
  assert (Hq : rl_next s / 4 = N.of_nat n) by (rewrite (mi_next _ _ _ _ I), N.mul_comm, N.div_add_l by discriminate; rewrite N.div_small by assumption; lia).
  destruct I. unfold MAX_VARINT in *. destruct o as [id|k|fits|v]; cbn [mstep].
  - destruct Ho as [Ho1 Ho2]. pose proof (rsl_create_spec t r (S (N.to_nat (id + 4 - rl_next s))) id s n mi_next0 Ho1 Ho2 ltac:(lia) mi_le0 ltac:(lia)) as P.
    unfold rsl_obtain. destruct (N.ltb_spec (id / 4) (rf_max_allowed (rl_fc s))).
    + destruct P as (m & l & -> & A & B & C & D). eexists _, _, m. split; [reflexivity|]. cbn [created m_limit m_retired rl_fc rl_next]. rewrite app_nil_r.
      splits; auto; try lia.
      * split; cbn [rl_fc rl_next]; auto; try lia.
      * right. splits; eauto.
    + rewrite P. eexists _, _, n. split; [reflexivity|]. cbn [created m_limit m_retired]. rewrite app_nil_r. splits; auto; try lia. split; auto; unfold MAX_VARINT; lia.
  - unfold rfc_retire. rewrite chk_ok by lia. unfold rfc_flowc_update. cbn [rf_retired rf_max_active rf_max_allowed]. rewrite chk_ok by lia.
    destruct (N.ltb_spec 0 k).
    + destruct (N.ltb_spec (rf_max_allowed (rl_fc s)) (rf_retired (rl_fc s) + k + rf_max_active (rl_fc s))); eexists _, _, n; (split; [reflexivity|]);
        cbn [created m_limit m_retired with_pending rl_fc rl_next rf_max_active rf_retired rf_max_allowed]; rewrite app_nil_r; (splits; auto; try lia; try (split; cbn [with_pending rl_fc rl_next rf_max_active rf_retired rf_max_allowed rf_pending]; unfold MAX_VARINT; auto; lia)).
    + eexists _, _, n; (split; [reflexivity|]). cbn [created m_limit m_retired rl_fc rl_next rf_max_active rf_retired rf_max_allowed]; rewrite app_nil_r.
      assert (k = 0) as -> by lia. rewrite N.add_0_r. splits; auto; try lia. split; cbn [rl_fc rl_next rf_max_active rf_retired rf_max_allowed rf_pending]; unfold MAX_VARINT; auto; lia.
  - unfold rfc_write. destruct (rf_pending (rl_fc s)) eqn:Ep; cbn [negb].
    + unfold rfc_next_limit. rewrite chk_ok by lia. destruct fits; eexists _, _, n; (split; [reflexivity|]);
        cbn [created m_limit m_retired rl_fc rl_next rf_max_active rf_retired rf_max_allowed]; rewrite app_nil_r; unfold MAX_VARINT; (splits; auto; try lia; try (split; cbn [rl_fc rl_next rf_max_active rf_retired rf_max_allowed rf_pending]; unfold MAX_VARINT; auto; lia)).
    + eexists _, _, n; (split; [reflexivity|]). cbn [created m_limit m_retired rl_fc rl_next]; rewrite app_nil_r. splits; auto; try lia; [split; cbn [rl_fc rl_next]; unfold MAX_VARINT; auto; lia|].
      destruct fits; auto.
  - eexists _, _, n; (split; [reflexivity|]). cbn [created m_limit m_retired rl_fc rl_next]; rewrite app_nil_r. unfold rfc_lost.
    destruct (v =? _); cbn [with_pending rf_max_active rf_retired rf_max_allowed]; (splits; auto; try lia; try (split; cbn [with_pending rl_fc rl_next rf_max_active rf_retired rf_max_allowed rf_pending]; unfold MAX_VARINT; auto; lia)).
Qed.

Lemma created_cons out outs : created (out :: outs) = created [out] ++ created outs.
Proof. destruct out; cbn [created]; rewrite ?app_nil_r; reflexivity. Qed.
Lemma m_limit_cons l out outs : m_limit l (out :: outs) = m_limit (m_limit l [out]) outs.
Proof. destruct out; reflexivity. Qed.
Lemma m_retired_cons o ops : m_retired (o :: ops) = m_retired [o] + m_retired ops.
Proof. destruct o; cbn [m_retired]; lia. Qed.

Lemma mruns_inv t r ops : forall s n, minv t r s n -> rf_max_active (rl_fc s) <= MAX_VARINT -> m_ok (base t r) s ops ->
  exists s' outs m, mruns s ops = Some (s', outs) /\ minv t r s' m /\ rf_max_active (rl_fc s') = rf_max_active (rl_fc s) /\
    ids t r n ++ created outs = ids t r m /\ rf_max_allowed (rl_fc s') = m_limit (rf_max_allowed (rl_fc s)) outs /\
    rf_retired (rl_fc s') = rf_retired (rl_fc s) + m_retired ops /\ rf_max_allowed (rl_fc s) <= rf_max_allowed (rl_fc s').
Proof.
  induction ops as [|o ops IH]; intros s n I Hw Hok; cbn [mruns].
  - exists s, [], n. cbn [created m_limit m_retired]. rewrite app_nil_r. splits; auto; lia.
  - destruct Hok as [Ho1 Ho2]. destruct (mstep_inv t r s n o I Hw Ho1) as (s1 & out & m1 & E & I1 & A1 & A2 & A3 & A4 & A5 & _). rewrite E in *.
    destruct (IH s1 m1 I1 ltac:(lia) Ho2) as (s2 & outs & m2 & -> & I2 & B1 & B2 & B3 & B4 & B5).
    eexists _, _, m2. split; [reflexivity|]. rewrite created_cons, m_limit_cons, m_retired_cons, app_assoc, A2, B2. splits; auto; try lia; rewrite B3, A3; reflexivity.
Qed.

Lemma minv_new t r max : max <= MAX_VARINT -> minv t (remote_of r) (rsl_new t max r) 0.
Proof. intros H. split; cbn [rsl_new rl_next rl_fc rfc_new rf_max_allowed rf_max_active rf_retired rf_pending]; try lia; try reflexivity; right; lia. Qed.

Lemma remote_lemma t r max ops : max <= MAX_VARINT -> m_ok (base t (remote_of r)) (rsl_new t max r) ops ->
  exists s outs, mruns (rsl_new t max r) ops = Some (s, outs) /\
    created outs = ids t (remote_of r) (length (created outs)) /\
    lenN (created outs) <= m_limit max outs /\ m_limit max outs <= m_retired ops + max /\ max <= m_limit max outs /\
    rf_max_allowed (rl_fc s) = m_limit max outs /\ rf_retired (rl_fc s) = m_retired ops /\ rf_max_active (rl_fc s) = max /\
    minv t (remote_of r) s (length (created outs)).
Proof.
  intros Hm Hok. destruct (mruns_inv t (remote_of r) ops _ 0 (minv_new t r max Hm) ltac:(exact Hm) Hok) as (s & outs & m & A & I & B1 & B2 & B3 & B4 & B5).
  exists s, outs. cbn [ids seq map app] in B2. change (created outs = ids t (remote_of r) m) in B2.
  assert (Em : length (created outs) = m) by (rewrite B2; unfold ids; rewrite map_length, seq_length; reflexivity).
  cbn [rsl_new rl_fc rfc_new rf_max_allowed rf_retired rf_max_active] in *. pose proof (mi_le _ _ _ _ I). pose proof (mi_aw _ _ _ _ I).
  rewrite Em. unfold lenN. rewrite Em. splits; auto; lia.
Qed.

Lemma remote_frame_lemma t r max ops s outs id : max <= MAX_VARINT -> m_ok (base t (remote_of r)) (rsl_new t max r) ops ->
  mruns (rsl_new t max r) ops = Some (s, outs) -> id mod 4 = base t (remote_of r) -> id < 2 ^ 62 ->
  exists s' out, mstep s (MFrame id) = Some (s', out) /\
    (if id / 4 <? m_limit max outs
     then exists l, out = MCreated l /\ In id (created outs ++ l) /\ (In id (created outs) -> l = [])
     else out = MLimit).
Proof.
  intros Hm Hok H Hi1 Hi2. destruct (remote_lemma t r max ops Hm Hok) as (s2 & outs2 & A & B1 & B2 & B3 & B4 & B5 & B6 & B7 & I).
  rewrite H in A. injection A as <- <-.
  destruct (mstep_inv t (remote_of r) s _ (MFrame id) I ltac:(lia) (conj Hi1 Hi2)) as (s' & out & m & E & I' & C1 & C2 & C3 & C4 & C5 & C6).
  exists s', out. split; [assumption|]. rewrite B5 in C6. rewrite <- B1 in C2.
  assert (Eid : id = 4 * (id / 4) + base t (remote_of r)) by (rewrite <- Hi1; apply N.div_mod'; discriminate).
  assert (Hmem : forall k, id / 4 < N.of_nat k <-> In id (ids t (remote_of r) k)).
  { intros k. unfold ids. rewrite in_map_iff. split.
    - intros Hlt. exists (N.to_nat (id / 4)). split; [|apply in_seq; lia]. rewrite N2Nat.id. rewrite Eid at 2. unfold base, stype_num, role_bit. destruct t, r; cbn [remote_of]; lia.
    - intros (i & E1 & E2). apply in_seq in E2. assert (id / 4 = N.of_nat i); [|lia].
      symmetry. apply N.div_unique with (base t (remote_of r)); [apply base_lt|]. rewrite <- E1. unfold base, stype_num, role_bit. destruct t, r; cbn [remote_of]; lia. }
  destruct (N.ltb_spec (id / 4) (m_limit max outs)) as [L|L].
  - destruct C6 as [[_ C6]|((l & ->) & C6 & C7 & C8)]; [lia|]. exists l. cbn [created] in C2. rewrite app_nil_r in C2. splits; auto.
    + rewrite C2. apply Hmem. assumption.
    + rewrite B1. intros Hin. apply Hmem in Hin.
      apply (f_equal (@length N)) in C2. rewrite app_length in C2. unfold ids in C2. rewrite map_length, seq_length in C2.
      destruct l; [reflexivity|]. cbn [length] in C2. destruct C8; lia.
  - destruct C6 as [[-> _]|(_ & C6 & _)]; [reflexivity|lia].
Qed.

Lemma remote_credit_lemma t r max ops s outs s' out : max <= MAX_VARINT -> m_ok (base t (remote_of r)) (rsl_new t max r) ops ->
  mruns (rsl_new t max r) ops = Some (s, outs) -> mstep s (MWrite true) = Some (s', out) ->
  m_limit (m_limit max outs) [out] = N.min (m_retired ops + max) MAX_VARINT.
Proof.
  intros Hm Hok H W. destruct (remote_lemma t r max ops Hm Hok) as (s2 & outs2 & A & B1 & B2 & B3 & B4 & B5 & B6 & B7 & I).
  rewrite H in A. injection A as <- <-.
  destruct (mstep_inv t (remote_of r) s _ (MWrite true) I ltac:(lia) Logic.I) as (s1 & o1 & m & E & I' & C1 & C2 & C3 & C4 & C5 & C6).
  rewrite W in E. injection E as <- <-. rewrite B6, B7 in C6. destruct C6 as [->|[-> C6]]; [reflexivity|].
  cbn [m_limit]. destruct (mi_live _ _ _ _ I) as [X|X]; [congruence|]. rewrite <- B5, X, B6, B7. reflexivity.
Qed.

Lemma id_shape_lemma t r n : is_bidi (4 * n + stype_num t + role_bit r) = (match t with BiDi => true | UniDi => false end) /\
  is_client_initiated (4 * n + stype_num t + role_bit r) = (match r with Client => true | Server => false end).
Proof.
  unfold is_bidi, is_client_initiated.
  assert (A : forall b k, b < 4 -> k < 4 -> N.land (4 * n + b) k = N.land b k).
  { intros b k Hb Hk. apply N.bits_inj. intros i. rewrite !N.land_spec. destruct (N.le_gt_cases 2 i) as [Hi|Hi].
    - replace (N.testbit k i) with false; [rewrite !andb_false_r; reflexivity|]. symmetry. destruct (N.eq_dec k 0) as [->|Hk0]; [apply N.bits_0|].
      apply N.bits_above_log2. apply N.log2_lt_pow2; [lia|]. apply N.lt_le_trans with (2 ^ 2); [assumption|]. apply N.pow_le_mono_r; lia.
    - f_equal. change 4 with (2 ^ 2). rewrite <- (N.mod_pow2_bits_low (2 ^ 2 * n + b) 2 i) by assumption. 
      rewrite N.add_comm, N.mul_comm, N.mod_add by discriminate. rewrite N.mod_small by (change (2 ^ 2) with 4; assumption). reflexivity. }
  rewrite <- N.add_assoc. rewrite !A by (destruct t, r; reflexivity). destruct t, r; split; reflexivity.
Qed.

(** * Counterexamples *)
Lemma shrink_refuted_lemma : exists init ops s outs, init <= MAX_VARINT /\ rruns RStream (rfc_new init) ops = Some (s, outs) /\
  limits outs = [200] /\ init = 1000 /\ rstep RStream s (RConsume 500) = Some (s, RReject).
Proof.
  exists 1000, [RSetMax 100; RSetMax 200; RWrite 5000000 50000000 true], (mkR 200 200 (Some 5000000) 0 0 false), [RQuiet; RQuiet; RFrame 200].
  splits; try reflexivity. vm_compute; discriminate.
Qed.

Lemma panic_refuted_lemma : exists init ops, init <= MAX_VARINT /\ only_raises RStream (rfc_new init) ops /\
  rruns RStream (rfc_new init) ops = None /\
  (forall now rtt fits, In (RWrite now rtt fits) ops -> now <= 30 * 1000000000).
Proof.
  exists (2 ^ 40), [RConsume (2 ^ 39); RRetire (2 ^ 39); RWrite 0 50000000 true; RConsume (2 ^ 40); RRetire (2 ^ 39); RWrite (30 * 1000000000) 50000000 true].
  splits; try reflexivity; [vm_compute; discriminate|vm_compute; splits; exact Logic.I|].
  intros now rtt fits H. cbn [In] in H. repeat (destruct H as [H|H]; [try discriminate; injection H as <- _ _; lia|]). contradiction.
Qed.

Lemma max_streams_refuted_lemma : exists ops s outs v, mruns (rsl_new BiDi (2 ^ 60) Client) ops = Some (s, outs) /\
  m_ok (base BiDi Server) (rsl_new BiDi (2 ^ 60) Client) ops /\ In (MSent v) outs /\ 2 ^ 60 < v.
Proof.
  exists [MFrame 1; MRetire 1; MWrite true].
  destruct (mruns (rsl_new BiDi (2 ^ 60) Client) [MFrame 1; MRetire 1; MWrite true]) as [[s outs]|] eqn:E; [|vm_compute in E; discriminate].
  exists s, outs, (2 ^ 60 + 1). vm_compute in E. injection E as <- <-. splits; [reflexivity| |right; right; left; reflexivity|vm_compute; reflexivity].
  vm_compute. repeat split; discriminate.
Qed.

Lemma max_streams_partial_lemma t r max ops s outs s' v : max + m_retired ops <= 2 ^ 60 -> m_ok (base t (remote_of r)) (rsl_new t max r) ops ->
  mruns (rsl_new t max r) ops = Some (s, outs) -> mstep s (MWrite true) = Some (s', MSent v) -> v <= 2 ^ 60.
Proof.
  intros Hm Hok H W. pose proof (remote_credit_lemma t r max ops s outs s' (MSent v) ltac:(unfold MAX_VARINT; lia) Hok H W) as E. cbn [m_limit] in E. lia.
Qed.
