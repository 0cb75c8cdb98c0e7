(** The read side. *)
From Coq Require Import Lia.
From Verif Require Import Base Lib FcModel KeyModel KeySpec KeyProofs.

Lemma continue_spec : forall x p y ok, dx_continue x p = (y, ok) ->
  d_epoch y = d_epoch x /\ d_gen y = d_gen x /\ d_inv y = d_inv x /\ d_len y = d_len x /\ d_min y = d_e p /\
  ((d_e x <= d_s x /\ ok = true /\ d_s y = d_e p /\ d_e y = d_e p) \/
   (d_s x < d_e x /\ d_s x < d_e p /\ ok = false /\ d_s y = d_s x /\ d_e y = d_e x) \/
   (d_s x < d_e x /\ d_e p <= d_s x /\ ok = true /\ d_s y = d_e p /\ d_e y = d_e x)).
Proof.
  unfold dx_continue. intros x p y ok H. destruct (N.ltb_spec (d_s x) (d_e x)) as [L|L]; cbn [negb] in H.
  - destruct (N.ltb_spec (d_s x) (d_e p)) as [M|M]; inv H; cbn; splits; auto; right; [left|right]; splits; auto.
  - inv H. cbn. splits; auto.
Qed.

(** Between steps: the 1-RTT read keys [r], [n] and the write keys [w]. *)
Record RS (h : list kout) (s : kst) (r n w : app) : Prop := {
  rs_r : k_read s = Some r; rs_n : k_next s = Some n; rs_w : k_write s = Some w;
  rs_okr : app_ok r; rs_okn : app_ok n; rs_okw : app_ok w;
  rs_next : d_epoch (a_dx n) = d_epoch (a_dx r) + 1;
  rs_step : d_epoch (a_dx r) <= d_epoch (a_dx w) <= d_epoch (a_dx r) + 1;
  rs_er : d_s (a_dx r) <= d_e (a_dx r); rs_en : d_s (a_dx n) <= d_e (a_dx n);
  rs_empty : d_s (a_dx n) = d_e (a_dx n) -> d_min (a_dx n) = d_e (a_dx n);
  rs_upd : match k_upd s with
           | None => d_epoch (a_dx r) = 3 /\ d_s (a_dx n) = d_e (a_dx n) /\ (k_time s <> None -> has_0rtt_read s = true)
           | Some u => has_0rtt_read s = false /\
                       match k_time s with
                       | None => u = d_epoch (a_dx r) /\ d_s (a_dx n) = d_e (a_dx n)
                       | Some _ => u = d_epoch (a_dx n) /\ d_epoch (a_dx w) = d_epoch (a_dx n)
                       end
           end;
  rs_time : k_time s <> None -> d_min (a_dx n) = d_e (a_dx r) /\ (d_s (a_dx n) < d_e (a_dx n) -> d_s (a_dx n) <= d_min (a_dx n));
  rs_top : forall e p, In (e, p) (accepted h) -> 3 <= e <= d_epoch (a_dx n);
  rs_hr : forall p, In (d_epoch (a_dx r), p) (accepted h) -> p < d_e (a_dx r);
  rs_hn : forall p, In (d_epoch (a_dx n), p) (accepted h) -> d_s (a_dx n) <= p < d_e (a_dx n);
  rs_hp : forall e p, In (e, p) (accepted h) -> e + 1 = d_epoch (a_dx r) -> p < d_min (a_dx r);
  rs_order : forall e p p', In (e, p) (accepted h) -> In (e + 1, p') (accepted h) -> p < p';
  rs_clean : ~ In (OErrK EOverlap) h ->
     d_min (a_dx r) <= d_e (a_dx r) /\ (d_s (a_dx n) < d_e (a_dx n) -> d_min (a_dx n) = d_s (a_dx n)) /\
     (forall e p, In (e, p) (accepted h) -> e < d_epoch (a_dx r) -> p < d_min (a_dx r)) /\
     (forall e p e' p', In (e, p) (accepted h) -> In (e', p') (accepted h) -> e < e' -> p < p') }.
Definition RI (cl : bool) (h : list kout) (s : kst) : Prop :=
  cl = false ->
  (forall z, k_zero s = Some (DWrite, z) -> k_write s = None) /\
  (forall z, k_zero s = Some (DRead, z) -> d_epoch z = 1) /\
  ((k_read s = None /\ k_next s = None /\ k_time s = None /\ k_upd s = None /\ accepted h = [] /\
    (forall w, k_write s = Some w -> app_ok w /\ d_epoch (a_dx w) = 3)) \/
   exists r n w, RS h s r n w).

Lemma ri_init : forall c, RI false [] (k_new c).
Proof. intros c _. cbn. splits; try discriminate. left. splits; auto; discriminate. Qed.

Lemma accepted_app : forall a b, accepted (a ++ b) = accepted a ++ accepted b.
Proof. intros. apply flat_map_app. Qed.
Definition quiet (x : kout) : Prop := match x with ORecv _ _ _ => False | OErrK EOverlap => False | _ => True end.
Lemma quiet_acc : forall h x, quiet x -> accepted (h ++ [x]) = accepted h /\ (~ In (OErrK EOverlap) (h ++ [x]) -> ~ In (OErrK EOverlap) h).
Proof.
  intros h x Q. rewrite accepted_app. split.
  - destruct x as [| | |[]|]; cbn in Q; try contradiction; cbn; apply app_nil_r.
  - intros K L. apply K. apply in_app_iff. auto.
Qed.

(** The write keys advance, when allowed to. *)
Lemma rs_upd_write : forall h s s' r n w, RS h s r n w -> upd s s' -> exists w', RS h s' r n w' /\ (k_time s <> None -> k_upd s <> None -> w' = w).
Proof.
  intros h s s' r n w I [->|[w0 [w' [r0 [E1 [E2 [E3 [[E4 ->] ->]]]]]]]]; [exists w; auto|].
  destruct I. rewrite rs_w0 in E1. apply some_inj in E1. subst w0. rewrite rs_r0 in E2. apply some_inj in E2. subst r0.
  destruct rs_okw0 as [O1 [O2 O3]].
  assert (NT : match k_upd s with Some _ => k_time s = None | None => True end).
  { destruct (k_upd s); [|exact Logic.I]. destruct (k_time s); [|reflexivity]. lia. }
  eexists. split.
  - split; cbn [k_read k_next k_write k_upd k_time with_write]; eauto.
    + unfold app_ok. cbn [a_dx a_secret d_epoch d_gen dx_next]. splits; lia.
    + cbn [a_dx d_epoch dx_next]. lia.
    + destruct (k_upd s) as [u|]; [|exact rs_upd0]. rewrite NT in *. exact rs_upd0.
  - intros T U. destruct (k_upd s); [congruence|congruence].
Qed.
Lemma rs_quiet : forall h x s r n w, RS h s r n w -> quiet x -> RS (h ++ [x]) s r n w.
Proof.
  intros h x s r n w I Q. destruct (quiet_acc h x Q) as [A B]. destruct I. split; rewrite ?A; auto.
Qed.
(** Only the number of invocations left of a read key changes. *)
Definition same_dx (x y : dx) : Prop := d_epoch y = d_epoch x /\ d_gen y = d_gen x /\ d_min y = d_min x /\ d_s y = d_s x /\ d_e y = d_e x.
Lemma rs_same : forall h s r n w r' n', RS h s r n w -> same_dx (a_dx r) (a_dx r') -> same_dx (a_dx n) (a_dx n') -> a_secret r' = a_secret r -> a_secret n' = a_secret n ->
  RS h (with_next (Some n') (with_read (Some r') s)) r' n' w.
Proof.
  intros h s r n w r' n' I [A1 [A2 [A3 [A4 A5]]]] [B1 [B2 [B3 [B4 B5]]]] S1 S2. destruct I. unfold app_ok in *.
  split; cbn [k_read k_next k_write k_upd k_time with_next with_read]; unfold app_ok; rewrite ?A1, ?A2, ?A3, ?A4, ?A5, ?B1, ?B2, ?B3, ?B4, ?B5, ?S1, ?S2; auto.
Qed.

Definition out_of (e g pn : N) (res : option kerr) : kout := match res with None => ORecv e g pn | Some err => OErrK err end.
Lemma acc_recv : forall h e g p, 3 <= e -> accepted (h ++ [ORecv e g p]) = accepted h ++ [(e, p)].
Proof. intros. rewrite accepted_app. cbn. unfold GEN0. replace (3 <=? e) with true by dlia. reflexivity. Qed.
Lemma acc_err : forall h e, accepted (h ++ [OErrK e]) = accepted h.
Proof. intros. rewrite accepted_app. cbn. apply app_nil_r. Qed.
Lemma clean_app : forall h x, ~ In (OErrK EOverlap) (h ++ [x]) -> ~ In (OErrK EOverlap) h.
Proof. intros h x K L. apply K. apply in_app_iff. auto. Qed.
Lemma in_snoc : forall {A} (x y : A) l, In x (l ++ [y]) <-> In x l \/ x = y.
Proof. intros. rewrite in_app_iff. cbn. intuition congruence. Qed.

Lemma acc_read : forall h s r n w y pn s2 res, RS h s r n w ->
  d_epoch y = d_epoch (a_dx r) -> d_gen y = d_gen (a_dx r) -> d_min y = d_min (a_dx r) -> d_min (a_dx r) <= pn ->
  d_e y = N.max (pn + 1) (d_e (a_dx r)) -> d_s y = (if d_s (a_dx r) =? d_e (a_dx r) then pn else d_s (a_dx r)) ->
  check_overlap (with_read (Some (with_dx y r)) s) = (s2, res) ->
  exists r' n', RS (h ++ [out_of (d_epoch y) (d_gen y) pn res]) s2 r' n' w /\ (res = None \/ res = Some EOverlap).
Proof.
  intros h s r n w y pn s2 res I Y1 Y2 Y3 PM Y4 Y5 H. destruct I. unfold check_overlap in H. cbn [k_time k_next k_read with_read] in H.
  rewrite rs_n0 in H.
  assert (YS : d_s y <= d_e y) by (rewrite Y4, Y5; destruct (N.eqb_spec (d_s (a_dx r)) (d_e (a_dx r))); lia).
  assert (E3 : 3 <= d_epoch (a_dx r)) by (destruct rs_okr0; tauto).
  destruct (k_time s) as [t|] eqn:T.
  - destruct (dx_continue (a_dx n) (a_dx (with_dx y r))) as [m ok] eqn:C. apply continue_spec in C. cbn [a_dx with_dx] in C.
    destruct C as [C1 [C2 [C3 [C4 [C5 C]]]]]. apply pair_equal_spec in H. destruct H as [<- <-].
    assert (TN : Some t <> None) by discriminate. destruct (rs_time0 TN) as [RT1 RT2].
    destruct rs_okr0 as [OR1 [OR2 OR3]]. destruct rs_okn0 as [ON1 [ON2 ON3]].
    exists (with_dx y r), (with_dx m n).
    destruct ok; cbn [out_of].
    + split; [|left; reflexivity].
      assert (M1 : d_s m = d_e y) by (destruct C as [C|[C|C]]; intuition congruence).
      assert (NR : forall p, In (d_epoch (a_dx n), p) (accepted h) -> d_e y <= p).
      { intros p HI. apply rs_hn0 in HI. destruct C as [C|[C|C]]; [lia|destruct C as [_ [_ [K _]]]; discriminate|lia]. }
      split; cbn [k_read k_next k_write k_upd k_time with_next with_read a_dx with_dx a_secret]; auto; rewrite ?acc_recv by lia.
      * unfold app_ok. cbn. splits; lia.
      * unfold app_ok. cbn. splits; lia.
      * lia. * lia.
      * destruct C as [C|[C|C]]; [lia|destruct C as [_ [_ [K _]]]; discriminate|lia].
      * lia.
      * rewrite T. unfold has_0rtt_read in *. cbn [k_zero with_next with_read]. destruct (k_upd s); [|].
        -- destruct rs_upd0 as [U1 [U2 U3]]. splits; auto; lia.
        -- destruct rs_upd0 as [U1 [U2 U3]]. splits; auto; try lia. 
      * intros _. split; lia.
      * intros e p HI. apply in_snoc in HI. destruct HI as [HI|HI]; [apply rs_top0 in HI; lia|inv HI; lia].
      * intros p HI. apply in_snoc in HI. rewrite Y1 in *. destruct HI as [HI|HI]; [apply rs_hr0 in HI; lia|inv HI; lia].
      * intros p HI. apply in_snoc in HI. rewrite C1 in *. destruct HI as [HI|HI]; [|inv HI; lia].
        pose proof (NR _ HI). apply rs_hn0 in HI. destruct C as [C|[C|C]]; lia.
      * intros e p HI L. apply in_snoc in HI. rewrite Y1, Y3 in *. destruct HI as [HI|HI]; [exact (rs_hp0 e p HI L)|inv HI; lia].
      * intros e p p' HI HI'. apply in_snoc in HI. apply in_snoc in HI'. destruct HI as [HI|HI]; destruct HI' as [HI'|HI'].
        -- exact (rs_order0 _ _ _ HI HI').
        -- apply pair_equal_spec in HI'. destruct HI' as [L ->]. assert (p < d_min (a_dx r)) by (apply (rs_hp0 e p HI); lia). lia.
        -- apply pair_equal_spec in HI. destruct HI as [-> ->]. replace (d_epoch y + 1) with (d_epoch (a_dx n)) in HI' by lia. apply NR in HI'. lia.
        -- inv HI. inv HI'. lia.
      * intros CL. apply clean_app in CL. destruct (rs_clean0 CL) as [K1 [K2 [K3 K4]]]. splits; [lia| | |].
        -- intros. lia.
        -- intros e p HI L. apply in_snoc in HI. rewrite Y1, Y3 in *. destruct HI as [HI|HI]; [exact (K3 e p HI L)|inv HI; lia].
        -- intros e p e' p' HI HI' L. apply in_snoc in HI. apply in_snoc in HI'. destruct HI as [HI|HI]; destruct HI' as [HI'|HI'].
           ++ exact (K4 _ _ _ _ HI HI' L).
           ++ inv HI'. assert (p < d_min (a_dx r)) by (apply (K3 e p HI); lia). lia.
           ++ apply pair_equal_spec in HI. destruct HI as [-> ->]. pose proof (rs_top0 _ _ HI'). assert (e' = d_epoch (a_dx n)) as -> by lia. apply NR in HI'. lia.
           ++ inv HI. inv HI'. lia.
    + split; [|right; reflexivity].
      destruct C as [C|[C|C]]; [destruct C as [_ [K _]]; discriminate| |destruct C as [_ [_ [K _]]]; discriminate].
      split; cbn [k_read k_next k_write k_upd k_time with_next with_read a_dx with_dx a_secret]; auto; rewrite ?acc_err.
      * unfold app_ok. cbn. splits; lia.
      * unfold app_ok. cbn. splits; lia.
      * lia. * lia. * lia. * lia.
      * rewrite T. unfold has_0rtt_read in *. cbn [k_zero with_next with_read]. destruct (k_upd s); [|].
        -- destruct rs_upd0 as [U1 [U2 U3]]. splits; auto; lia.
        -- destruct rs_upd0 as [U1 [U2 U3]]. splits; auto; try lia.
      * intros _. split; lia.
      * intros e p HI. apply rs_top0 in HI. lia.
      * intros p HI. rewrite Y1 in HI. apply rs_hr0 in HI. lia.
      * intros p HI. rewrite C1 in HI. apply rs_hn0 in HI. lia.
      * intros e p HI L. rewrite Y1 in L. rewrite Y3. exact (rs_hp0 e p HI L).
      * exact rs_order0.
      * intros CL. exfalso. apply CL. apply in_snoc. auto.
  - apply pair_equal_spec in H. destruct H as [<- <-]. cbn [out_of].
    assert (NE : d_s (a_dx n) = d_e (a_dx n)) by (destruct (k_upd s); tauto).
    assert (NR : forall p, ~ In (d_epoch (a_dx n), p) (accepted h)) by (intros p HI; apply rs_hn0 in HI; lia).
    destruct rs_okr0 as [OR1 [OR2 OR3]].
    exists (with_dx y r), n. split; [|left; reflexivity].
    split; cbn [k_read k_next k_write k_upd k_time with_next with_read a_dx with_dx a_secret]; auto; rewrite ?acc_recv by lia.
    * unfold app_ok. cbn. splits; lia.
    * lia. * lia. 
    * rewrite T. unfold has_0rtt_read in *. cbn [k_zero with_next with_read]. destruct (k_upd s); [|].
      -- destruct rs_upd0 as [U1 [U2 U3]]. splits; auto; lia.
      -- destruct rs_upd0 as [U1 [U2 U3]]. splits; auto; try lia.
    * rewrite T. congruence.
    * intros e p HI. apply in_snoc in HI. destruct HI as [HI|HI]; [apply rs_top0 in HI; lia|inv HI; lia].
    * intros p HI. apply in_snoc in HI. rewrite Y1 in *. destruct HI as [HI|HI]; [apply rs_hr0 in HI; lia|inv HI; lia].
    * intros p HI. apply in_snoc in HI. destruct HI as [HI|HI]; [exfalso; exact (NR _ HI)|inv HI; lia].
    * intros e p HI L. apply in_snoc in HI. rewrite Y1, Y3 in *. destruct HI as [HI|HI]; [exact (rs_hp0 e p HI L)|inv HI; lia].
    * intros e p p' HI HI'. apply in_snoc in HI. apply in_snoc in HI'. destruct HI as [HI|HI]; destruct HI' as [HI'|HI'].
      -- exact (rs_order0 _ _ _ HI HI').
      -- apply pair_equal_spec in HI'. destruct HI' as [L ->]. assert (p < d_min (a_dx r)) by (apply (rs_hp0 e p HI); lia). lia.
      -- apply pair_equal_spec in HI. destruct HI as [-> ->]. replace (d_epoch y + 1) with (d_epoch (a_dx n)) in HI' by lia. exfalso. exact (NR _ HI').
      -- inv HI. inv HI'. lia.
    * intros CL. apply clean_app in CL. destruct (rs_clean0 CL) as [K1 [K2 [K3 K4]]]. splits; [lia|lia| |].
      -- intros e p HI L. apply in_snoc in HI. rewrite Y1, Y3 in *. destruct HI as [HI|HI]; [exact (K3 e p HI L)|inv HI; lia].
      -- intros e p e' p' HI HI' L. apply in_snoc in HI. apply in_snoc in HI'. destruct HI as [HI|HI]; destruct HI' as [HI'|HI'].
         ++ exact (K4 _ _ _ _ HI HI' L).
         ++ inv HI'. assert (p < d_min (a_dx r)) by (apply (K3 e p HI); lia). lia.
         ++ apply pair_equal_spec in HI. destruct HI as [-> ->]. pose proof (rs_top0 _ _ HI'). assert (e' = d_epoch (a_dx n)) as -> by lia. exfalso. exact (NR _ HI').
         ++ inv HI. inv HI'. lia.
Qed.

Lemma acc_next : forall h s r n w y pn s1 s2 res w' t, RS h s r n w ->
  d_epoch y = d_epoch (a_dx n) -> d_gen y = d_gen (a_dx n) -> d_min y = d_min (a_dx n) -> d_min (a_dx n) <= pn ->
  d_e y = N.max (pn + 1) (d_e (a_dx n)) -> d_s y = (if d_s (a_dx n) =? d_e (a_dx n) then pn else d_s (a_dx n)) ->
  k_read s1 = Some r -> k_next s1 = Some (with_dx y n) -> k_write s1 = Some w' -> app_ok w' -> d_epoch (a_dx w') = d_epoch (a_dx n) ->
  k_upd s1 = Some (d_epoch (a_dx n)) -> k_time s1 = Some t -> has_0rtt_read s1 = false ->
  check_overlap s1 = (s2, res) ->
  exists n', RS (h ++ [out_of (d_epoch y) (d_gen y) pn res]) s2 r n' w' /\ (res = None \/ res = Some EOverlap).
Proof.
  intros h s r n w y pn s1 s2 res w' t I Y1 Y2 Y3 PM Y4 Y5 S1 S2 S3 S4 S5 S6 S7 S8 H. destruct I. unfold check_overlap in H.
  rewrite S1, S2, S7 in H.
  assert (YS : d_s y < d_e y) by (rewrite Y4, Y5; destruct (N.eqb_spec (d_s (a_dx n)) (d_e (a_dx n))); lia).
  destruct (dx_continue (a_dx (with_dx y n)) (a_dx r)) as [m ok] eqn:C. apply continue_spec in C. cbn [a_dx with_dx] in C.
  destruct C as [C1 [C2 [C3 [C4 [C5 C]]]]]. apply pair_equal_spec in H. destruct H as [<- <-].
  destruct rs_okr0 as [OR1 [OR2 OR3]]. destruct rs_okn0 as [ON1 [ON2 ON3]].
  assert (NS : d_s (a_dx n) < d_e (a_dx n) -> d_s y = d_s (a_dx n) /\ d_s (a_dx n) <= pn /\ d_e (a_dx r) <= pn).
  { intros L. assert (T : k_time s <> None).
    { destruct (k_upd s); [destruct (k_time s); [discriminate|lia]|lia]. }
    destruct (rs_time0 T) as [T1 T2]. specialize (T2 L). rewrite Y5. destruct (N.eqb_spec (d_s (a_dx n)) (d_e (a_dx n))); lia. }
  assert (NE : d_s (a_dx n) = d_e (a_dx n) -> d_s y = pn) by (intros L; rewrite Y5; destruct (N.eqb_spec (d_s (a_dx n)) (d_e (a_dx n))); lia).
  assert (NH : forall p, In (d_epoch (a_dx n), p) (accepted h) -> d_s y <= p < d_e (a_dx n)).
  { intros p HI. apply rs_hn0 in HI. destruct NS as [NS _]; lia. }
  exists (with_dx m (with_dx y n)).
  destruct ok; cbn [out_of].
  - split; [|left; reflexivity].
    assert (M1 : d_s m = d_e (a_dx r) /\ d_e m = d_e y /\ d_e (a_dx r) <= d_s y) by (destruct C as [C|[C|C]]; [lia|destruct C as [_ [_ [K _]]]; discriminate|lia]).
    destruct M1 as [M1 [M2 M3]]. assert (RP : d_e (a_dx r) <= pn) by lia.
    split; unfold has_0rtt_read in *; cbn [k_read k_next k_write k_upd k_time k_zero with_next with_read a_dx with_dx a_secret]; auto; rewrite ?acc_recv by lia.
    + unfold app_ok. splits; lia.
    + unfold app_ok. cbn. splits; lia.
    + lia. + lia. + lia. + lia.
    + rewrite S6, S7. splits; auto; lia.
    + intros _. split; lia.
    + intros e p HI. apply in_snoc in HI. destruct HI as [HI|HI]; [apply rs_top0 in HI; lia|inv HI; lia].
    + intros p HI. apply in_snoc in HI. destruct HI as [HI|HI]; [exact (rs_hr0 _ HI)|inv HI; lia].
    + intros p HI. apply in_snoc in HI. rewrite C1, Y1 in HI. destruct HI as [HI|HI]; [apply NH in HI; lia|inv HI; lia].
    + intros e p HI L. apply in_snoc in HI. destruct HI as [HI|HI]; [exact (rs_hp0 e p HI L)|inv HI; lia].
    + intros e p p' HI HI'. apply in_snoc in HI. apply in_snoc in HI'. destruct HI as [HI|HI]; destruct HI' as [HI'|HI'].
      * exact (rs_order0 _ _ _ HI HI').
      * apply pair_equal_spec in HI'. destruct HI' as [L ->]. replace e with (d_epoch (a_dx r)) in HI by lia. apply rs_hr0 in HI. lia.
      * apply pair_equal_spec in HI. destruct HI as [-> ->]. apply rs_top0 in HI'. lia.
      * inv HI. inv HI'. lia.
    + intros CL. apply clean_app in CL. destruct (rs_clean0 CL) as [K1 [K2 [K3 K4]]]. splits; [lia|intros; lia| |].
      * intros e p HI L. apply in_snoc in HI. destruct HI as [HI|HI]; [exact (K3 e p HI L)|inv HI; lia].
      * intros e p e' p' HI HI' L. apply in_snoc in HI. apply in_snoc in HI'. destruct HI as [HI|HI]; destruct HI' as [HI'|HI'].
        -- exact (K4 _ _ _ _ HI HI' L).
        -- inv HI'. destruct (N.lt_ge_cases e (d_epoch (a_dx r))) as [G|G].
           ++ pose proof (K3 e p HI G). lia.
           ++ assert (e = d_epoch (a_dx r)) as -> by lia. apply rs_hr0 in HI. lia.
        -- inv HI. apply rs_top0 in HI'. lia.
        -- inv HI. inv HI'. lia.
  - split; [|right; reflexivity].
    destruct C as [C|[C|C]]; [lia| |destruct C as [_ [_ [K _]]]; discriminate].
    split; unfold has_0rtt_read in *; cbn [k_read k_next k_write k_upd k_time k_zero with_next with_read a_dx with_dx a_secret]; auto; rewrite ?acc_err.
    + unfold app_ok. splits; lia.
    + unfold app_ok. cbn. splits; lia.
    + lia. + lia. + lia. + lia.
    + rewrite S6, S7. splits; auto; lia.
    + intros _. split; lia.
    + intros e p HI. apply rs_top0 in HI. lia.
    + exact rs_hr0.
    + intros p HI. rewrite C1, Y1 in HI. apply NH in HI. lia.
    + exact rs_hp0.
    + exact rs_order0.
    + intros CL. exfalso. apply CL. apply in_snoc. auto.
Qed.

(** A genuine packet in the current phase. *)
Lemma finish_read : forall dbg ok t h s r n w y pn s' x, RS h s r n w ->
  d_epoch y = d_epoch (a_dx r) -> d_gen y = d_gen (a_dx r) -> d_min y = d_min (a_dx r) -> d_min (a_dx r) <= pn ->
  d_e y = N.max (pn + 1) (d_e (a_dx r)) -> d_s y = (if d_s (a_dx r) =? d_e (a_dx r) then pn else d_s (a_dx r)) ->
  finish_recv dbg ok t y pn (with_read (Some (with_dx y r)) s) = Some (s', x) ->
  k_zero s' = k_zero s /\ (fatal x = true \/ exists r' n', RS (h ++ [x]) s' r' n' w).
Proof.
  intros dbg ok t h s r n w y pn s' x I Y1 Y2 Y3 PM Y4 Y5 H. unfold finish_recv in H.
  destruct ok; cbn [negb] in H; [|inv H; split; [reflexivity|left; reflexivity]].
  assert (K : (if dx_needs_update y then update_received dbg (d_epoch y) t (with_read (Some (with_dx y r)) s) else Some (with_read (Some (with_dx y r)) s, None)) =
    Some (with_read (Some (with_dx y r)) s, None)).
  { destruct (dx_needs_update y) eqn:NU; [|reflexivity]. unfold dx_needs_update in NU. apply andb_prop in NU. destruct NU as [_ NU].
    unfold update_received. cbn [k_upd with_read]. destruct I. destruct (k_upd s) as [u|]; [|dlia].
    replace (d_epoch y <=? u) with true; [reflexivity|]. symmetry. apply N.leb_le. destruct (k_time s); lia. }
  rewrite K in H. destruct (check_overlap (with_read (Some (with_dx y r)) s)) as [s2 res] eqn:O.
  pose proof (overlap_keeps _ _ _ O) as [_ [OZ _]].
  destruct (acc_read _ _ _ _ _ _ _ _ _ I Y1 Y2 Y3 PM Y4 Y5 O) as [r' [n' [R E]]].
  destruct res as [e|]; inv H; (split; [exact OZ|right; exists r', n'; exact R]).
Qed.
(** A genuine packet in the next phase. *)
Lemma finish_next : forall dbg ok t h s r n w y pn s' x, RS h s r n w ->
  d_epoch y = d_epoch (a_dx n) -> d_gen y = d_gen (a_dx n) -> d_min y = d_min (a_dx n) -> d_min (a_dx n) <= pn ->
  d_e y = N.max (pn + 1) (d_e (a_dx n)) -> d_s y = (if d_s (a_dx n) =? d_e (a_dx n) then pn else d_s (a_dx n)) ->
  finish_recv dbg ok t y pn (with_next (Some (with_dx y n)) s) = Some (s', x) ->
  (k_zero s' = k_zero s \/ k_zero s' = None) /\ (fatal x = true \/ exists r' n' w', RS (h ++ [x]) s' r' n' w' /\ d_epoch (a_dx w') = d_epoch (a_dx n)).
Proof.
  intros dbg ok t h s r n w y pn s' x I Y1 Y2 Y3 PM Y4 Y5 H. unfold finish_recv in H.
  destruct ok; cbn [negb] in H; [|inv H; split; [left; reflexivity|left; reflexivity]].
  set (s0 := with_next (Some (with_dx y n)) s) in *.
  destruct (N.eq_dec (d_s (a_dx n)) (d_e (a_dx n))) as [EM|EM].
  - (* the first packet of the phase *)
    assert (NU : dx_needs_update y = true).
    { unfold dx_needs_update. destruct I. pose proof (rs_empty0 EM). rewrite Y1, Y4, Y5. destruct (N.eqb_spec (d_s (a_dx n)) (d_e (a_dx n))); [|lia].
      destruct rs_okr0. apply andb_true_intro. split; [apply N.eqb_eq|apply N.ltb_lt]; lia. }
    rewrite NU in H. destruct (update_received dbg (d_epoch y) t s0) as [[s1 re]|] eqn:U; [|discriminate].
    apply received_spec in U. destruct U as [[-> [-> [u [U1 U2]]]]|[_ [s2 [U V]]]].
    + (* already noticed *)
      destruct I as [J1 J2 J3 J4 J5 J6 J7 J8 J9 J10 J11 J12 J13 J14 J15 J16 J17 J18 J19]. unfold s0 in U1. cbn [k_upd with_next] in U1.
      destruct (check_overlap s0) as [s2 res] eqn:O. pose proof (overlap_keeps _ _ _ O) as [_ [OZ _]].
      pose proof J12 as J12'. rewrite U1 in J12. destruct J12 as [Z0 J12]. destruct (k_time s) as [t0|] eqn:T; [|lia]. destruct J12 as [-> J12].
      assert (I : RS h s r n w) by (split; auto; rewrite ?T; auto).
      destruct (acc_next h s r n w y pn s0 s2 res w t0 I Y1 Y2 Y3 PM Y4 Y5) as [n' [R E]]; auto.
      split; [left; destruct res; inv H; exact OZ|]. right. exists r, n', w. destruct res; inv H; (split; [exact R|lia]).
    + assert (I0 : RS h s r n w) by exact I.
      destruct I as [J1 J2 J3 J4 J5 J6 J7 J8 J9 J10 J11 J12 J13 J14 J15 J16 J17 J18 J19].
      destruct V as [[e [-> [-> VE]]]|[-> [-> [w' [r' [V1 [V2 V3]]]]]]].
      * (* no more keys *)
        split.
        { inv H. destruct (upd_cipher _ _ U) as [_ [-> _]]. left. reflexivity. }
        left. inv H. destruct VE as [->| ->]; reflexivity.
      * destruct (check_overlap _) as [s3 res] eqn:O in H. pose proof (overlap_keeps _ _ _ O) as [_ [OZ _]].
        pose proof (upd_cipher _ _ U) as [_ [UZ [UR [UN [_ UU]]]]]. cbn [k_zero k_read k_next k_upd with_upd with_next s0] in UZ, UR, UN, UU.
        unfold s0 in UZ, UR, UN. cbn [k_zero k_read k_next with_next] in UZ, UR, UN. rewrite J1 in UR.
        assert (r' = r) by congruence. subst r'.
        assert (W' : app_ok w' /\ d_epoch (a_dx w') = d_epoch (a_dx n)).
        { destruct U as [->|[w0 [w1 [r0 [F1 [F2 [F3 [[F4 ->] ->]]]]]]]].
          - unfold s0 in V1. cbn in V1. rewrite J3 in V1. apply some_inj in V1. subst w'. split; [exact J6|lia].
          - unfold s0 in F1, F2. cbn [k_write k_read with_upd with_next] in F1, F2, V1. rewrite J3 in F1. apply some_inj in F1. subst w0.
            rewrite J1 in F2. apply some_inj in F2. subst r0. apply some_inj in V1. subst w'.
            destruct J6 as [A1 [A2 A3]]. unfold app_ok. cbn [a_dx a_secret d_epoch d_gen dx_next]. splits; lia. }
        destruct W' as [W1 W2].
        set (s4 := with_time (Some t) (if has_0rtt_read s2 then with_zero None s2 else s2)) in *.
        destruct (acc_next h s r n w y pn s4 s3 res w' t I0 Y1 Y2 Y3 PM Y4 Y5) as [n' [R E]]; try exact W1; try exact W2; try exact O; unfold s4 in *.
        -- destruct (has_0rtt_read s2); cbn; exact UR.
        -- destruct (has_0rtt_read s2); cbn; exact UN.
        -- destruct (has_0rtt_read s2); cbn; exact V1.
        -- rewrite <- Y1. destruct (has_0rtt_read s2); cbn; exact UU.
        -- destruct (has_0rtt_read s2); reflexivity.
        -- destruct (has_0rtt_read s2) eqn:HZ; [reflexivity|exact HZ].
        -- split; [|right; exists r, n', w'; destruct res; inv H; split; auto].
           destruct res; inv H; rewrite OZ; destruct (has_0rtt_read s2); cbn; auto; left; exact UZ.
  - (* a later packet *)
    assert (I0 : RS h s r n w) by exact I.
    destruct I as [J1 J2 J3 J4 J5 J6 J7 J8 J9 J10 J11 J12 J13 J14 J15 J16 J17 J18 J19].
    destruct (k_upd s) as [u|] eqn:U; [|lia]. destruct J12 as [Z0 J12]. destruct (k_time s) as [t0|] eqn:T; [|lia]. destruct J12 as [-> J12].
    assert (K : (if dx_needs_update y then update_received dbg (d_epoch y) t s0 else Some (s0, None)) = Some (s0, None)).
    { destruct (dx_needs_update y); [|reflexivity]. unfold update_received, s0. cbn [k_upd with_next]. rewrite U.
      replace (d_epoch y <=? d_epoch (a_dx n)) with true by dlia. reflexivity. }
    rewrite K in H. destruct (check_overlap s0) as [s2 res] eqn:O. pose proof (overlap_keeps _ _ _ O) as [_ [OZ _]].
    destruct (acc_next h s r n w y pn s0 s2 res w t0 I0 Y1 Y2 Y3 PM Y4 Y5) as [n' [R E]]; auto.
    split; [left; destruct res; inv H; exact OZ|]. right. exists r, n', w. destruct res; inv H; (split; [exact R|lia]).
Qed.

Lemma fatal_quiet : forall x, fatal x = false -> x <> OErrK EOverlap -> (forall e g p, x <> ORecv e g p) -> quiet x.
Proof. intros [| | |[]|] F O R; cbn in *; try exact Logic.I; try congruence. Qed.

Lemma ri_send : forall dbg b cl h s s' x, WA false cl h s -> RI cl h s -> k_send dbg b s = Some (s', x) -> RI (cl || fatal x) (h ++ [x]) s'.
Proof.
  intros dbg b cl h s s' x WI I H CL. apply orb_false_elim in CL. destruct CL as [CL FX]. destruct (I CL) as [Z1 [Z2 R]].
  destruct WI as [V1 V2 _ _ _ _ _ _]. apply send_spec in H. destruct H as [[-> ->]|[[-> ->]|[H|H]]].
  - splits; auto. destruct R as [[R1 [R2 [R3 [R4 [R5 R6]]]]]|[r [n [w R]]]]; [left; splits; auto; rewrite accepted_app, R5; reflexivity|].
    right. exists r, n, w. apply rs_quiet; [exact R|exact Logic.I].
  - discriminate.
  - destruct H as [w [d [r [W [E [U X]]]]]]. destruct (V2 _ W) as [OK [D1 D2]]. pose proof (encrypt_spec _ _ _ _ E D1 D2) as [E1 [E2 [E3 [E4 EE]]]].
    assert (Q : quiet x) by (unfold enc_out in X; destruct EE as [[-> _]|[-> _]]; [subst x; discriminate|destruct X as [->|[e [_ F]]]; [exact Logic.I|congruence]]).
    pose proof (upd_cipher _ _ U) as [_ [UZ [UR [UN [UT UU]]]]]. cbn [k_zero k_read k_next k_time k_upd with_write] in UZ, UR, UN, UT, UU.
    splits; [| rewrite UZ; exact Z2|].
    + intros z Ez. rewrite UZ in Ez. apply Z1 in Ez. congruence.
    + destruct R as [[R1 [R2 [R3 [R4 [R5 R6]]]]]|[r0 [n [w0 R]]]].
      * left. rewrite UR, UN, UT, UU. destruct (quiet_acc h x Q) as [-> _]. splits; auto.
        destruct U as [->|[w1 [w2 [r1 [_ [K _]]]]]]; [|cbn in K; congruence]. intros w1 Ew. cbn in Ew. apply some_inj in Ew. subst w1.
        destruct (R6 _ W) as [[O1 [O2 O3]] O4]. unfold app_ok. cbn [a_dx a_secret with_dx]. splits; lia.
      * right. assert (R' : RS h (with_write (Some (with_dx d w)) s) r0 n (with_dx d w)).
        { destruct R. rewrite W in rs_w0. apply some_inj in rs_w0. subst w0. split; cbn [k_read k_next k_write k_upd k_time with_write]; auto.
          - unfold app_ok. cbn [a_dx a_secret with_dx]. destruct OK as [O1 [O2 O3]]. splits; lia.
          - cbn [a_dx with_dx]. lia.
          - unfold has_0rtt_read in *. cbn [k_zero with_write a_dx with_dx]. rewrite E1. exact rs_upd0. }
        destruct (rs_upd_write _ _ _ _ _ _ R' U) as [w' [R2 _]]. exists r0, n, w'. apply rs_quiet; auto.
  - destruct H as [W [z [d [r [Z [E [-> X]]]]]]]. destruct (V1 _ Z) as [_ [A1 [A2 [D1 D2]]]]. pose proof (encrypt_spec _ _ _ _ E D1 D2) as [E1 [E2 [E3 [E4 EE]]]].
    assert (Q : quiet x) by (unfold enc_out in X; destruct EE as [[-> _]|[-> _]]; [subst x; discriminate|destruct X as [->|[e [_ F]]]; [exact Logic.I|congruence]]).
    cbn [k_zero k_write k_read k_next k_time k_upd with_zero]. splits; auto; [congruence|].
    destruct R as [[R1 [R2 [R3 [R4 [R5 R6]]]]]|[r0 [n [w0 R]]]]; [left; destruct (quiet_acc h x Q) as [-> _]; splits; auto|].
    destruct R. congruence.
Qed.

Lemma rs_upd_quiet : forall h s s' x r n w, RS h s r n w -> upd s s' -> quiet x -> exists w', RS (h ++ [x]) s' r n w'.
Proof. intros h s s' x r n w R U Q. destruct (rs_upd_write _ _ _ _ _ _ R U) as [w' [R' _]]. exists w'. apply rs_quiet; auto. Qed.

Lemma ri_upd : forall cl h s s' x, RI cl h s -> cl = false -> upd s s' -> quiet x -> RI (cl || fatal x) (h ++ [x]) s'.
Proof.
  intros cl h s s' x I CL U Q _. destruct (I CL) as [Z1 [Z2 R]]. pose proof (upd_cipher _ _ U) as [_ [UZ [UR [UN [UT UU]]]]]. rewrite UZ.
  splits; [|exact Z2|].
  - intros z Ez. apply Z1 in Ez. destruct U as [->|[w1 [w2 [r1 [K _]]]]]; congruence.
  - destruct R as [[R1 [R2 [R3 [R4 [R5 R6]]]]]|[r0 [n [w0 R]]]].
    + left. rewrite UR, UN, UT, UU. destruct (quiet_acc h x Q) as [-> _]. splits; auto.
      destruct U as [->|[w1 [w2 [r1 [_ [K _]]]]]]; [exact R6|congruence].
    + right. destruct (rs_upd_quiet _ _ _ x _ _ _ R U Q) as [w' R']. eauto.
Qed.
Lemma ri_same : forall cl h s x, RI cl h s -> quiet x -> RI (cl || fatal x) (h ++ [x]) s.
Proof.
  intros cl h s x I Q CL. apply orb_false_elim in CL. destruct CL as [CL FX]. refine (ri_upd cl h s s x I CL _ Q _); [left; reflexivity|rewrite CL, FX; reflexivity].
Qed.

Lemma ri_step : forall dbg o cl h s s' x, WA false cl h s -> RI cl h s -> (cl = true -> exists b, o = KSend b) -> k_step dbg o s = Some (s', x) -> RI (cl || fatal x) (h ++ [x]) s'.
Proof.
  intros dbg o cl h s s' x WI I CS H. destruct o as [d|rej|ex|b|ph pn g ok t|pn g ok t|la| |now]; cbn [k_step] in H;
    try exact (ri_send _ _ _ _ _ _ _ WI I H); intros CL; pose proof CL as CL0; apply orb_false_elim in CL; destruct CL as [CL FX]; pose proof (I CL) as [Z1 [Z2 R]].
  - (* 0-RTT keys *)
    assert (K : x = ODoneK /\ k_read s = None /\ s' = with_zero (Some (d, dx_new d (k_cipher s) 1)) s /\ (d = DWrite -> k_write s = None)).
    { destruct d; destruct (k_zero s); try discriminate; destruct (k_write s) eqn:W; try discriminate; destruct (k_read s) eqn:Rd; try discriminate; inv H; splits; auto; discriminate. }
    destruct K as [-> [K2 [-> K3]]]. cbn [k_zero k_write k_read k_next k_time k_upd with_zero]. splits.
    + intros z E. inv E. auto.
    + intros z E. inv E. reflexivity.
    + destruct R as [R|[r [n [w R]]]]; [left; rewrite accepted_app; cbn; rewrite app_nil_r; exact R|destruct R; congruence].
  - (* write keys *)
    unfold set_write in H. set (s0 := if rej then with_zero None s else s) in *.
    assert (S0 : k_write s0 = k_write s /\ k_read s0 = k_read s /\ k_next s0 = k_next s /\ k_time s0 = k_time s /\ k_upd s0 = k_upd s) by (subst s0; destruct rej; auto).
    destruct S0 as [S1 [S2 [S3 [S4 S5]]]]. rewrite S1 in H. destruct (k_write s) as [w|] eqn:W; [discriminate|].
    assert (K : exists a, s' = with_write (Some a) (with_zero None s0) /\ x = ODoneK /\ app_ok a /\ d_epoch (a_dx a) = 3).
    { destruct (k_zero s0) as [[[|] z]|].
      - inv H. eexists. splits; [reflexivity|reflexivity| |reflexivity]. unfold app_ok. cbn. splits; lia.
      - cbn in H. inv H. eexists. splits; [reflexivity|reflexivity| |reflexivity]. unfold app_ok. cbn. splits; lia.
      - inv H. eexists. splits; [reflexivity|reflexivity| |reflexivity]. unfold app_ok. cbn. splits; lia. }
    destruct K as [a [-> [-> [K1 K2]]]]. cbn [k_zero k_write k_read k_next k_time k_upd with_zero with_write]. splits; try discriminate.
    destruct R as [[R1 [R2 [R3 [R4 [R5 R6]]]]]|[r [n [w R]]]]; [|destruct R; congruence].
    left. rewrite S2, S3, S4, S5, accepted_app, R5. splits; auto. intros w E. inv E. auto.
  - (* read keys *)
    unfold set_read in H. destruct (k_write s) as [w|] eqn:W; [|discriminate]. destruct (k_read s) eqn:Rd; [discriminate|].
    destruct R as [[R1 [R2 [R3 [R4 [R5 R6]]]]]|[r [n [w0 R]]]]; [|destruct R; congruence]. destruct (R6 _ eq_refl) as [OW EW].
    set (a0 := app_new DRead (k_cipher s)) in *.
    destruct (match k_zero s with Some (DRead, z) => dx_continue (a_dx a0) z | _ => (a_dx a0, true) end) as [y okb] eqn:C.
    assert (Y : okb = true /\ d_epoch y = 3 /\ d_gen y = 0 /\ d_s y = d_e y /\ d_min y = d_e y).
    { destruct (k_zero s) as [[[|] z]|]; [apply continue_spec in C; subst a0; cbn in C; lia|inv C; subst a0; cbn; splits; reflexivity|inv C; subst a0; cbn; splits; reflexivity]. }
    destruct Y as [-> [Y1 [Y2 [Y3 Y4]]]]. cbn [negb] in H. unfold app_next in H. cbn [a_dx with_dx a_secret] in H. rewrite Y1 in H.
    change (3 =? 2 ^ 64 - 1) with false in H. cbv iota in H. cbn [res_out] in H.
    set (s1 := match k_zero s with Some _ => with_time (Some ex) s | None => s end) in *.
    assert (S1 : k_zero s1 = k_zero s /\ k_write s1 = k_write s /\ k_upd s1 = k_upd s) by (subst s1; destruct (k_zero s) eqn:Z9; cbn; auto).
    destruct S1 as [S1 [S2 S3]].
    apply some_inj, pair_equal_spec in H. destruct H as [<- <-]. cbn [k_zero with_read with_next]. rewrite S1. splits; [|exact Z2|].
    + intros z E. apply Z1 in E. congruence.
    + right. eexists. eexists. exists w. split; cbn [k_zero k_write k_read k_next k_time k_upd with_read with_next]; try reflexivity; try solve [cbn [a_dx with_dx d_epoch d_s d_e d_min dx_next]; lia].
      * congruence.
      * unfold app_ok. cbn [a_dx with_dx a_secret]. subst a0. cbn [app_new a_secret]. splits; lia.
      * unfold app_ok. cbn [a_dx with_dx a_secret d_epoch d_gen dx_next]. subst a0. cbn [app_new a_secret]. splits; lia.
      * exact OW.
      * rewrite S3, R4. cbn [a_dx with_dx d_epoch d_s d_e d_min dx_next]. splits; auto.
        unfold has_0rtt_read. cbn [k_zero with_read with_next]. rewrite S1. subst s1. destruct (k_zero s) as [[[|] z]|] eqn:Z; intros TT; cbn in *; try reflexivity; try (specialize (Z1 z eq_refl)); congruence.
      * rewrite accepted_app, R5. intros e p [].
      * rewrite accepted_app, R5. intros p [].
      * rewrite accepted_app, R5. intros p [].
      * rewrite accepted_app, R5. intros e p [].
      * rewrite accepted_app, R5. intros e p p' [].
      * rewrite accepted_app, R5. intros _. cbn [a_dx with_dx d_epoch d_s d_e d_min dx_next]. splits; [lia|lia|intros e p []|intros e p e' p' []].
  - (* a 1-RTT packet *)
    unfold k_recv in H. destruct (k_read s) as [r|] eqn:Rd; [|inv H; refine (ri_same _ _ _ _ I _ CL0); exact Logic.I].
    destruct R as [[R1 _]|[r0 [n [w R]]]]; [discriminate|].
    assert (r0 = r) by (destruct R; congruence). subst r0.
    assert (Nx : k_next s = Some n) by (destruct R; assumption).
    destruct (rx_app ph s) as [[|]|] eqn:RX; [| |inv H; refine (ri_same _ _ _ _ I _ CL0); exact Logic.I].
    + destruct (dx_decrypt pn g (a_dx r)) as [[y re]|] eqn:D; [|discriminate]. apply decrypt_spec in D. destruct D as [D1 [D2 [D3 D]]].
      destruct re as [e|].
      * inv H. assert (QX : recv_err y e = OErrK EOverlap \/ quiet (recv_err y e)).
        { destruct D as [[D _]|[_ [_ [[D _]|[[D|D] _]]]]]; inv D; cbn; auto. }
        assert (SD : same_dx (a_dx r) y).
        { unfold same_dx. destruct D as [[_ ->]|[_ [_ [[K _]|[_ [K1 K2]]]]]]; [auto|discriminate|auto]. }
        assert (RR : RS h (with_read (Some (with_dx y r)) s) (with_dx y r) n w).
        { pose proof (rs_same h s r n w (with_dx y r) n R SD) as Q. assert (SN : same_dx (a_dx n) (a_dx n)) by (unfold same_dx; auto). specialize (Q SN eq_refl eq_refl).
          destruct Q. split; auto. }
        cbn [k_zero k_write with_read]. splits; auto. right. exists (with_dx y r), n, w.
        destruct QX as [QX|QX]; [|apply rs_quiet; auto]. rewrite QX. destruct RR. split; rewrite ?acc_err; auto.
        intros Cn. exfalso. apply Cn. apply in_snoc. auto.
      * destruct D as [[K _]|[_ [_ [[_ [_ [D4 [D5 D6]]]]|[[K|K] _]]]]]; try discriminate.
        destruct (finish_read _ _ _ _ _ _ _ _ _ _ _ _ R D1 D2 D3 D4 D5 D6 H) as [F1 [F2|[r' [n' F2]]]]; [congruence|].
        rewrite F1. splits; [|exact Z2|right; eauto]. intros z E. apply Z1 in E. destruct F2. destruct R. congruence.
    + rewrite Nx in H. destruct (dx_decrypt pn g (a_dx n)) as [[y re]|] eqn:D; [|discriminate]. apply decrypt_spec in D. destruct D as [D1 [D2 [D3 D]]].
      destruct re as [e|].
      * inv H. assert (QX : recv_err y e = OErrK EOverlap \/ quiet (recv_err y e)).
        { destruct D as [[D _]|[_ [_ [[D _]|[[D|D] _]]]]]; inv D; cbn; auto. }
        assert (SD : same_dx (a_dx n) y).
        { unfold same_dx. destruct D as [[_ ->]|[_ [_ [[K _]|[_ [K1 K2]]]]]]; [auto|discriminate|auto]. }
        assert (RR : RS h (with_next (Some (with_dx y n)) s) r (with_dx y n) w).
        { assert (SN : same_dx (a_dx r) (a_dx r)) by (unfold same_dx; auto). pose proof (rs_same h s r n w r (with_dx y n) R SN SD eq_refl eq_refl) as Q.
          destruct Q. split; auto. }
        cbn [k_zero k_write with_next]. splits; auto. right. exists r, (with_dx y n), w.
        destruct QX as [QX|QX]; [|apply rs_quiet; auto]. rewrite QX. destruct RR. split; rewrite ?acc_err; auto.
        intros Cn. exfalso. apply Cn. apply in_snoc. auto.
      * destruct D as [[K _]|[_ [_ [[_ [_ [D4 [D5 D6]]]]|[[K|K] _]]]]]; try discriminate.
        destruct (finish_next _ _ _ _ _ _ _ _ _ _ _ _ R D1 D2 D3 D4 D5 D6 H) as [F1 [F2|[r' [n' [w' [F2 _]]]]]]; [congruence|].
        splits; [| |right; eauto]; intros z E; destruct F1 as [F1|F1]; rewrite F1 in E; try discriminate.
        -- apply Z1 in E. destruct R. congruence.
        -- exact (Z2 _ E).
  - (* a 0-RTT packet *)
    unfold k_recv0 in H. destruct (k_zero s) as [[[|] z]|] eqn:Z; [|inv H; refine (ri_same _ _ _ _ I _ CL0); exact Logic.I|inv H; refine (ri_same _ _ _ _ I _ CL0); exact Logic.I].
    destruct (dx_decrypt pn g z) as [[y re]|] eqn:D; [|discriminate]. apply decrypt_spec in D. destruct D as [D1 [D2 [D3 D]]].
    specialize (Z2 z eq_refl).
    set (s1 := with_zero (Some (DRead, y)) s) in *.
    assert (HZ : has_0rtt_read s1 = has_0rtt_read s) by (unfold has_0rtt_read, s1; cbn; rewrite Z; reflexivity).
    assert (I1 : RI cl h s1).
    { intros _. cbn [k_zero k_write k_read k_next k_time k_upd with_zero s1]. unfold s1. cbn [k_zero k_write k_read k_next k_time k_upd with_zero]. splits; [discriminate|intros z0 E; inv E; congruence|].
      destruct R as [R|[r [n [w R]]]]; [left; exact R|right; exists r, n, w]. destruct R. split; auto. cbn [k_upd k_time with_zero]. fold s1. rewrite HZ. exact rs_upd0. }
    destruct re as [e|].
    + inv H. assert (QX : recv_err y e = OErrK EOverlap \/ quiet (recv_err y e)).
      { destruct D as [[D _]|[_ [_ [[D _]|[[D|D] _]]]]]; inv D; cbn; auto. }
      destruct QX as [QX|QX]; [|exact (ri_same _ _ _ _ I1 QX CL0)]. rewrite QX. destruct (I1 eq_refl) as [Q1 [Q2 Q3]]. splits; auto.
      destruct Q3 as [Q3|[r [n [w Q3]]]]; [left; rewrite acc_err; exact Q3|right; exists r, n, w]. destruct Q3. split; rewrite ?acc_err; auto.
      intros Cn. exfalso. apply Cn. apply in_snoc. auto.
    + unfold finish_recv in H. destruct ok; cbn [negb] in H; [|inv H; discriminate].
      replace (dx_needs_update y) with false in H by (unfold dx_needs_update; rewrite D1, Z2; cbn; rewrite andb_false_r; reflexivity).
      destruct (check_overlap s1) as [s2 res] eqn:O. pose proof (overlap_keeps _ _ _ O) as [_ [OZ [OW [OR [OT OU]]]]].
      destruct (I1 CL) as [Q1 [Q2 Q3]].
      assert (AC : forall gg pp, accepted (h ++ [ORecv (d_epoch y) gg pp]) = accepted h) by (intros; rewrite accepted_app, D1, Z2; cbn; apply app_nil_r).
      assert (K : res = None \/ res = Some EOverlap).
      { unfold check_overlap in O. destruct (k_time s1) as [t0|] eqn:T; [|inv O; auto]. destruct Q3 as [[_ [_ [Q3 _]]]|[r [n [w Q3]]]]; [congruence|].
        destruct Q3. rewrite rs_n0, rs_r0 in O. destruct (dx_continue (a_dx n) (a_dx r)) as [m [|]]; inv O; auto. }
      assert (X : x = out_of (d_epoch y) (d_gen y) pn res /\ s' = s2) by (destruct res; inv H; auto). destruct X as [-> ->]. clear H.
      splits; [rewrite OZ, OW; exact Q1|rewrite OZ; exact Q2|].
      destruct Q3 as [[P1 [P2 [P3 [P4 [P5 P6]]]]]|[r [n [w Q3]]]].
      * left. assert (s2 = s1 /\ res = None) as [-> ->] by (unfold check_overlap in O; rewrite P3 in O; inv O; auto). cbn [out_of]. rewrite AC. splits; auto.
      * right. destruct Q3. unfold check_overlap in O. destruct (k_time s1) as [t0|] eqn:T.
        -- rewrite rs_n0, rs_r0 in O. destruct (dx_continue (a_dx n) (a_dx r)) as [m okb] eqn:C. inv O.
           assert (TN : Some t0 <> None) by discriminate. destruct (rs_time0 TN) as [T1 T2].
           pose proof (continue_spec _ _ _ _ C) as [C1 [C2 [C3 [C4 [C5 CC]]]]]. destruct rs_okn0 as [N1 [N2 N3]].
           assert (AH : accepted (h ++ [out_of (d_epoch y) (d_gen y) pn (if okb then None else Some EOverlap)]) = accepted h) by (destruct okb; cbn [out_of]; [apply AC|apply acc_err]).
           exists r, (with_dx m n), w.
           split; cbn [k_zero k_write k_read k_next k_time k_upd with_next a_dx with_dx a_secret]; rewrite ?AH; auto.
           ++ unfold app_ok. cbn. splits; lia.
           ++ lia.
           ++ lia.
           ++ lia.
           ++ unfold has_0rtt_read in *. cbn [k_zero with_next] in *. rewrite T. destruct (k_upd s1) as [u|]; [exfalso; rewrite Z in HZ; cbn in HZ; unfold s1 in rs_upd0; cbn in rs_upd0; intuition congruence|].
              destruct rs_upd0 as [U1 [U2 U3]]. splits; auto. lia.
           ++ intros _. split; lia.
           ++ intros e p HI. apply rs_top0 in HI. lia.
           ++ intros p HI. rewrite C1 in HI. pose proof (rs_hn0 _ HI). destruct (k_upd s1) as [u|]; [|lia].
              exfalso. unfold has_0rtt_read, s1 in rs_upd0. cbn in rs_upd0. intuition congruence.
           ++ intros CLN. destruct okb; [|exfalso; apply CLN; apply in_snoc; auto]. apply clean_app in CLN. destruct (rs_clean0 CLN) as [K1 [K2 [K3 K4]]]. splits; auto. lia.
        -- inv O. exists r, n, w. cbn [out_of]. split; rewrite ?AC; auto. rewrite T. exact rs_upd0. intros CLN. apply clean_app in CLN. auto.
  - (* an update is started *)
    destruct (initiate dbg la s) as [[s1 re]|] eqn:U; [|discriminate]. cbn in H.
    assert (Q : quiet x).
    { destruct re as [e|]; inv H; [|exact Logic.I]. unfold initiate in U. destruct (k_write s); [|inv U; discriminate].
      destruct (dx_can_update la (a_dx a) && _); [|inv U; exact Logic.I].
      destruct (maybe_update_write dbg s) as [[s2 [b|e']]|] eqn:M; [destruct b; inv U; exact Logic.I| |discriminate].
      apply muw_spec in M. destruct M as [_ [_ [_ M]]]. inv U. destruct (M e eq_refl) as [->| ->]; exact Logic.I. }
    apply initiate_spec in U. destruct U as [U _]. assert (s' = s1) by (destruct re; inv H; reflexivity). subst s1.
    refine (ri_upd cl h s s' x I CL U Q CL0).
  - destruct (auto_update dbg s) as [[s1 re]|] eqn:U; [|discriminate]. apply auto_spec in U. destruct U as [U UE]. cbn in H.
    assert (Q : quiet x) by (destruct re as [e|]; inv H; [destruct (UE e eq_refl) as [->| ->]; exact Logic.I|exact Logic.I]).
    assert (s' = s1) by (destruct re; inv H; reflexivity). subst s1.
    refine (ri_upd cl h s s' x I CL U Q CL0).
  - (* the timer *)
    unfold check_update in H. destruct (k_time s) as [t|] eqn:T; [|inv H; refine (ri_same _ _ _ _ I _ CL0); exact Logic.I].
    destruct (t <=? now); [|inv H; refine (ri_same _ _ _ _ I _ CL0); exact Logic.I].
    destruct R as [[_ [_ [R _]]]|[r [n [w R]]]]; [congruence|].
    destruct (has_0rtt_read s) eqn:HZ.
    + inv H. cbn [k_zero k_write with_time with_zero]. splits; try discriminate. right. exists r, n, w. apply rs_quiet; [|exact Logic.I]. destruct R. rewrite T in *.
      assert (TN : Some t <> None) by discriminate. destruct (rs_time0 TN) as [T1 T2].
      split; cbn [k_zero k_write k_read k_next k_time k_upd with_time with_zero]; auto.
      * unfold has_0rtt_read. cbn [k_zero with_time with_zero]. destruct (k_upd s) as [u|]; [destruct rs_upd0; congruence|]. destruct rs_upd0 as [U1 [U2 U3]]. splits; auto; congruence.
    + cbn [k_read with_next with_read] in H. pose proof R as R0. destruct R. rewrite rs_n0, rs_r0, T in *.
      unfold app_next in H. destruct (N.eqb_spec (d_epoch (a_dx n)) (2 ^ 64 - 1)) as [MX|MX]; [inv H; discriminate|].
      apply some_inj, pair_equal_spec in H. destruct H as [<- <-]. cbn [k_zero k_write with_time with_next with_read]. splits; auto.
      assert (TN : Some t <> None) by discriminate. destruct (rs_time0 TN) as [T1 T2].
      destruct (k_upd s) as [u|] eqn:U; [|exfalso; destruct rs_upd0 as [_ [_ U3]]; specialize (U3 TN); congruence].
      destruct rs_upd0 as [_ [-> UW]]. destruct rs_okn0 as [N1 [N2 N3]].
      right. exists n. eexists. exists w. apply rs_quiet; [|exact Logic.I].
      split; cbn [k_zero k_write k_read k_next k_time k_upd with_time with_next with_read]; try reflexivity; auto.
      * unfold app_ok. splits; lia.
      * unfold app_ok. cbn [a_dx a_secret d_epoch d_gen dx_next]. splits; lia.
      * lia.
      * rewrite U. cbn [a_dx d_s d_e dx_next]. unfold has_0rtt_read in *. cbn. splits; auto.
      * congruence.
      * intros e p HI. apply rs_top0 in HI. cbn [a_dx d_epoch dx_next]. lia.
      * intros p HI. apply rs_hn0 in HI. lia.
      * intros p HI. cbn [a_dx d_epoch dx_next] in HI. apply rs_top0 in HI. lia.
      * intros e p HI L. rewrite T1. assert (e = d_epoch (a_dx r)) as -> by lia. exact (rs_hr0 _ HI).
      * intros CLN. destruct (rs_clean0 CLN) as [K1 [K2 [K3 K4]]]. cbn [a_dx d_s d_e dx_next]. splits; auto.
        -- destruct (N.eq_dec (d_s (a_dx n)) (d_e (a_dx n))) as [E|E]; [pose proof (rs_empty0 E); lia|]. rewrite K2 by lia. lia.
        -- intros e p HI L. rewrite T1. destruct (N.lt_ge_cases e (d_epoch (a_dx r))) as [G|G]; [pose proof (K3 e p HI G); lia|].
           assert (e = d_epoch (a_dx r)) as -> by lia. exact (rs_hr0 _ HI).
Qed.

Theorem keys_run : forall nr dbg c os s xs, (nr = true -> Forall not_rejected os) -> k_run dbg false os (k_new c) = Some (s, xs) ->
  WA nr (existsb fatal xs) xs s /\ RI (existsb fatal xs) xs s.
Proof.
  intros nr dbg c os s xs NR R. split; [exact (wa_run _ _ _ _ _ _ NR R)|].
  destruct (run_app _ _ _ _ _ _ R (fun cl h s => WA false cl h s /\ RI cl h s) (fun _ => True) []) as [cl' [[_ I] ->]].
  - intros cl h s0 o s' x _ [J1 J2] CS H. split; [refine (wa_step _ _ _ _ _ _ _ _ _ J1 H); discriminate|]. exact (ri_step _ _ _ _ _ _ _ J1 J2 CS H).
  - apply Forall_forall. auto.
  - split; [apply wa_init|apply ri_init].
  - exact I.
Qed.
