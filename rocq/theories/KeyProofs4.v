(** Packets of the peer that must be accepted, and long runs. *)
From Coq Require Import Lia.
From Verif Require Import Base Lib FcModel KeyModel KeySpec KeyProofs KeyProofs2 KeyProofs3.

(** ** Order of what is accepted, also after a fatal error *)
Definition consecutive (h : list kout) : Prop := forall e p p', In (e, p) (accepted h) -> In (e + 1, p') (accepted h) -> p < p'.
Definition ordered (h : list kout) : Prop := ~ In (OErrK EOverlap) h -> forall e p e' p', In (e, p) (accepted h) -> In (e', p') (accepted h) -> e < e' -> p < p'.
Lemma send_not_recv : forall dbg b s s' x, k_send dbg b s = Some (s', x) -> forall e g p, x <> ORecv e g p.
Proof.
  intros dbg b s s' x H e g p. apply send_spec in H. destruct H as [[_ ->]|[[_ ->]|[H|H]]]; try discriminate.
  - destruct H as [w [d [r [_ [_ [_ X]]]]]]. unfold enc_out in X. destruct r; [destruct X as [->|[? [-> _]]]|subst x]; discriminate.
  - destruct H as [_ [z [d [r [_ [_ [_ X]]]]]]]. unfold enc_out in X. destruct r; [destruct X as [->|[? [-> _]]]|subst x]; discriminate.
Qed.
Lemma acc_same : forall h x, (forall e g p, x <> ORecv e g p) -> accepted (h ++ [x]) = accepted h.
Proof. intros h x A. rewrite accepted_app. destruct x; cbn; try apply app_nil_r. exfalso. exact (A epoch gen pn eq_refl). Qed.
Lemma order_run : forall dbg c os s xs, k_run dbg false os (k_new c) = Some (s, xs) -> consecutive xs /\ ordered xs.
Proof.
  intros dbg c os s xs R.
  destruct (run_app _ _ _ _ _ _ R (fun cl h s => (WA false cl h s /\ RI cl h s) /\ consecutive h /\ ordered h) (fun _ => True) []) as [cl' [[_ I] ->]].
  - intros cl h s0 o s' x _ [[J1 J2] [J3 J4]] CS H. pose proof (ri_step _ _ _ _ _ _ _ J1 J2 CS H) as RI'.
    split; [split; [refine (wa_step _ _ _ _ _ _ _ _ _ J1 H); discriminate|exact RI']|].
    assert (K : cl || fatal x = false \/ accepted (h ++ [x]) = accepted h).
    { destruct cl; [right|destruct (fatal x) eqn:F; [right|left; reflexivity]].
      - destruct (CS eq_refl) as [b ->]. apply acc_same. exact (send_not_recv _ _ _ _ _ H).
      - apply acc_same. destruct x; discriminate. }
    destruct K as [K|K].
    + destruct (RI' K) as [_ [_ [[_ [_ [_ [_ [K5 _]]]]]|[r [n [w []]]]]]]; [split; [intros e p p' Q; rewrite K5 in Q; destruct Q|intros _ e p e' p' Q; rewrite K5 in Q; destruct Q]|].
      split; [exact rs_order|]. intros CLN. destruct (rs_clean CLN) as [_ [_ [_ Q]]]. exact Q.
    + unfold consecutive, ordered. rewrite K. split; [exact J3|]. intros CLN. apply clean_app in CLN. exact (J4 CLN).
  - apply Forall_forall. auto.
  - split; [split; [apply wa_init|apply ri_init]|]. split; [intros e p p' []|intros _ e p e' p' []].
  - exact I.
Qed.

(** ** Every packet number so far is below [m] *)
Definition pn_below (m : N) (o : kop) : Prop := match o with KRecv _ pn _ _ _ | KRecv0 pn _ _ _ => pn < m | _ => True end.
Definition bel (m : N) (x : dx) : Prop := d_min x <= m /\ d_s x <= m /\ d_e x <= m.
Record MB (m : N) (s : kst) : Prop := {
  mb_z : forall z, k_zero s = Some (DRead, z) -> bel m z;
  mb_r : forall r, k_read s = Some r -> bel m (a_dx r);
  mb_n : forall n, k_next s = Some n -> bel m (a_dx n) }.
Lemma bel_decrypt : forall m pn g x y r, dx_decrypt pn g x = Some (y, r) -> pn < m -> bel m x -> bel m y.
Proof.
  intros m pn g x y r H P [A [B C]]. apply decrypt_spec in H. destruct H as [_ [_ [H3 H]]]. unfold bel.
  destruct H as [[_ ->]|[_ [_ [[_ [_ [_ [H4 H5]]]]|[_ [H4 H5]]]]]]; splits; try lia. rewrite H5. destruct (d_s x =? d_e x); lia.
Qed.
Lemma bel_continue : forall m x p y ok, dx_continue x p = (y, ok) -> bel m x -> bel m p -> bel m y.
Proof.
  intros m x p y ok H [A [B C]] [A' [B' C']]. unfold dx_continue in H. unfold bel.
  destruct (negb _); [inv H; cbn; lia|]. destruct (_ <? _); inv H; cbn; lia.
Qed.
Lemma mb_upd : forall m s s', upd s s' -> MB m s -> MB m s'.
Proof. intros m s s' U [A B C]. apply upd_cipher in U. destruct U as [_ [U1 [U2 [U3 _]]]]. split; rewrite ?U1, ?U2, ?U3; auto. Qed.
Lemma mb_finish : forall m dbg ok t x pn s s' y, finish_recv dbg ok t x pn s = Some (s', y) -> MB m s -> MB m s'.
Proof.
  unfold finish_recv. intros m dbg ok t x pn s s' y H I. destruct ok; cbn [negb] in H; [|inv H; exact I].
  assert (K : forall s1 r, (if dx_needs_update x then update_received dbg (d_epoch x) t s else Some (s, None)) = Some (s1, r) -> MB m s1).
  { intros s1 r E. destruct (dx_needs_update x); [|inv E; exact I].
    apply received_spec in E. destruct E as [[-> _]|[_ [s2 [U E]]]]; [exact I|].
    assert (I2 : MB m s2) by (apply (mb_upd _ _ _ U); destruct I; split; auto).
    destruct E as [[e [_ [-> _]]]|[_ [-> _]]]; [exact I2|]. destruct I2. destruct (has_0rtt_read s2); split; cbn; auto; discriminate. }
  destruct (if dx_needs_update x then update_received dbg (d_epoch x) t s else Some (s, None)) as [[s1 [e|]]|] eqn:E; [| |discriminate].
  - inv H. exact (K _ _ eq_refl).
  - pose proof (K _ _ eq_refl) as I1. destruct (check_overlap s1) as [s2 re] eqn:O. assert (s' = s2) by (destruct re; inv H; reflexivity). subst s2.
    unfold check_overlap in O. destruct (k_time s1); [|inv O; exact I1]. destruct (k_next s1) as [nn|] eqn:Nx; [|inv O; exact I1]. destruct (k_read s1) as [rr|] eqn:Rd; [|inv O; exact I1].
    destruct (dx_continue (a_dx nn) (a_dx rr)) as [z okb] eqn:C. inv O. destruct I1 as [A B D]. split; cbn; auto. intros q Q. inv Q. cbn.
    exact (bel_continue _ _ _ _ _ C (D _ Nx) (B _ Rd)).
Qed.
Lemma mb_step : forall m dbg o s s' x, pn_below m o -> MB m s -> k_step dbg o s = Some (s', x) -> MB m s'.
Proof.
  intros m dbg o s s' x P I H. destruct o as [d|rej|ex|b|ph pn g ok t|pn g ok t|la| |now]; cbn [k_step pn_below] in *.
  - destruct I as [A B D]. destruct d; destruct (k_zero s) eqn:Z; try discriminate; destruct (k_write s) eqn:W; try discriminate; destruct (k_read s) eqn:R; try discriminate; inv H; split; cbn; auto; try discriminate;
      try (intros z Q; inv Q; unfold bel; cbn; lia); congruence.
  - destruct I as [A B D]. unfold set_write in H. set (s0 := if rej then with_zero None s else s) in *.
    assert (S0 : k_read s0 = k_read s /\ k_next s0 = k_next s) by (subst s0; destruct rej; auto). destruct S0 as [S1 S2].
    destruct (k_write s0); [discriminate|]. destruct (k_zero s0) as [[[|] z]|]; cbn in H; inv H; split; cbn; try discriminate; rewrite ?S1, ?S2; auto.
  - destruct I as [A B D]. unfold set_read in H. destruct (k_write s); [|discriminate]. destruct (k_read s) eqn:Rd; [discriminate|].
    set (a0 := app_new DRead (k_cipher s)) in *.
    destruct (match k_zero s with Some (DRead, z) => dx_continue (a_dx a0) z | _ => (a_dx a0, true) end) as [y okb] eqn:C.
    assert (B0 : bel m (a_dx a0)) by (subst a0; unfold bel; cbn; lia).
    assert (BY : bel m y) by (destruct (k_zero s) as [[[|] z]|]; [exact (bel_continue _ _ _ _ _ C B0 (A z eq_refl))| |]; inv C; exact B0).
    set (s1 := match k_zero s with Some _ => with_time (Some ex) s | None => s end) in *.
    assert (S1 : k_zero s1 = k_zero s /\ k_read s1 = k_read s /\ k_next s1 = k_next s) by (subst s1; destruct (k_zero s) eqn:Z; cbn; auto).
    destruct S1 as [S1 [S2 S3]].
    destruct okb; cbn [negb] in H; [|cbn in H; inv H; split; auto; congruence].
    destruct (app_next DRead (k_cipher s) (with_dx y a0)) as [n|] eqn:An; cbn in H; inv H.
    + split; cbn; rewrite ?S1; auto; intros q Q; inv Q; [exact BY|]. unfold app_next in An. destruct (_ =? _); inv An. destruct BY as [B1 [B2 B3]]. unfold bel. cbn. lia.
    + split; rewrite ?S1, ?S2, ?S3, ?Rd; auto; congruence.
  - apply send_spec in H. destruct H as [[-> _]|[[-> _]|[H|H]]]; [exact I|exact I| |].
    + destruct H as [w [d [r [_ [_ [U _]]]]]]. apply (mb_upd _ _ _ U). destruct I. split; auto.
    + destruct H as [_ [z [d [r [Z [_ [-> _]]]]]]]. destruct I. split; auto. cbn. discriminate.
  - unfold k_recv in H. destruct (k_read s) as [r|] eqn:Rd; [|inv H; exact I].
    destruct (rx_app ph s) as [[|]|] eqn:X; [| |inv H; exact I].
    + destruct (dx_decrypt pn g (a_dx r)) as [[y re]|] eqn:D; [|discriminate].
      assert (BY : MB m (with_read (Some (with_dx y r)) s)).
      { destruct I as [A B C]. split; cbn; auto. intros q Q. inv Q. exact (bel_decrypt _ _ _ _ _ _ D P (B _ Rd)). }
      destruct re; [inv H; exact BY|]. exact (mb_finish _ _ _ _ _ _ _ _ _ H BY).
    + destruct (k_next s) as [n|] eqn:Nx; [|discriminate].
      destruct (dx_decrypt pn g (a_dx n)) as [[y re]|] eqn:D; [|discriminate].
      assert (BY : MB m (with_next (Some (with_dx y n)) s)).
      { destruct I as [A B C]. split; cbn; auto. intros q Q. inv Q. exact (bel_decrypt _ _ _ _ _ _ D P (C _ Nx)). }
      destruct re; [inv H; exact BY|]. exact (mb_finish _ _ _ _ _ _ _ _ _ H BY).
  - unfold k_recv0 in H. destruct (k_zero s) as [[[|] z]|] eqn:Z; [|inv H; exact I|inv H; exact I].
    destruct (dx_decrypt pn g z) as [[y re]|] eqn:D; [|discriminate].
    assert (BY : MB m (with_zero (Some (DRead, y)) s)).
    { destruct I as [A B C]. split; cbn; auto. intros q Q. inv Q. exact (bel_decrypt _ _ _ _ _ _ D P (A _ Z)). }
    destruct re; [inv H; exact BY|]. exact (mb_finish _ _ _ _ _ _ _ _ _ H BY).
  - destruct (initiate dbg la s) as [[s1 re]|] eqn:U; [|discriminate]. apply initiate_spec in U. destruct U as [U _]. apply (mb_upd _ _ _ U) in I. destruct re; cbn in H; inv H; exact I.
  - destruct (auto_update dbg s) as [[s1 re]|] eqn:U; [|discriminate]. apply auto_spec in U. destruct U as [U _]. apply (mb_upd _ _ _ U) in I. destruct re; cbn in H; inv H; exact I.
  - unfold check_update in H. destruct (k_time s) as [t|]; [|inv H; exact I]. destruct (t <=? now); [|inv H; exact I].
    destruct I as [A B C]. destruct (has_0rtt_read s); [inv H; split; cbn; auto; discriminate|]. cbn [k_read with_next with_read] in H.
    destruct (k_next s) as [n|] eqn:Nx; [|inv H; split; cbn; auto; congruence].
    unfold app_next in H. destruct (d_epoch (a_dx n) =? 2 ^ 64 - 1); inv H; split; cbn; auto; try congruence; intros q Q; inv Q.
    cbn. destruct (C _ eq_refl) as [B1 [B2 B3]]. unfold bel. cbn. lia.
Qed.
Lemma mb_run : forall m dbg c os s xs, k_run dbg false os (k_new c) = Some (s, xs) -> Forall (pn_below m) os -> MB m s.
Proof.
  intros m dbg c os s xs R F.
  destruct (run_app _ _ _ _ _ _ R (fun _ _ s => MB m s) (pn_below m) []) as [cl' [I _]].
  - intros cl h s0 o s' x P I _ H. exact (mb_step _ _ _ _ _ _ P I H).
  - exact F.
  - split; cbn; discriminate.
  - exact I.
Qed.

(** ** The right key *)
Lemma phase_of : forall a g, app_ok a -> Bool.eqb (dx_phase (a_dx a)) (N.odd g) = N.even (d_gen (a_dx a) + g).
Proof.
  intros a g [A [B C]]. unfold dx_phase. rewrite <- B. change 3 with (N.succ 2). rewrite N.add_succ_r, N.even_succ. 
  rewrite N.odd_add, N.even_add. change (N.odd 2) with false. rewrite xorb_false_r. rewrite <- (N.negb_odd g), <- (N.negb_odd (d_gen (a_dx a))).
  destruct (N.odd (d_gen (a_dx a))), (N.odd g); reflexivity.
Qed.
Lemma even_double : forall a, N.even (a + a) = true.
Proof. intros. rewrite N.even_add. destruct (N.even a); reflexivity. Qed.
Lemma rx_read : forall h s r n w, RS h s r n w -> rx_app (N.odd (d_gen (a_dx r))) s = Some WRead.
Proof.
  intros h s r n w []. unfold rx_app. rewrite rs_r, rs_n, !phase_of by auto. rewrite even_double.
  destruct rs_okr as [_ [A _]]. destruct rs_okn as [_ [B _]]. replace (d_gen (a_dx n)) with (d_gen (a_dx r) + 1) by lia.
  rewrite N.add_shuffle0, N.even_add, even_double. reflexivity.
Qed.
Lemma rx_next : forall h s r n w, RS h s r n w -> rx_app (N.odd (d_gen (a_dx n))) s = Some WNext.
Proof.
  intros h s r n w []. unfold rx_app. rewrite rs_r, rs_n, !phase_of by auto. rewrite even_double.
  destruct rs_okr as [_ [A _]]. destruct rs_okn as [_ [B _]]. replace (d_gen (a_dx n)) with (d_gen (a_dx r) + 1) by lia.
  rewrite N.add_assoc, N.even_add, even_double. reflexivity.
Qed.
Lemma decrypt_fresh : forall pn x, d_min x <= pn -> d_s x <= d_e x <= pn -> pn < 2 ^ 62 ->
  dx_decrypt pn (Some (d_gen x)) x = Some (x, Some EExhausted) \/
  exists y, dx_decrypt pn (Some (d_gen x)) x = Some (y, None) /\ d_epoch y = d_epoch x /\ d_gen y = d_gen x /\ d_min y = d_min x /\ d_e y = pn + 1 /\ d_s y = (if d_s x =? d_e x then pn else d_s x).
Proof.
  intros pn x A B C. unfold dx_decrypt, dx_invoked, dx_used, chk. destruct (d_inv x =? 0); [left; reflexivity|right].
  rewrite N.eqb_refl. cbn [d_min d_gen d_s d_e]. destruct (N.ltb_spec pn (d_min x)); [lia|]. destruct (N.ltb_spec (pn + 1) (2 ^ 64)); [|lia].
  eexists. splits; [reflexivity|reflexivity|reflexivity|reflexivity| |reflexivity]. cbn. lia.
Qed.

Lemma fresh_next : forall dbg pn t h s r n w m, RS h s r n w -> ~ In (OErrK EOverlap) h -> MB m s -> m <= pn < 2 ^ 62 -> dbg = false ->
  exists s' x, k_recv dbg (N.odd (d_gen (a_dx n))) pn (Some (d_gen (a_dx n))) true t s = Some (s', x) /\
    (x = ORecv (d_epoch (a_dx n)) (d_gen (a_dx n)) pn \/ x = OErrK EExhausted).
Proof.
  intros dbg pn t h s r n w m R CLN [MZ MR MN] P ->. pose proof (rx_next _ _ _ _ _ R) as X. destruct R. unfold k_recv. rewrite rs_r, X, rs_n.
  destruct (MR _ rs_r) as [R1 [R2 R3]]. destruct (MN _ rs_n) as [N1 [N2 N3]]. destruct (rs_clean CLN) as [K1 [K2 _]].
  destruct (decrypt_fresh pn (a_dx n) ltac:(lia) ltac:(lia) ltac:(lia)) as [->|[y [-> [Y1 [Y2 [Y3 [Y4 Y5]]]]]]]; [eexists; eexists; split; [reflexivity|right; reflexivity]|].
  unfold finish_recv. cbn [negb].
  set (s1 := with_next (Some (with_dx y n)) s).
  assert (DS : d_e (a_dx r) <= d_s y).
  { rewrite Y5. destruct (N.eqb_spec (d_s (a_dx n)) (d_e (a_dx n))) as [E|E]; [lia|]. specialize (K2 ltac:(lia)).
    assert (TN : k_time s <> None). { intros T. rewrite T in rs_upd. destruct (k_upd s); lia. }
    destruct (rs_time TN). lia. }
  assert (CO : forall s2, k_next s2 = Some (with_dx y n) -> k_read s2 = Some r -> exists s3, check_overlap s2 = (s3, None)).
  { intros s2 A B. unfold check_overlap. destruct (k_time s2); [|eauto]. rewrite A, B. cbn [a_dx with_dx]. unfold dx_continue.
    destruct (negb _); [eauto|]. destruct (N.ltb_spec (d_s y) (d_e (a_dx r))); [lia|eauto]. }
  assert (UR : exists s2 re, (if dx_needs_update y then update_received false (d_epoch y) t s1 else Some (s1, None)) = Some (s2, re) /\
    ((re = None /\ k_next s2 = Some (with_dx y n) /\ k_read s2 = Some r) \/ re = Some EExhausted)).
  { destruct (dx_needs_update y); [|exists s1, None; split; [reflexivity|left; subst s1; auto]].
    unfold update_received. destruct (match k_upd s1 with Some _ => _ | None => _ end); [exists s1, None; split; [reflexivity|left; subst s1; auto]|].
    unfold maybe_update_write. cbn [andb k_write k_read with_upd s1 with_next]. subst s1. cbn [k_write k_read with_upd with_next k_cipher]. rewrite rs_w, rs_r.
    destruct (d_epoch (a_dx w) =? d_epoch (a_dx r)).
    - destruct (app_next _ _ _) as [w'|]; [|eexists; eexists; split; [reflexivity|right; reflexivity]].
      eexists. eexists. split; [reflexivity|left]. unfold has_0rtt_read. destruct (match k_zero _ with Some _ => _ | None => _ end); cbn; auto.
    - eexists. eexists. split; [reflexivity|left]. unfold has_0rtt_read. destruct (match k_zero _ with Some _ => _ | None => _ end); cbn; auto. }
  destruct UR as [s2 [re [-> [[-> [A B]]| ->]]]].
  - destruct (CO s2 A B) as [s3 ->]. rewrite Y1, Y2. eexists. eexists. split; [reflexivity|left; reflexivity].
  - eexists. eexists. split; [reflexivity|right; reflexivity].
Qed.
Lemma fresh_read : forall dbg pn t h s r n w m, RS h s r n w -> d_epoch (a_dx w) = d_epoch (a_dx r) -> MB m s -> m <= pn < 2 ^ 62 -> dbg = false ->
  ~ In (OErrK EOverlap) h ->
  exists s' x, k_recv dbg (N.odd (d_gen (a_dx r))) pn (Some (d_gen (a_dx r))) true t s = Some (s', x) /\
    (x = ORecv (d_epoch (a_dx r)) (d_gen (a_dx r)) pn \/ x = OErrK EExhausted).
Proof.
  intros dbg pn t h s r n w m R WR [MZ MR MN] P -> CLN. pose proof (rx_read _ _ _ _ _ R) as X. destruct R. unfold k_recv. rewrite rs_r, X.
  destruct (MR _ rs_r) as [R1 [R2 R3]]. destruct (MN _ rs_n) as [N1 [N2 N3]].
  assert (EM : d_s (a_dx n) = d_e (a_dx n)).
  { destruct (k_upd s) as [u|]; [|tauto]. destruct rs_upd as [_ U]. destruct (k_time s); [lia|tauto]. }
  destruct (decrypt_fresh pn (a_dx r) ltac:(lia) ltac:(lia) ltac:(lia)) as [->|[y [-> [Y1 [Y2 [Y3 [Y4 Y5]]]]]]]; [eexists; eexists; split; [reflexivity|right; reflexivity]|].
  unfold finish_recv. cbn [negb].
  set (s1 := with_read (Some (with_dx y r)) s).
  assert (CO : forall s2 a, k_next s2 = Some n -> k_read s2 = Some a -> exists s3, check_overlap s2 = (s3, None)).
  { intros s2 a A B. unfold check_overlap. destruct (k_time s2); [|eauto]. rewrite A, B. unfold dx_continue.
    destruct (N.ltb_spec (d_s (a_dx n)) (d_e (a_dx n))); [lia|]. cbn. eauto. }
  assert (UR : exists s2 re, (if dx_needs_update y then update_received false (d_epoch y) t s1 else Some (s1, None)) = Some (s2, re) /\
    ((re = None /\ k_next s2 = Some n /\ k_read s2 = Some (with_dx y r)) \/ re = Some EExhausted)).
  { destruct (dx_needs_update y); [|exists s1, None; split; [reflexivity|left; subst s1; auto]].
    unfold update_received. destruct (match k_upd s1 with Some _ => _ | None => _ end); [exists s1, None; split; [reflexivity|left; subst s1; auto]|].
    unfold maybe_update_write. subst s1. cbn [andb k_write k_read with_upd with_read k_cipher]. rewrite rs_w.
    destruct (d_epoch (a_dx w) =? _).
    - destruct (app_next _ _ _) as [w'|]; [|eexists; eexists; split; [reflexivity|right; reflexivity]].
      eexists. eexists. split; [reflexivity|left]. unfold has_0rtt_read. destruct (match k_zero _ with Some _ => _ | None => _ end); cbn; auto.
    - eexists. eexists. split; [reflexivity|left]. unfold has_0rtt_read. destruct (match k_zero _ with Some _ => _ | None => _ end); cbn; auto. }
  destruct UR as [s2 [re [-> [[-> [A B]]| ->]]]].
  - destruct (CO s2 _ A B) as [s3 ->]. rewrite Y1, Y2. eexists. eexists. split; [reflexivity|left; reflexivity].
  - eexists. eexists. split; [reflexivity|right; reflexivity].
Qed.

(** ** Long runs *)
Lemma k_run_app : forall dbg os1 os2 cl s, k_run dbg cl (os1 ++ os2) s =
  match k_run dbg cl os1 s with
  | None => None
  | Some (s1, x1) => match k_run dbg (cl || existsb fatal x1) os2 s1 with None => None | Some (s2, x2) => Some (s2, x1 ++ x2) end
  end.
Proof.
  induction os1 as [|o os1 IH]; intros os2 cl s; cbn [k_run List.app].
  - cbn. rewrite orb_false_r. destruct (k_run dbg cl os2 s) as [[s2 x2]|]; reflexivity.
  - destruct (cl && _); [apply IH|]. destruct (k_step dbg o s) as [[s1 x]|]; [|reflexivity]. rewrite IH.
    destruct (k_run dbg (cl || fatal x) os1 s1) as [[s2 x1]|]; [|reflexivity]. cbn [existsb]. rewrite <- orb_assoc.
    destruct (k_run dbg _ os2 s2) as [[s3 x2]|]; reflexivity.
Qed.
(** Forged packets of the current phase. *)
Lemma forged_run : forall dbg k s r pn t, k_read s = Some r -> (exists ph, ph = dx_phase (a_dx r) /\ rx_app ph s = Some WRead) -> k <= d_inv (a_dx r) ->
  exists s', k_run dbg false (repeat (KRecv (dx_phase (a_dx r)) pn None true t) (N.to_nat k)) s = Some (s', repeat (OFailed (d_epoch (a_dx r))) (N.to_nat k)) /\
    s' = with_read (Some (with_dx (mkDx (d_epoch (a_dx r)) (d_gen (a_dx r)) (d_s (a_dx r)) (d_e (a_dx r)) (d_min (a_dx r)) (d_inv (a_dx r) - k) (d_len (a_dx r))) r)) s.
Proof.
  intros dbg k. induction k as [|k IH] using N.peano_ind; intros s r pn t R [ph [EP X]] L; subst ph.
  - cbn. eexists. split; [reflexivity|]. rewrite N.sub_0_r. destruct s. cbn in R. subst. destruct r as [[] ?]. reflexivity.
  - rewrite N2Nat.inj_succ. cbn [repeat k_run andb k_step]. unfold k_recv. rewrite R, X. unfold dx_decrypt, dx_invoked.
    destruct (N.eqb_spec (d_inv (a_dx r)) 0); [lia|]. cbn [recv_err d_epoch orb fatal].
    set (r1 := with_dx (mkDx (d_epoch (a_dx r)) (d_gen (a_dx r)) (d_s (a_dx r)) (d_e (a_dx r)) (d_min (a_dx r)) (d_inv (a_dx r) - 1) (d_len (a_dx r))) r).
    set (s1 := with_read (Some r1) s).
    assert (P1 : dx_phase (a_dx r1) = dx_phase (a_dx r)) by reflexivity.
    assert (X1 : rx_app (dx_phase (a_dx r1)) s1 = Some WRead).
    { rewrite P1. subst s1. unfold rx_app in *. cbn [k_read k_next with_read]. rewrite R in X. rewrite P1. exact X. }
    destruct (IH s1 r1 pn t eq_refl (ex_intro _ _ (conj eq_refl X1)) ltac:(subst r1; cbn; lia)) as [s' [RR ->]].
    rewrite P1 in RR. rewrite RR. eexists. split; [reflexivity|]. subst s1 r1. cbn [with_read with_dx a_dx a_secret d_inv d_epoch d_gen d_s d_e d_min d_len].
    replace (d_inv (a_dx r) - 1 - k) with (d_inv (a_dx r) - N.succ k) by lia. reflexivity.
Qed.
