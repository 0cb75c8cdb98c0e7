(** The steps of ClModel as sequences of simple moves. *)
From Verif Require Import Base Lib FrameModel ClModel ClSpec.
Open Scope N_scope.
Open Scope list_scope.
Import ListNotations.

Definition peer_reason (r : reason) : Prop := exists k, r = RTransport (EPeer k) \/ r = RTransport (EPeerApplication k).
(** [a]: a debug assertion may fail; the number counts HANDSHAKE_DONE asked for again. *)
Inductive mv (a : bool) : cl -> list out -> N -> cl -> Prop :=
| mv_hs : forall s c, closed (c_state c) = false -> stage s = 0 -> st_rank (c_state c) < st_rank s -> c_client c = true \/ connected s = false ->
    mv a c [OState s] 0 (with_state s c)
| mv_connect : forall c, c_client c = false -> closed (c_state c) = false -> connected (c_state c) = false ->
    mv a c [OState SConnected; OState SConfirmed] 0 (mkCl false SConfirmed (g_done (c_sig c)) (c_flight c))
| mv_stale : forall c, c_client c = false -> c_state c = SConfirmed -> mv a c [] 1 (with_sig (g_done (c_sig c)) c)
| mv_closing : forall r t f c, closed (c_state c) = false -> f_error f = r -> mv a c [OState (SClosing r t)] 0 (with_state (SClosing r t) (with_sig (g_close f (c_sig c)) c))
| mv_closed_f : forall r f c, closed (c_state c) = false -> f_error f = r -> mv a c [OState (SClosed r)] 0 (with_state (SClosed r) (with_sig (g_close f (c_sig c)) c))
| mv_closed : forall r c, closed (c_state c) = false -> mv a c [OState (SClosed r)] 0 (with_state (SClosed r) c)
| mv_drain : forall r t f c, closed (c_state c) = false \/ stage (c_state c) = 2 -> peer_reason r -> f_error f = r -> mv a c [OState (SDraining r t)] 0 (with_state (SDraining r t) (with_sig (g_drain f (c_sig c)) c))
| mv_drain0 : forall f c, stage (c_state c) = 2 -> peer_reason (f_error f) -> mv a c [] 0 (with_sig (g_drain f (c_sig c)) c)
| mv_reset : forall t c, connected (c_state c) = true -> mv a c [OState (SDraining (RTransport EStatelessReset) t)] 0 (with_state (SDraining (RTransport EStatelessReset) t) (with_sig GReset c))
| mv_vn : forall c, c_state c = SWaitInitial -> c_client c = true -> mv a c [ORestart] 0 (cl_new true)
| mv_again : forall c, stage (c_state c) = 1 -> mv a c [] 0 (with_sig (g_again (c_sig c)) c)
| mv_assert : forall g c, a = true -> closed (c_state c) = true -> g = c_sig c \/ g = g_done (c_sig c) -> mv a c [OAssert] 0 (with_sig g c)
| mv_expire : forall r c, stage (c_state c) = 1 \/ stage (c_state c) = 2 -> mv a c [OState (SClosed r)] 0 (with_state (SClosed r) c).
Inductive mvs (a : bool) : cl -> list out -> N -> cl -> Prop :=
| mvs_nil : forall c, mvs a c [] 0 c
| mvs_cons : forall c ys n c1 zs m c2, mv a c ys n c1 -> mvs a c1 zs m c2 -> mvs a c (ys ++ zs) (n + m) c2.

Lemma mvs_one : forall a c ys n c', mv a c ys n c' -> mvs a c ys n c'.
Proof. intros a c ys n c' H. rewrite <- (app_nil_r ys), <- (N.add_0_r n). eapply mvs_cons; [exact H|constructor]. Qed.
Lemma mvs_app : forall a c ys n c1 zs m c2, mvs a c ys n c1 -> mvs a c1 zs m c2 -> mvs a c (ys ++ zs) (n + m) c2.
Proof.
  intros a c ys n c1 zs m c2 H. revert zs m c2. induction H as [c|c ys n c1 zs m c2 A B IH]; intros ws k c3 K; [exact K|].
  rewrite <- app_assoc, <- N.add_assoc. eapply mvs_cons; eauto.
Qed.
Lemma mvs_eq : forall a c ys n c' ys' n', mvs a c ys n c' -> ys = ys' -> n = n' -> mvs a c ys' n' c'.
Proof. intros. subst. assumption. Qed.
Lemma mvs_app0 : forall a c ys c1 zs m c2, mvs a c ys 0 c1 -> mvs a c1 zs m c2 -> mvs a c (ys ++ zs) m c2.
Proof. intros a c ys c1 zs m c2 A B. exact (mvs_app _ _ _ _ _ _ _ _ A B). Qed.

Lemma cmp_rank : forall a b, st_rank a <> st_rank b -> st_cmp a b = (st_rank a ?= st_rank b).
Proof. intros a b H. destruct a, b; try reflexivity; cbn in H; congruence. Qed.
Lemma set_up : forall s c, st_rank (c_state c) < st_rank s -> set_state s c = (with_state s c, [OState s]).
Proof. intros s c H. unfold set_state. rewrite cmp_rank by lia. destruct (N.compare_spec (st_rank s) (st_rank (c_state c))); [lia|lia|reflexivity]. Qed.
Lemma open_rank : forall s, closed s = false -> st_rank s < 6.
Proof. intros s H. destruct s; try discriminate; reflexivity. Qed.
Lemma with_state_id : forall c, with_state (c_state c) c = c. Proof. intros []; reflexivity. Qed.
Lemma with_sig_id : forall c, with_sig (c_sig c) c = c. Proof. intros []; reflexivity. Qed.
Lemma state_with_sig : forall g c, c_state (with_sig g c) = c_state c. Proof. reflexivity. Qed.

(** An error, captured when nothing is closed yet. *)
Lemma capture_mvs : forall a v p ft msg e c c' ys, capture v p ft msg e c = (c', ys) -> mvs a c ys 0 c'.
Proof.
  intros a v p ft msg e c c' ys H. unfold capture in H.
  destruct (c_state c) eqn:S; try (inv H; constructor).
  - rewrite set_up in H by (rewrite S; reflexivity). inv H. apply mvs_one. apply mv_closed. rewrite S. reflexivity.
  - destruct (or_else p (v_primary v)) as [q|]; (rewrite set_up in H by (cbn; rewrite S; reflexivity)); inv H; apply mvs_one.
    + apply (mv_closed_f a (RTransport e) (mkF q (RTransport e) ft msg)); [rewrite S; reflexivity|reflexivity].
    + apply mv_closed. rewrite S. reflexivity.
  - destruct (or_else p (v_primary v)) as [q|]; (rewrite set_up in H by (cbn; rewrite S; reflexivity)); inv H; apply mvs_one.
    + apply (mv_closed_f a (RTransport e) (mkF q (RTransport e) ft msg)); [rewrite S; reflexivity|reflexivity].
    + apply mv_closed. rewrite S. reflexivity.
  - destruct (or_else p (v_primary v)) as [q|].
    + assert (X : (c', ys) = set_state (SClosed (RTransport e)) (with_sig (g_close (mkF q (RTransport e) ft msg) (c_sig c)) c) \/
        (c', ys) = set_state (SClosing (RTransport e) (period (v_now v) (v_pto v))) (with_sig (g_close (mkF q (RTransport e) ft msg) (c_sig c)) c)) by (destruct e; auto).
      destruct X as [X|X]; rewrite set_up in X by (cbn; rewrite S; reflexivity); inv X; apply mvs_one; [apply mv_closed_f|apply mv_closing]; try reflexivity; rewrite S; reflexivity.
    + rewrite set_up in H by (rewrite S; reflexivity). inv H. apply mvs_one, mv_closed. rewrite S. reflexivity.
  - destruct (or_else p (v_primary v)) as [q|].
    + assert (X : (c', ys) = set_state (SClosed (RTransport e)) (with_sig (g_close (mkF q (RTransport e) ft msg) (c_sig c)) c) \/
        (c', ys) = set_state (SClosing (RTransport e) (period (v_now v) (v_pto v))) (with_sig (g_close (mkF q (RTransport e) ft msg) (c_sig c)) c)) by (destruct e; auto).
      destruct X as [X|X]; rewrite set_up in X by (cbn; rewrite S; reflexivity); inv X; apply mvs_one; [apply mv_closed_f|apply mv_closing]; try reflexivity; rewrite S; reflexivity.
    + rewrite set_up in H by (rewrite S; reflexivity). inv H. apply mvs_one, mv_closed. rewrite S. reflexivity.
  - destruct (or_else p (v_primary v)) as [q|].
    + assert (X : (c', ys) = set_state (SClosed (RTransport e)) (with_sig (g_close (mkF q (RTransport e) ft msg) (c_sig c)) c) \/
        (c', ys) = set_state (SClosing (RTransport e) (period (v_now v) (v_pto v))) (with_sig (g_close (mkF q (RTransport e) ft msg) (c_sig c)) c)) by (destruct e; auto).
      destruct X as [X|X]; rewrite set_up in X by (cbn; rewrite S; reflexivity); inv X; apply mvs_one; [apply mv_closed_f|apply mv_closing]; try reflexivity; rewrite S; reflexivity.
    + rewrite set_up in H by (rewrite S; reflexivity). inv H. apply mvs_one, mv_closed. rewrite S. reflexivity.
Qed.

Lemma set_low : forall s c, st_rank s < 6 -> closed (c_state c) = true -> set_state s c = (c, [OAssert]).
Proof.
  intros s c L K. assert (st_rank s < st_rank (c_state c)) by (destruct (c_state c); try discriminate; cbn; lia).
  unfold set_state. rewrite cmp_rank by lia. destruct (N.compare_spec (st_rank s) (st_rank (c_state c))); try lia.
  destruct (N.eqb_spec (st_rank s) (st_rank (c_state c))); [lia|]. destruct s; cbn in L; try lia; reflexivity.
Qed.
Lemma connected_mvs : forall a c c' ys, (a = false -> closed (c_state c) = false) -> tls_complete c = (c', ys) -> mvs a c ys 0 c'.
Proof.
  intros a c c' ys A H. unfold tls_complete in H. destruct (connected (c_state c)) eqn:K; [inv H; constructor|].
  unfold set_connected in H. destruct (closed (c_state c)) eqn:L.
  - assert (a = true) as -> by (destruct a; [reflexivity|discriminate (A eq_refl)]).
    rewrite set_low in H by (assumption || reflexivity). destruct (c_client c).
    + inv H. rewrite <- (with_sig_id c') at 2. apply mvs_one, mv_assert; auto.
    + rewrite set_low in H by (assumption || reflexivity). inv H.
      change [OAssert; OAssert] with ([OAssert] ++ [OAssert]). eapply mvs_app0; apply mvs_one.
      * apply (mv_assert true (g_done (c_sig c))); auto.
      * rewrite <- (with_sig_id (with_sig (g_done (c_sig c)) c)) at 2. apply mv_assert; auto.
  - assert (st_rank (c_state c) < 4) by (destruct (c_state c); try discriminate; reflexivity).
    rewrite set_up in H by (cbn; lia). destruct (c_client c) eqn:C.
    + inv H. apply mvs_one, mv_hs; auto.
    + rewrite set_up in H by reflexivity. inv H.
      assert (E : with_state SConfirmed (with_sig (g_done (c_sig c)) (with_state SConnected c)) = mkCl false SConfirmed (g_done (c_sig c)) (c_flight c)).
      { unfold with_state, with_sig. cbn. rewrite C. reflexivity. }
      rewrite E. apply mvs_one, mv_connect; auto.
Qed.

Lemma input_frame_mvs : forall a v p f c c' ys e, input_frame v p f c = (c', ys, e) -> closed (c_state c) = false \/ stage (c_state c) = 2 ->
  (a = false -> f = FTlsDone -> closed (c_state c) = false) -> mvs a c ys 0 c'.
Proof.
  intros a v p f c c' ys e H O A. destruct f; cbn [input_frame] in H.
  - set (r := RTransport (if app then EPeerApplication code else EPeer code)) in *.
    assert (PR : peer_reason r) by (exists code; unfold r; destruct app; auto).
    set (f := mkF p r (if app then 29 else 28) []) in *. set (t := period (v_now v) (v_pto v)) in *. clearbody r t.
    destruct (set_state (SDraining r t) (with_sig (g_drain f (c_sig c)) c)) as [c1 o1] eqn:S. inv H.
    unfold set_state in S. rewrite state_with_sig in S. destruct (st_cmp (SDraining r t) (c_state c)) eqn:K.
    + destruct O as [O|O]; [exfalso; destruct (c_state c); discriminate|]. destruct (_ =? _) eqn:Q; inv S.
      * apply mvs_one, mv_drain0; auto.
      * exfalso. destruct (c_state c); discriminate.
    + destruct O as [O|O]; [exfalso; destruct (c_state c); discriminate|]. destruct (_ =? _) eqn:Q; inv S.
      * apply mvs_one, mv_drain0; auto.
      * exfalso. destruct (c_state c); discriminate.
    + inv S. apply mvs_one. apply (mv_drain a r t f c O PR eq_refl).
  - destruct (tls_complete c) as [c1 o1] eqn:S. inv H. apply connected_mvs; auto.
  - destruct (_ || _) eqn:K; [inv H; constructor|]. apply orb_false_elim in K. destruct K as [K1 K2]. apply negb_false_iff in K1, K2.
    destruct (set_state SConfirmed c) as [c1 o1] eqn:S. inv H. destruct (c_state c) eqn:Q; try discriminate.
    + rewrite set_up in S by (rewrite Q; reflexivity). inv S. apply mvs_one, mv_hs; auto; rewrite Q; reflexivity.
    + unfold set_state in S. rewrite Q in S. cbn in S. inv S. constructor.
  - inv H. constructor.
  - inv H. constructor.
Qed.
(** Frames leave the connection open, draining, or they end with an error. *)
Lemma input_frame_open : forall v p f c c' ys e, input_frame v p f c = (c', ys, e) -> closed (c_state c) = false \/ stage (c_state c) = 2 ->
  closed (c_state c') = false \/ stage (c_state c') = 2.
Proof.
  intros v p f c c' ys e H O. destruct f; cbn [input_frame] in H.
  - set (s := SDraining _ _) in *. destruct (set_state s _) as [c1 o1] eqn:S. inv H. unfold set_state in S. rewrite state_with_sig in S.
    destruct (st_cmp s (c_state c)); [destruct (_ =? _); inv S; exact O|destruct (_ =? _); inv S; exact O|inv S; right; reflexivity].
  - destruct (tls_complete c) as [c1 o1] eqn:S. inv H. unfold tls_complete, set_connected in S. destruct (connected (c_state c)); [inv S; exact O|].
    destruct (set_state SConnected c) as [c2 o2] eqn:S2.
    assert (X : closed (c_state c2) = false \/ stage (c_state c2) = 2).
    { unfold set_state in S2. destruct (st_cmp _ _); [| |inv S2; left; reflexivity]; destruct (_ =? _); inv S2; exact O. }
    destruct (c_client c); [inv S; exact X|]. destruct (set_state SConfirmed _) as [c3 o3] eqn:S3. inv S.
    unfold set_state in S3. destruct (st_cmp _ _); [| |inv S3; left; reflexivity]; destruct (_ =? _); inv S3; exact X.
  - destruct (_ || _); [inv H; exact O|]. destruct (set_state SConfirmed c) as [c3 o3] eqn:S3. inv H.
    unfold set_state in S3. destruct (st_cmp _ _); [| |inv S3; left; reflexivity]; destruct (_ =? _); inv S3; exact O.
  - inv H. exact O.
  - inv H. exact O.
Qed.
Definition seen_close (c : cl) : bool := closed (c_state c).
Lemma frames_mvs : forall a v p fs c c' ys e, frames v p fs c = (c', ys, e) -> closed (c_state c) = false \/ stage (c_state c) = 2 ->
  (a = false -> no_tls_after (seen_close c) fs = true) -> mvs a c ys 0 c'.
Proof.
  intros a v p fs. induction fs as [|f fs IH]; intros c c' ys e H O A; cbn [frames] in H; [inv H; constructor|].
  destruct (input_frame v p f c) as [[c1 o1] e1] eqn:F. pose proof (input_frame_open _ _ _ _ _ _ _ F O) as O1.
  assert (M : mvs a c o1 0 c1).
  { eapply input_frame_mvs; eauto. intros Z ->. specialize (A Z). cbn [no_tls_after] in A. apply andb_prop in A. destruct A as [A _]. apply negb_true_iff in A. exact A. }
  destruct e1 as [[e1 ft]|].
  - destruct (capture v (Some p) ft [] e1 c1) as [c2 o2] eqn:C. inv H. eapply mvs_app0; [exact M|]. eapply capture_mvs; exact C.
  - destruct (frames v p fs c1) as [[c2 o2] r2] eqn:R. inv H. eapply mvs_app0; [exact M|]. eapply IH; eauto.
    intros Z. specialize (A Z). unfold seen_close in *.
    assert (MONO : forall b fs, no_tls_after true fs = true -> no_tls_after b fs = true).
    { clear. intros b fs. revert b. induction fs as [|[] fs IH]; intros b H; cbn [no_tls_after] in *; auto; try discriminate. }
    destruct f; cbn [no_tls_after] in A; cbn [input_frame] in F.
    + auto.
    + apply andb_prop in A. destruct A as [A1 A2]. apply negb_true_iff in A1. rewrite A1 in A2.
      destruct (tls_complete c) as [c3 o3] eqn:S. inv F. unfold tls_complete, set_connected in S. destruct (connected (c_state c)) eqn:K; [inv S; rewrite A1; exact A2|].
      assert (st_rank (c_state c) < 4) by (destruct (c_state c); try discriminate; reflexivity).
      rewrite set_up in S by (cbn; lia). destruct (c_client c); [inv S; exact A2|]. rewrite set_up in S by reflexivity. inv S. exact A2.
    + destruct (_ || _) eqn:K; [discriminate|]. apply orb_false_elim in K. destruct K as [_ K]. apply negb_false_iff in K.
      destruct (set_state SConfirmed c) as [c3 o3] eqn:S. inv F. unfold set_state in S.
      assert (closed (c_state c) = false) as Q by (destruct (c_state c); try discriminate; reflexivity). rewrite Q in A.
      destruct (st_cmp _ _); [| |inv S; exact A]; destruct (_ =? _); inv S; rewrite Q; exact A.
    + inv F. 
    + inv F. exact A.
Qed.
Lemma check_mvs : forall a v b t c c' ys e, check_reset v b t c = (c', ys, e) -> mvs a c ys 0 c'.
Proof.
  intros a v b t c c' ys e H. unfold check_reset in H. destruct (_ && _) eqn:K; [|inv H; constructor]. apply andb_prop in K. destruct K as [_ K].
  assert (st_rank (c_state c) < 7) by (destruct (c_state c); try discriminate; reflexivity). rewrite set_up in H by (cbn; lia). inv H. apply mvs_one, mv_reset. exact K.
Qed.
Lemma post_mvs : forall a b c c' ys, postprocess b c = (c', ys) -> mvs a c ys 0 c'.
Proof.
  intros a b c c' ys H. unfold postprocess in H. destruct (c_state c) eqn:S; try (inv H; constructor).
  - assert (st_rank (c_state c) < st_rank (if b then SHandshaking else SWaitVersion)) by (rewrite S; destruct b; reflexivity).
    rewrite set_up in H by assumption. inv H. apply mvs_one, mv_hs; auto; [rewrite S; reflexivity|destruct b; reflexivity|right; destruct b; reflexivity].
  - destruct b.
    + rewrite set_up in H by (rewrite S; reflexivity). inv H. apply mvs_one, mv_hs; auto; rewrite S; reflexivity.
    + unfold set_state in H. rewrite S in H. cbn in H. inv H. constructor.
Qed.
Lemma packets_mvs : forall a v p tk ps b c c' ys e, packets v p tk b ps c = (c', ys, e) -> (a = false -> forallb tidy_packet ps = true) ->
  exists n, n <= counts stale ps /\ mvs a c ys n c'.
Proof.
  intros a v p tk ps. induction ps as [|q ps IH]; intros b c c' ys e H A; cbn [packets] in H; [exists 0; split; [apply N.le_0_l|eapply check_mvs; exact H]|].
  destruct q as [|found|init o].
  - exists 0. split; [apply N.le_0_l|eapply check_mvs; exact H].
  - exists 0. split; [apply N.le_0_l|]. destruct (c_state c) eqn:S; try (eapply check_mvs; exact H). destruct (c_client c) eqn:C; [|eapply check_mvs; exact H].
    unfold versions in H. destruct found; [inv H; apply mvs_one, mv_vn; auto|]. rewrite set_up in H by (rewrite S; reflexivity). inv H. apply mvs_one, mv_closed. rewrite S. reflexivity.
  - destruct (match c_state c with SInit => if negb (c_client c) && init then set_state SWaitInitial c else (c, []) | _ => (c, []) end) as [c0 o0] eqn:B.
    assert (M0 : mvs a c o0 0 c0).
    { destruct (c_state c) eqn:S; try (inv B; constructor). destruct (_ && _); [|inv B; constructor]. rewrite set_up in B by (rewrite S; reflexivity). inv B. apply mvs_one, mv_hs; auto; rewrite S; reflexivity. }
    clear B.
    assert (FIN : forall c1 o1 r, check_reset v b tk c0 = (c1, o1, r) -> (c1, o0 ++ o1, r) = (c', ys, e) -> exists n, n <= counts stale (PPacket init o :: ps) /\ mvs a c ys n c').
    { intros c1 o1 r K Z. inv Z. exists 0. split; [apply N.le_0_l|]. eapply mvs_app0; [exact M0|eapply check_mvs; exact K]. }
    assert (OP : closed (c_state c0) = false -> 
      match o with
          | PPending => (c0, o0, None)
          | PFatal e => (c0, o0, Some e)
          | PDiscarded | PInvalid _ =>
              let c1 := match o with
                        | PDiscarded => match c_state c0 with SConfirmed => if c_client c0 then c0 else with_sig (g_done (c_sig c0)) c0 | _ => c0 end
                        | _ => c0
                        end in
              let '(c2, o2, r) := check_reset v b (match o with PInvalid t => t | _ => false end) c1 in
              match r with
              | Some e => (c2, o0 ++ o2, Some e)
              | None => let '(c3, o3, r3) := packets v p tk false ps c2 in (c3, o0 ++ o2 ++ o3, r3)
              end
          | POpened fs version =>
              let '(c1, o1, r) := frames v p fs c0 in
              match r with
              | Some e => (c1, o0 ++ o1, Some e)
              | None =>
                  let '(c2, o2) := postprocess version c1 in
                  let '(c3, o3, r3) := packets v p tk false ps c2 in
                  (c3, o0 ++ o1 ++ o2 ++ o3, r3)
              end
          end = (c', ys, e) -> exists n, n <= counts stale (PPacket init o :: ps) /\ mvs a c ys n c').
    { clear H FIN. intros CL H.
      assert (A' : a = false -> forallb tidy_packet ps = true) by (intros Z; specialize (A Z); cbn [forallb] in A; apply andb_prop in A; tauto).
      assert (W : forall n x, n <= counts stale ps -> n <= counts stale (x :: ps)).
      { intros n x L. unfold counts in *. cbn [filter]. destruct (stale x); rewrite ?lenN_cons; lia. }
      assert (IS : forall g t c1, (o = PDiscarded -> True) -> mvs a c0 [] g c1 -> forall c2 o2 r, check_reset v b t c1 = (c2, o2, r) ->
        match r with Some e => (c2, o0 ++ o2, Some e) | None => let '(c3, o3, r3) := packets v p tk false ps c2 in (c3, o0 ++ o2 ++ o3, r3) end = (c', ys, e) ->
        exists n, n <= g + counts stale ps /\ mvs a c ys n c').
      { intros g t c1 _ M1 c2 o2 r K Z. assert (M2 := check_mvs a _ _ _ _ _ _ _ K). destruct r as [r|].
        - inv Z. exists g. split; [lia|]. eapply mvs_app0; [exact M0|]. eapply mvs_eq; [eapply mvs_app; [exact M1|exact M2]|reflexivity|lia].
        - destruct (packets v p tk false ps c2) as [[c3 o3] r3] eqn:P. inv Z. destruct (IH _ _ _ _ _ P A') as [n [L M3]]. exists (g + n). split; [lia|].
          eapply mvs_app0; [exact M0|]. change (o2 ++ o3) with ([] ++ (o2 ++ o3)). eapply mvs_app; [exact M1|]. eapply mvs_app0; eauto. }
      destruct o as [fs ver|e0| | |t0].
      - destruct (frames v p fs c0) as [[c1 o1] r] eqn:F.
        assert (M1 : mvs a c0 o1 0 c1).
        { eapply frames_mvs; [exact F|auto|]. intros Z. specialize (A Z). cbn [forallb tidy_packet] in A. apply andb_prop in A. unfold seen_close. rewrite CL. tauto. }
        destruct r as [r|]; [inv H; exists 0; split; [apply N.le_0_l|eapply mvs_app0; eauto]|].
        destruct (postprocess ver c1) as [c2 o2] eqn:PO. destruct (packets v p tk false ps c2) as [[c3 o3] r3] eqn:P. inv H.
        destruct (IH _ _ _ _ _ P A') as [n [L M3]]. exists n. split; [auto|]. eapply mvs_app0; [exact M0|]. eapply mvs_app0; [exact M1|]. eapply mvs_app0; [eapply post_mvs; exact PO|exact M3].
      - inv H. exists 0. split; [apply N.le_0_l|exact M0].
      - cbv zeta in H. set (c1 := match c_state c0 with SConfirmed => _ | _ => _ end) in *.
        assert (M1 : exists g, g <= 1 /\ mvs a c0 [] g c1).
        { unfold c1. destruct (c_state c0) eqn:S; try (exists 0; split; [lia|constructor]). destruct (c_client c0) eqn:C; [exists 0; split; [lia|constructor]|].
          exists 1. split; [lia|]. apply mvs_one, mv_stale; auto. }
        destruct M1 as [g [G M1]]. destruct (check_reset v b false c1) as [[c2 o2] r] eqn:K. destruct (IS g false c1 (fun _ => Logic.I) M1 _ _ _ K H) as [n [L M]].
        exists n. split; [|exact M]. unfold counts. cbn [filter stale]. rewrite lenN_cons. unfold counts in L. lia.
      - inv H. exists 0. split; [apply N.le_0_l|exact M0].
      - cbv zeta in H. destruct (check_reset v b t0 c0) as [[c2 o2] r] eqn:K. destruct (IS 0 t0 c0 (fun _ => Logic.I) (mvs_nil _ _) _ _ _ K H) as [n [L M]].
        exists n. split; [apply W; lia|exact M]. }
    destruct (c_state c0) eqn:S; try (apply OP; [reflexivity|exact H]).
    + destruct (check_reset v b tk c0) as [[c1 o1] r] eqn:K. eapply FIN; eauto.
    + destruct (check_reset v b tk (with_sig (g_again (c_sig c0)) c0)) as [[c1 o1] r1] eqn:K. inv H. exists 0. split; [apply N.le_0_l|].
      eapply mvs_app0; [exact M0|]. change o1 with ([] ++ o1). eapply mvs_app0; [apply mvs_one, mv_again; rewrite S; reflexivity|eapply check_mvs; exact K].
    + destruct (check_reset v b tk c0) as [[c1 o1] r1] eqn:K. eapply FIN; eauto.
    + destruct (check_reset v b tk c0) as [[c1 o1] r1] eqn:K. eapply FIN; eauto.
Qed.
Lemma input_mvs : forall a v p tk ps c c' ys, input v p tk ps c = (c', ys) -> (a = false -> forallb tidy_packet ps = true) ->
  exists n, n <= counts stale ps /\ mvs a c ys n c'.
Proof.
  intros a v p tk ps c c' ys H A. unfold input in H. destruct (packets v p tk true ps c) as [[c1 o1] r] eqn:P. destruct (packets_mvs _ _ _ _ _ _ _ _ _ _ P A) as [n [L M]].
  exists n. split; [exact L|]. destruct r as [e|]; [|inv H; exact M]. destruct (capture v (Some p) 0 [] e c1) as [c2 o2] eqn:K. inv H.
  eapply mvs_eq; [eapply mvs_app; [exact M|eapply (capture_mvs a); exact K]|reflexivity|lia].
Qed.
Lemma timer_mvs : forall a v i k pt l c c' ys, timer v i k pt l c = (c', ys) -> mvs a c ys 0 c'.
Proof.
  intros a v i k pt l c c' ys H. unfold timer in H.
  assert (O : closed (c_state c) = false -> (if i then set_state (SClosed (RTransport EIdleTimeout)) c
      else
        let '(c1, o1) := match k with Some e => capture v None 0 [] e c | None => (c, []) end in
        if pt && connected (c_state c1) then
          let '(c2, o2) := set_state (SClosed (RTransport ETooManyPtos)) c1 in (c2, o1 ++ o2)
        else if l then let '(c2, o2) := capture v None 0 [] ENoAvailablePath c1 in (c2, o1 ++ o2)
        else (c1, o1)) = (c', ys) -> mvs a c ys 0 c').
  { clear H. intros O H. destruct i.
    - rewrite set_up in H by (apply open_rank in O; cbn; lia). inv H. apply mvs_one, mv_closed, O.
    - destruct (match k with Some e => capture v None 0 [] e c | None => (c, []) end) as [c1 o1] eqn:K.
      assert (M : mvs a c o1 0 c1) by (destruct k; [eapply capture_mvs; exact K|inv K; constructor]). clear K.
      destruct (pt && connected (c_state c1)) eqn:Q.
      + apply andb_prop in Q. destruct Q as [_ Q]. assert (closed (c_state c1) = false) by (destruct (c_state c1); try discriminate; reflexivity).
        rewrite set_up in H by (pose proof (open_rank _ H0); cbn; lia). inv H. eapply mvs_app0; [exact M|apply mvs_one, mv_closed; assumption].
      + destruct l; [|inv H; exact M]. destruct (capture v None 0 [] ENoAvailablePath c1) as [c2 o2] eqn:K. inv H. eapply mvs_app0; [exact M|eapply capture_mvs; exact K]. }
  destruct (c_state c) eqn:S; try (apply O; [reflexivity|exact H]).
  - destruct (_ <=? _); [|destruct i; [|inv H; constructor]]; (rewrite set_up in H by (rewrite S; reflexivity); inv H; apply mvs_one, mv_expire; left; rewrite S; reflexivity).
  - destruct (_ <=? _); [|destruct i; [|inv H; constructor]]; (rewrite set_up in H by (rewrite S; reflexivity); inv H; apply mvs_one, mv_expire; right; rewrite S; reflexivity).
  - inv H. constructor.
Qed.

(** All calls but [close], output and the loss of HANDSHAKE_DONE. *)
Definition quiet (o : op) : bool := match o with KClose _ _ _ | KOutput _ _ _ _ _ _ | KLostDone => false | _ => true end.
Lemma step_mvs : forall o c c' ys, step o c = (c', ys) -> quiet o = true -> exists n, n <= stale_in [o] /\ mvs (negb (tidy o)) c ys n c'.
Proof.
  intros o c c' ys H Q. destruct o; try discriminate; cbn [step] in H.
  - exists 0. split; [apply N.le_0_l|]. destruct (c_state c) eqn:S; try (inv H; constructor). destruct (c_client c); [|inv H; constructor].
    destruct res; [eapply capture_mvs; exact H|]. rewrite set_up in H by (rewrite S; reflexivity). inv H. apply mvs_one, mv_hs; auto; rewrite S; reflexivity.
  - exists 0. split; [apply N.le_0_l|]. destruct (if complete then tls_complete c else (c, [])) as [c1 o1] eqn:K.
    assert (M : mvs (negb (tidy (KTls v complete res))) c o1 0 c1).
    { destruct complete; [|inv K; constructor]. apply connected_mvs; [discriminate|exact K]. }
    destruct res; [|inv H; exact M]. destruct (capture v None 0 [] e c1) as [c2 o2] eqn:K2. inv H. eapply mvs_app0; [exact M|eapply capture_mvs; exact K2].
  - destruct (input_mvs (negb (tidy (KInput v path token ps))) _ _ _ _ _ _ _ H) as [n [L M]].
    { intros Z. apply negb_false_iff in Z. exact Z. }
    exists n. split; [|exact M]. unfold stale_in. cbn [flat_map]. rewrite app_nil_r. exact L.
  - exists 0. split; [apply N.le_0_l|]. eapply timer_mvs; exact H.
Qed.
