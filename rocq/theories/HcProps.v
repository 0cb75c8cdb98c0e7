(** C97: the rules of the control stream, SETTINGS and GOAWAY. *)
From Coq Require Import NArith List Bool Lia.
From Verif Require Import Base Lib HfModel HcModel HcSpec HcProofs HcProofs2.
Import ListNotations.
Open Scope N_scope.

(** However the frames of the control stream are cut into batches, and whatever happens in between, the frames a live
    connection has processed break no rule: SETTINGS came first and once, no frame was out of place, GOAWAY never went up. *)
Theorem control_legal : forall r old local c0 ops t c,
  init r old local = Some c0 -> run c0 ops = (t, c) -> clean t ->
  forall pre e f post x, heard t = pre ++ (e, f) :: post -> ~ fault r old pre e f x.
Proof.
  intros r old local c0 ops t c I R CL. pose proof (run_inv r old ops [] c0 t c (init_inv _ _ _ _ I) R CL) as (_ & _ & _ & L). exact L.
Qed.
Print Assumptions control_legal.

(** And a connection that dies from a batch of control frames dies of a frame of that batch that breaks a rule, with the
    error of that rule. *)
Theorem control_error : forall r old local c0 ops t0 id e fs x c,
  init r old local = Some c0 -> run c0 ops = (t0 ++ [(OFrames id e fs, Fatal x)], c) ->
  exists pre f post, map (pair e) fs = pre ++ (e, f) :: post /\ fault r old (heard t0 ++ pre) e f x.
Proof.
  intros r old local c0 ops t0 id e fs x c I R. destruct (run_snoc _ _ _ _ R _ _ _ eq_refl eq_refl) as (ops0 & c1 & R0 & CL & S).
  pose proof (run_inv r old ops0 [] c0 t0 c1 (init_inv _ _ _ _ I) R0 CL) as IV. cbn [app] in IV. cbn [step] in S.
  destruct (t_get id (c_recv c1)) as [[]|]; try discriminate S. pose proof (frames_step r old (heard t0) c1 e fs IV) as FS.
  destruct (base_frames c1 fs) as [[c2 rest]|y|].
  - destruct (role_frames e c2 rest) as [c3|y|]; inversion S; subst. exact FS.
  - inversion S; subst. exact FS.
  - destruct FS.
Qed.
Print Assumptions control_error.

(** The settings in force are the peer's. *)
Theorem control_settings : forall r old local c0 ops t c s,
  init r old local = Some c0 -> run c0 ops = (t, c) -> clean t -> c_settings c = RReceived s -> exists e, In (e, FSettings s) (heard t).
Proof.
  intros r old local c0 ops t c s I R CL E. pose proof (run_inv r old ops [] c0 t c (init_inv _ _ _ _ I) R CL) as (_ & IS & _). rewrite E in IS. exact IS.
Qed.
Print Assumptions control_settings.

(** Once the handshake is done no frame or call makes the connection panic. *)
Lemma step_live r old h c o : Inv r old h c -> live (c_state c) -> o <> OConnected -> fst (step c o) <> Panicked /\ (final (fst (step c o)) = false -> live (c_state (snd (step c o)))).
Proof.
  intros IV L NC. destruct o as [id|id t|id e fs|id x|id|id code|id code| |id ss|id code|id code]; cbn [step]; try congruence.
  - cbn. split; [discriminate | auto].
  - destruct (t_get id (c_recv c)) as [[]|]; cbn; try (split; [discriminate | auto]).
    destruct t; cbn [new_stream]; unfold new_critical.
    1-3: destruct (exists_kind _ _); split; try discriminate; auto.
    + destruct (c_role _); split; try discriminate; auto.
    + destruct (c_role _); split; try discriminate; auto.
    + destruct (t_get s _) as [[]|]; try destruct (is_uni id); split; try discriminate; auto.
    + split; try discriminate; auto.
  - destruct (t_get id (c_recv c)) as [[]|]; try (cbn; split; [discriminate | auto]).
    pose proof (frames_step r old h c e fs IV) as FS. destruct (base_frames c fs) as [[c2 rest]|y|] eqn:B.
    + destruct IV as (RC & IS & IG & LG). destruct (with_settings_fields _ _ _ _ B) as [s E].
      destruct (role_frames e c2 rest) as [c3|y|] eqn:RF; cbn; try (split; [discriminate | auto; discriminate]).
      * split; [discriminate|]. intros _. destruct FS as (_ & _ & FG & _). pose proof (base_step old e fs h c IS) as BS. rewrite B in BS.
        destruct BS as (_ & _ & R & _). assert (IG2 : Igo h (c_state c2)) by (rewrite E; exact IG).
        pose proof (roles_step e fs h c2 IG2) as RS. rewrite R in RF. rewrite RF in RS. destruct RS as (_ & _ & _ & LV & _). apply LV. rewrite E. exact L.
      * exfalso. apply FS. exact L.
    + cbn. split; [discriminate | discriminate].
    + destruct FS.
  - destruct (recv_critical id c); cbn; split; try discriminate; auto.
  - destruct (recv_critical id c); cbn; split; try discriminate; auto. intros _. destruct (remove_recv_same id c) as (_ & _ & S & _). rewrite S. exact L.
  - pose proof (close_recv_same id code c) as S. destruct (close_recv id code c) as [c' b]. destruct b; cbn in *; split; try discriminate. destruct S as (_ & _ & S & _). rewrite S. auto.
  - destruct (send_critical id c); cbn; split; try discriminate. intros _. destruct (close_send_same id code c) as (_ & _ & S & _). rewrite S. exact L.
  - destruct L as [L|[g L]]; rewrite L; cbn; split; try discriminate; intros _; [left | right; exists g]; exact L.
  - destruct (send_critical id c); cbn; split; try discriminate; auto. intros _. destruct (close_send_same id code c) as (_ & _ & S & _). rewrite S. exact L.
  - destruct (recv_critical id c); cbn; split; try discriminate; auto. intros _. destruct (close_recv_same id code c) as (_ & _ & S & _). rewrite S. exact L.
Qed.
Theorem control_no_panic : forall r old local c0 ops t c,
  init r old local = Some c0 -> ~ In OConnected ops -> run c0 (OConnected :: ops) = (t, c) -> forall o, ~ In (o, Panicked) t.
Proof.
  intros r old local c0 ops t c I NC R.
  assert (G : forall ops h c0 t c, Inv r old h c0 -> live (c_state c0) -> ~ In OConnected ops -> run c0 ops = (t, c) -> forall o, ~ In (o, Panicked) t).
  { clear. induction ops as [|o1 ops IH]; intros h c0 t c IV L NC R o H; cbn [run] in R.
    - inversion R; subst. destruct H.
    - assert (N1 : o1 <> OConnected) by (intros ->; apply NC; left; auto). destruct (step_live _ _ _ _ _ IV L N1) as [A B].
      pose proof (step_inv r old h c0 o1 IV) as S. destruct (step c0 o1) as [x c1]. cbn [fst snd] in *. destruct (final x) eqn:F.
      + inversion R; subst. destruct H as [H|[]]. inversion H; subst. contradiction.
      + destruct (run c1 ops) as [t2 c2] eqn:R2. inversion R; subst. destruct H as [H|H]; [inversion H; subst; discriminate F|].
        eapply (IH _ _ _ _ (S eq_refl) (B eq_refl)); eauto. intro X. apply NC. right; auto. }
  pose proof (init_inv _ _ _ _ I) as IV. cbn [run] in R. pose proof (step_inv r old [] c0 OConnected IV) as S.
  assert (ST : step c0 OConnected = (Fine, with_state CConnected c0)).
  { cbn [step]. unfold init in I. destruct old as [s|]; [destruct (qpack_ok s); [|discriminate]|]; inversion I; reflexivity. }
  rewrite ST in *. cbn [final] in *. destruct (run (with_state CConnected c0) ops) as [t2 c2] eqn:R2. inversion R; subst. intros o [H|H]; [discriminate H|].
  eapply G; [exact (S eq_refl) | left; reflexivity | exact NC | exact R2 | exact H].
Qed.
Print Assumptions control_no_panic.

(** The peer has at most one control stream and one QPACK stream of each direction, and they stay open as long as the
    connection lives. *)
Theorem critical_streams : forall r old local c0 ops1 t1 c1 ops2 t2 c2,
  init r old local = Some c0 -> (forall i, In i local -> is_uni i = true) -> (forall o, In o (ops1 ++ ops2) -> well_typed o) ->
  run c0 ops1 = (t1, c1) -> clean t1 -> run c1 ops2 = (t2, c2) -> clean t2 ->
  (forall i j k, critical k = true -> In (i, k) (c_recv c2) -> In (j, k) (c_recv c2) -> i = j) /\
  (forall i k, critical k = true -> In (i, k) (c_recv c1) -> ~ In i (flat_map brings ops2) -> In (i, k) (c_recv c2)).
Proof.
  intros r old local c0 ops1 t1 c1 ops2 t2 c2 I L WT R1 C1 R2 C2.
  destruct (run_V ops1 c0 t1 c1 (init_V _ _ _ _ L I) (fun o H => WT o (in_or_app _ _ _ (or_introl H))) R1 C1) as [v1 _].
  destruct (run_V ops2 c1 t2 c2 v1 (fun o H => WT o (in_or_app _ _ _ (or_intror H))) R2 C2) as [v2 K]. split; [apply v_one; exact v2 | exact K].
Qed.
Print Assumptions critical_streams.

(** A second one, an end or reset of one, or STOP_SENDING on ours, is a connection error; the application cannot close them. *)
Theorem critical_errors : forall r old local c0 ops t c,
  init r old local = Some c0 -> (forall i, In i local -> is_uni i = true) -> (forall o, In o ops -> well_typed o) -> run c0 ops = (t, c) -> clean t ->
  (forall i j, In (i, SControl) (c_recv c) -> In (j, SNew) (c_recv c) -> fst (step c (OHead j NControl)) = Fatal CStreamCreation) /\
  (forall i j, In (i, SEncoder) (c_recv c) -> In (j, SNew) (c_recv c) -> fst (step c (OHead j NEncoder)) = Fatal CStreamCreation) /\
  (forall i j, In (i, SDecoder) (c_recv c) -> In (j, SNew) (c_recv c) -> fst (step c (OHead j NDecoder)) = Fatal CStreamCreation) /\
  (forall i k code, critical k = true -> In (i, k) (c_recv c) ->
     fst (step c (OReset i code)) = Fatal CClosedCritical /\ (forall e, fst (step c (OBad i e)) = Fatal e) /\ step c (OAppStop i code) = (Api AInvalidStreamId, c)) /\
  (forall i code, In i local -> fst (step c (OStop i code)) = Fatal CClosedCritical /\ step c (OAppReset i code) = (Api AInvalidStreamId, c)).
Proof.
  intros r old local c0 ops t c I L WT R CL. destruct (run_V ops c0 t c (init_V _ _ _ _ L I) WT R CL) as [v _].
  assert (ND := v_r _ v).
  assert (SEC : forall k i j, k <> SNew -> In (i, k) (c_recv c) -> In (j, SNew) (c_recv c) -> exists_kind k (with_recv (t_rm j (c_recv c)) c) = true).
  { intros k i j NK A B. unfold exists_kind. apply existsb_exists. exists (i, k). split; [|apply skind_eqb_eq; reflexivity]. cbn. apply in_rm. split; auto.
    intros ->. apply (in_get _ _ _ ND) in A, B. congruence. }
  assert (LOC : c_local c = local).
  { assert (G : forall ops c0 t c, run c0 ops = (t, c) -> c_local c = c_local c0).
    { clear. induction ops as [|o ops IH]; intros c0 t c R; cbn [run] in R; [inversion R; auto|].
      assert (S : c_local (snd (step c0 o)) = c_local c0).
      { destruct o as [id|id tt|id e fs|id x|id|id code|id code| |id ss|id code|id code]; cbn [step]; auto.
        - destruct (t_get id (c_recv c0)) as [[]|]; auto. destruct tt; cbn [new_stream]; unfold new_critical; try (destruct (exists_kind _ _)); try (destruct (c_role _)); auto.
          destruct (t_get s _) as [[]|]; try destruct (is_uni id); auto.
        - destruct (t_get id (c_recv c0)) as [[]|]; auto. destruct (base_frames c0 fs) as [[c2 rest]|y|] eqn:B; auto. destruct (with_settings_fields _ _ _ _ B) as [s ->].
          assert (RL : forall l c, match role_frames e c l with ROk c' => c_local c' = c_local c | _ => True end).
          { induction l as [|f l IHl]; intro c2; cbn [role_frames]; auto. assert (X : match role_frame e c2 f with ROk c' => c_local c' = c_local c2 | _ => True end).
            { unfold role_frame. destruct (c_role c2), f; auto; [destruct (e_cancel e id0); auto | |].
              - unfold handle_goaway. destruct (_ || _); auto. destruct (c_state c2); auto; try destruct (_ <? _); auto; [apply (goaway_streams_same id0 (with_state (CGoingAway id0) c2)) | apply (goaway_streams_same id0 (with_state (CGoingAway id0) c2)) | apply (goaway_streams_same id0 c2)].
              - destruct (_ || _); auto. }
            destruct (role_frame e c2 f); auto. specialize (IHl a). destruct (role_frames e a l); auto. congruence. }
          specialize (RL rest (with_settings s c0)). destruct (role_frames e (with_settings s c0) rest); auto.
        - destruct (recv_critical id c0); auto.
        - destruct (recv_critical id c0); auto. apply remove_recv_same.
        - pose proof (close_recv_same id code c0) as S. destruct (close_recv id code c0) as [c' []]; apply S.
        - destruct (send_critical id c0); auto. apply close_send_same.
        - destruct (c_state c0); auto.
        - destruct (c_state c0); auto.
        - destruct (send_critical id c0); auto. apply close_send_same.
        - destruct (recv_critical id c0); auto. apply close_recv_same. }
      destruct (step c0 o) as [x c1]. cbn [snd] in S. destruct (final x); [inversion R; subst; auto|]. destruct (run c1 ops) as [t2 c2] eqn:R2. inversion R; subst.
      rewrite (IH _ _ _ R2). exact S. }
    rewrite (G _ _ _ _ R). unfold init in I. destruct old as [s|]; [destruct (qpack_ok s); [|discriminate]|]; inversion I; reflexivity. }
  splits.
  - intros i j A B. cbn [step]. rewrite (in_get _ _ _ ND B). cbn [new_stream]. unfold new_critical. rewrite (SEC SControl i j); auto. discriminate.
  - intros i j A B. cbn [step]. rewrite (in_get _ _ _ ND B). cbn [new_stream]. unfold new_critical. rewrite (SEC SEncoder i j); auto. discriminate.
  - intros i j A B. cbn [step]. rewrite (in_get _ _ _ ND B). cbn [new_stream]. unfold new_critical. rewrite (SEC SDecoder i j); auto. discriminate.
  - intros i k code K A. assert (RC : recv_critical i c = true) by (unfold recv_critical; rewrite (in_get _ _ _ ND A); exact K). cbn [step]. rewrite RC. splits; auto.
    unfold close_recv, remove_recv. rewrite (in_get _ _ _ ND A). destruct k; try discriminate K; reflexivity.
  - intros i code A. assert (SC : send_critical i c = true) by (unfold send_critical; rewrite LOC; apply existsb_exists; exists i; split; auto; apply N.eqb_refl).
    cbn [step]. rewrite SC. auto.
Qed.
Print Assumptions critical_errors.

(** GOAWAY [g]: every request with an id of [g] or above is closed and the application is told it can be retried; requests
    below [g], and the streams of their sessions below [g] or unidirectional, are left alone; nobody else is told that. *)
Theorem goaway_requests : forall old local c0 ops t c id e g c',
  init Client old local = Some c0 -> (forall i, In i local -> is_uni i = true) -> (forall o, In o ops -> well_typed o) -> run c0 ops = (t, c) -> clean t ->
  step c (OFrames id e [FGoaway g]) = (Heard, c') ->
  (forall i k, request_id i -> g <= i -> ~ In (i, k) (c_recv c') /\ ~ In (i, k) (c_send c')) /\
  (forall i, request_id i -> g <= i -> (In (i, SHttp) (c_recv c) -> In (DRecv, i, REQUEST_REJECTED) (c_notes c')) /\ (In (i, SHttp) (c_send c) -> In (DSend, i, REQUEST_REJECTED) (c_notes c'))) /\
  (forall i k, i < g \/ is_uni i = true -> (forall s, k = SWt s -> s < g) ->
     (In (i, k) (c_recv c) -> In (i, k) (c_recv c')) /\ (In (i, k) (c_send c) -> In (i, k) (c_send c'))) /\
  (forall d i, In (d, i, REQUEST_REJECTED) (c_notes c') -> In (d, i, REQUEST_REJECTED) (c_notes c) \/ (g <= i /\ is_uni i = false)) /\
  c_state c' = CGoingAway g.
Proof.
  intros old local c0 ops t c id e g c' I L WT R CL S. destruct (run_V ops c0 t c (init_V _ _ _ _ L I) WT R CL) as [v _].
  pose proof (run_inv Client old ops [] c0 t c (init_inv _ _ _ _ I) R CL) as (RC & _ & IG & _).
  cbn [step] in S. destruct (t_get id (c_recv c)) as [[]|]; try discriminate S. cbn [base_frames handle_control_frame] in S.
  destruct (c_settings c); try discriminate S. cbn [role_frames] in S. unfold role_frame in S. rewrite RC in S. unfold handle_goaway in S.
  destruct (is_uni g || is_server g) eqn:B; [discriminate S|]. apply orb_false_iff in B. destruct B as [B _].
  assert (E : c' = goaway_streams g (with_state (CGoingAway g) c)).
  { destruct (c_state c) as [| | |p|]; try discriminate S; try (inversion S; reflexivity); [destruct (p <? g); [discriminate S | inversion S; reflexivity] | destruct IG]. }
  assert (v0 : V (with_state (CGoingAway g) c)) by (apply V_state; exact v). rewrite E. clear S. set (c1 := with_state (CGoingAway g) c) in *.
  splits.
  - intros i k RI LE. apply request_id_bits in RI. destruct RI as [U _]. apply goaway_gone; auto. apply v_loc; exact v0.
  - intros i RI LE. apply request_id_bits in RI. destruct RI as [U _]. destruct (goaway_told g c1 i (v_r _ v0) (v_s _ v0) (v_loc _ v0) B U LE) as [T1 T2].
    split; [|exact T2]. intro H. apply T1; [exact H|]. intros k K. exact (v_pair _ v0 i k H K).
  - intros i k A W. apply (goaway_kept g c1 (i, k)); cbn [fst snd].
    + destruct A as [A|A]; [left; exact A | right; congruence].
    + intros s1 K. left. exact (W s1 K).
  - intros d i H. apply goaway_quiet in H. destruct H as [H|[H1 H2]]; [left; exact H | right; split; [exact H1 | congruence]].
  - apply (goaway_streams_same g c1).
Qed.
Print Assumptions goaway_requests.

(** After GOAWAY no request is opened, and the announced id only goes down. *)
Lemma step_goaway r old h c o g : Inv r old h c -> c_state c = CGoingAway g -> let (x, c') := step c o in final x = false ->
  (exists g', g' <= g /\ c_state c' = CGoingAway g') /\ (forall id s, o = ORequest id s -> x = Api AAlreadyClosed /\ c' = c).
Proof.
  intros IV E. pose proof (step_live r old h c o IV (or_intror (ex_intro _ g E))) as SL.
  pose proof (step_inv r old h c o IV) as SI. destruct (step c o) as [x c'] eqn:S. intro F. specialize (SI F). split.
  - assert (NC : o <> OConnected) by (intros ->; cbn in S; rewrite E in S; inversion S; subst; discriminate F).
    destruct (SL NC) as [_ LV]. cbn [fst snd] in LV. specialize (LV F). destruct IV as (_ & _ & IG & _). rewrite E in IG. cbn in IG. destruct IG as [[e A] B].
    destruct SI as (_ & _ & IG2 & _). assert (IN : In (e, FGoaway g) (h ++ heard_one (o, x))) by (apply in_or_app; auto).
    destruct LV as [LV|[g' LV]]; rewrite LV in IG2; cbn in IG2.
    + exfalso. eapply IG2. exact IN.
    + exists g'. split; [eapply IG2; exact IN | exact LV].
  - intros id s ->. cbn in S. rewrite E in S. inversion S; auto.
Qed.
Theorem goaway_final : forall r old local c0 ops1 t1 c1 g ops2 t2 c2,
  init r old local = Some c0 -> run c0 ops1 = (t1, c1) -> clean t1 -> c_state c1 = CGoingAway g -> run c1 ops2 = (t2, c2) -> clean t2 ->
  (exists g', g' <= g /\ c_state c2 = CGoingAway g') /\ (forall id s x, In (ORequest id s, x) t2 -> x = Api AAlreadyClosed).
Proof.
  intros r old local c0 ops1 t1 c1 g ops2 t2 c2 I R1 C1 E R2 C2. pose proof (run_inv r old ops1 [] c0 t1 c1 (init_inv _ _ _ _ I) R1 C1) as IV.
  cbn [app] in IV. clear I R1 C1. revert IV E R2 C2. generalize (heard t1). revert c1 g t2 c2.
  induction ops2 as [|o ops IH]; intros c1 g t2 c2 h IV E R2 C2; cbn [run] in R2.
  - inversion R2; subst. split; [exists g; split; [lia | exact E] | intros id s x []].
  - pose proof (step_goaway r old h c1 o g IV E) as SG. pose proof (step_inv r old h c1 o IV) as SI. destruct (step c1 o) as [x c3]. destruct (final x) eqn:F.
    + inversion R2; subst. specialize (C2 o x (or_introl eq_refl)). congruence.
    + destruct (run c3 ops) as [t4 c4] eqn:R4. inversion R2; subst. destruct (SG eq_refl) as [(g1 & L1 & E1) Q].
      destruct (IH c3 g1 t4 c2 _ (SI eq_refl) E1 R4) as [(g2 & L2 & E2) Q2]. { intros o' x' H. apply (C2 o' x'). right; auto. }
      split; [exists g2; split; [lia | exact E2]|]. intros id s y [H|H]; [inversion H; subst; apply (Q id s eq_refl) | eapply Q2; exact H].
Qed.
Print Assumptions goaway_final.

(** A client connection with its control stream, a session, requests and a session's streams in both directions. *)
Definition E0 : env := mkE (fun _ => true) (fun _ => true).
Definition demo_ops : list op :=
  [OConnected; ONew 3; OHead 3 NControl; OFrames 3 E0 [FSettings [(MaxTableCapacity, 100)]]; ONew 7; OHead 7 NDecoder; ORequest 0 true; ORequest 4 false; ORequest 8 false;
   ONew 1; OHead 1 (NWt 0); ONew 5; OHead 5 (NWt 0); ONew 11; OHead 11 (NWt 0)].
Example demo_runs :
  match init Client None [2; 6; 10] with
  | Some c0 => let (t, c) := run c0 demo_ops in
               forallb (fun p => negb (final (snd p))) t = true /\ map fst (c_recv c) = [11; 5; 1; 8; 4; 0; 7; 3] /\
               (let (x, c') := step c (OFrames 3 E0 [FGoaway 8]) in x = Heard /\ map fst (c_recv c') = [11; 5; 1; 4; 0; 7; 3] /\ c_notes c' = [(DSend, 8, REQUEST_REJECTED); (DRecv, 8, REQUEST_REJECTED)])
               /\ fst (step c (OFrames 3 E0 [FGoaway 8; FGoaway 12])) = Fatal CGoaway /\ fst (step c (OFrames 3 E0 [FGoaway 9])) = Fatal CId
               /\ fst (step c (OFrames 3 E0 [FGoaway 9; FData 3])) = Fatal CFrameUnexpected
  | None => False
  end.
Proof. vm_compute. repeat split. Qed.
Print Assumptions demo_runs.

(** GOAWAY also closes streams the server opened, although the id it carries speaks of the client's requests: with session 0
    kept by GOAWAY 4, the server's own stream 5 of that session is reset as rejected, while its stream 1 is not. *)
Theorem goaway_server_stream_refuted : exists ops t c c',
  match init Client None [2; 6; 10] with Some c0 => run c0 ops = (t, c) | None => False end /\ clean t /\ (forall o, In o ops -> well_typed o) /\
  step c (OFrames 3 E0 [FGoaway 4]) = (Heard, c') /\ In (0, SSession) (c_recv c') /\
  In (5, SWt 0) (c_recv c) /\ is_server 5 = true /\ ~ In (5, SWt 0) (c_recv c') /\ In (DRecv, 5, REQUEST_REJECTED) (c_notes c') /\ In (1, SWt 0) (c_recv c').
Proof.
  exists demo_ops. eexists. eexists. eexists. split; [vm_compute; reflexivity|]. split; [|split; [|split; [vm_compute; reflexivity|]]].
  - intros o x H. cbn in H. repeat (destruct H as [H|H]; [inversion H; reflexivity|]). destruct H.
  - intros o H. cbn in H. repeat (destruct H as [H|H]; [subst o; try exact I; try reflexivity|]). destruct H.
  - cbn. splits; auto 10; try (intro H; repeat (destruct H as [H|H]; [discriminate H|]); destruct H).
Qed.
Print Assumptions goaway_server_stream_refuted.

(** A value any peer may announce ends the connection: more blocked streams than 65535. *)
Theorem settings_large_refuted : exists s c0, init Client None [2; 6; 10] = Some c0 /\ s_get s BlockedStreams = 65536 /\
  fst (run c0 [OConnected; ONew 3; OHead 3 NControl; OFrames 3 E0 [FSettings s]]) =
  [(OConnected, Fine); (ONew 3, Fine); (OHead 3 NControl, Fine); (OFrames 3 E0 [FSettings s], Fatal CQpackEncoder)].
Proof. exists [(BlockedStreams, 65536)]. eexists. split; [reflexivity|]. split; vm_compute; reflexivity. Qed.
Print Assumptions settings_large_refuted.

(** A server may take back extended CONNECT after early data relied on it, unnoticed. *)
Theorem early_connect_refuted : exists old c0, init Client (Some old) [2; 6; 10] = Some c0 /\ s_get old EnableConnect = 1 /\ s_get [] EnableConnect = 0 /\
  fst (run c0 [OConnected; ONew 3; OHead 3 NControl; OFrames 3 E0 [FSettings []]]) =
  [(OConnected, Fine); (ONew 3, Fine); (OHead 3 NControl, Fine); (OFrames 3 E0 [FSettings []], Heard)].
Proof. exists [(EnableConnect, 1)]. eexists. split; [reflexivity|]. splits; vm_compute; reflexivity. Qed.
Print Assumptions early_connect_refuted.
