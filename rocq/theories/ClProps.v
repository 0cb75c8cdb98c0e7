(** C40, C81, C82: closing a connection and HANDSHAKE_DONE. *)
From Verif Require Import Base Lib FrameModel FrameSpec FrameProofs FrameProps ClModel ClSpec ClProofs.
Open Scope N_scope.
Open Scope list_scope.
Import ListNotations.

(** *** Lemmas *)
Definition shut (c : cl) : Prop := closed (c_state c) = true.
Lemma cmp_progress : forall s t, st_cmp s t = Gt -> progress t <= progress s.
Proof.
  intros s t H. destruct (N.eq_dec (st_rank s) (st_rank t)) as [E|E].
  - destruct s, t; cbn in E; try lia; cbn; lia.
  - rewrite cmp_rank in H by exact E. apply N.compare_gt_iff in H. destruct s, t; cbn in *; lia.
Qed.
Lemma set_progress : forall s c c' ys, set_state s c = (c', ys) -> closed s = true ->
  (c' = with_state s c /\ ys = [OState s] /\ progress (c_state c) <= progress s) \/ (c' = c /\ closed (c_state c) = true /\ (ys = [] \/ ys = [OAssert])).
Proof.
  intros s c c' ys H K. unfold set_state in H. destruct (st_cmp s (c_state c)) eqn:E.
  - right. destruct (N.eqb_spec (st_rank s) (st_rank (c_state c))) as [R|R].
    + inv H. splits; auto. destruct s, (c_state c'); cbn in *; try discriminate; auto.
    + rewrite cmp_rank in E by exact R. apply N.compare_eq in E. contradiction.
  - right. assert (closed (c_state c) = true).
    { destruct (N.eq_dec (st_rank s) (st_rank (c_state c))) as [R|R].
      - destruct s, (c_state c); cbn in *; try discriminate; auto.
      - rewrite cmp_rank in E by exact R. apply N.compare_lt_iff in E. destruct s, (c_state c); cbn in *; try discriminate; try lia; auto. }
    destruct (_ =? _); inv H; splits; auto. destruct (_ && _); auto.
  - left. inv H. splits; auto. apply cmp_progress, E.
Qed.
(** What a call does once the connection is closing: nothing is received. *)
Lemma shut_input : forall v p tk ps c c' ys, shut c -> input v p tk ps c = (c', ys) -> ys = [] /\ (c' = c \/ (stage (c_state c) = 1 /\ c' = with_sig (g_again (c_sig c)) c)).
Proof.
  unfold shut, input. intros v p tk ps c c' ys K H.
  assert (CR : forall b t g, check_reset v b t (with_sig g c) = (with_sig g c, [], None)).
  { intros b t g. unfold check_reset. cbn [c_state with_sig]. replace (connected (c_state c)) with false by (destruct (c_state c); try discriminate; reflexivity). rewrite andb_false_r. reflexivity. }
  assert (CR0 : forall b t, check_reset v b t c = (c, [], None)) by (intros b t; pose proof (CR b t (c_sig c)) as E; rewrite with_sig_id in E; exact E).
  destruct ps as [|[|found|init o] ps]; cbn [packets] in H.
  - rewrite CR0 in H. inv H. auto.
  - rewrite CR0 in H. inv H. auto.
  - destruct (c_state c) eqn:S; try discriminate; rewrite CR0 in H; inv H; auto.
  - destruct (c_state c) eqn:S; try discriminate; rewrite S in H; [rewrite CR in H|rewrite CR0 in H|rewrite CR0 in H]; inv H; auto.
Qed.
Lemma shut_capture : forall v p ft msg e c, shut c -> capture v p ft msg e c = (c, []).
Proof. unfold shut, capture. intros v p ft msg e c K. destruct (c_state c); try discriminate; reflexivity. Qed.
Lemma shut_tls : forall c c' ys, shut c -> tls_complete c = (c', ys) -> c_state c' = c_state c /\ reported ys = [] /\ existsb sends ys = false /\
  (c_sig c' = c_sig c \/ c_sig c' = g_done (c_sig c)) /\ c_flight c' = c_flight c /\ c_client c' = c_client c.
Proof.
  unfold shut. intros c c' ys K H. unfold tls_complete in H. replace (connected (c_state c)) with false in H by (destruct (c_state c); try discriminate; reflexivity).
  unfold set_connected in H. rewrite set_low in H by (assumption || reflexivity). destruct (c_client c) eqn:C; [inv H; splits; auto|].
  rewrite set_low in H by (assumption || reflexivity). inv H. splits; auto.
Qed.

Lemma reported_app : forall a b, reported (a ++ b) = reported a ++ reported b. Proof. intros. apply flat_map_app. Qed.
Lemma closes_app : forall a b, closes (a ++ b) = closes a ++ closes b. Proof. intros. apply flat_map_app. Qed.
Lemma counts_app : forall {A} (f : A -> bool) a b, counts f (a ++ b) = counts f a + counts f b.
Proof. intros A f a b. unfold counts. rewrite filter_app, lenN_app. reflexivity. Qed.
Lemma counts_cons : forall {A} (f : A -> bool) x l, counts f (x :: l) = (if f x then 1 else 0) + counts f l.
Proof. intros A f x l. unfold counts. cbn [filter]. destruct (f x); rewrite ?lenN_cons; lia. Qed.

(** One call on a closed connection. *)
Record shut_step (o : op) (c c' : cl) (ys : list out) : Prop := {
  ss_shut : shut c';
  ss_client : c_client c' = c_client c;
  ss_rep : (reported ys = [] /\ c_state c' = c_state c) \/ (reported ys = [c_state c'] /\ progress (c_state c) <= progress (c_state c') /\ stage (c_state c') <> 2);
  ss_reason : is_close o = false -> idle_timer o = false -> reason_of (c_state c') = reason_of (c_state c);
  ss_sig : (c_sig c' = c_sig c /\ closes ys = []) \/ (c_sig c' = g_done (c_sig c) /\ closes ys = []) \/
    (is_input o = true /\ stage (c_state c) = 1 /\ c_sig c' = g_again (c_sig c) /\ closes ys = []) \/
    (is_close o = true /\ exists f, c_sig c' = g_close f (c_sig c) /\ closes ys = []) \/
    (exists f, g_take (c_sig c) = (c_sig c', Some f) /\ (closes ys = [] \/ closes ys = [f]));
  ss_done : counts is_done ys = 0;
  ss_data : In OData ys -> closes ys <> [] /\ exists v p e d t, o = KOutput v p e d t true }.
Lemma shut_steps : forall o c c' ys, shut c -> step o c = (c', ys) -> shut_step o c c' ys.
Proof.
  intros o c c' ys K H. destruct o; cbn [step] in H.
  - unfold api_close in H. destruct (v_primary v) as [p|].
    + set (f := mkF p (RApp code) 0 msg) in *. apply set_progress in H; [|reflexivity]. destruct H as [[-> [-> P]]|[-> [_ [-> | ->]]]].
      * split; try reflexivity; [right; split; [reflexivity|split; [exact P|discriminate]]|discriminate|right; right; right; left; split; [reflexivity|exists f; auto]|intros [|[]]; discriminate].
      * split; try reflexivity; try assumption; [left; auto|right; right; right; left; split; [reflexivity|exists f; auto]|intros []].
      * split; try reflexivity; try assumption; [left; auto|right; right; right; left; split; [reflexivity|exists f; auto]|intros [|[]]; discriminate].
    + apply set_progress in H; [|reflexivity]. destruct H as [[-> [-> P]]|[-> [_ [-> | ->]]]].
      * split; try reflexivity; [right; split; [reflexivity|split; [exact P|discriminate]]|discriminate|left; auto|intros [|[]]; discriminate].
      * split; try reflexivity; try assumption; [left; auto|left; auto|intros []].
      * split; try reflexivity; try assumption; [left; auto|left; auto|intros [|[]]; discriminate].
  - assert (H' : (c, []) = (c', ys)) by (unfold shut in K; destruct (c_state c); try discriminate; exact H). inv H'. split; try reflexivity; try assumption; [left; auto|left; auto|intros []].
  - assert (E : exists c1 o1, (if complete then tls_complete c else (c, [])) = (c1, o1)) by (destruct (if complete then _ else _); eauto). destruct E as [c1 [o1 E]]. rewrite E in H.
    assert (X : c_state c1 = c_state c /\ reported o1 = [] /\ existsb sends o1 = false /\ (c_sig c1 = c_sig c \/ c_sig c1 = g_done (c_sig c)) /\ c_flight c1 = c_flight c /\ c_client c1 = c_client c).
    { destruct complete; [apply shut_tls; auto|inv E; splits; auto]. }
    destruct X as [X1 [X2 [X3 [X4 [X5 X6]]]]]. assert (K1 : shut c1) by (unfold shut in *; rewrite X1; exact K).
    assert (Z : c' = c1 /\ ys = o1) by (destruct res; [rewrite shut_capture in H by exact K1; inv H; rewrite app_nil_r; auto|inv H; auto]). destruct Z as [-> ->].
    assert (CL : closes o1 = []) by (clear - X3; induction o1 as [|[] o1 IH]; try discriminate; cbn in *; auto).
    assert (DN : counts is_done o1 = 0) by (clear - X3; induction o1 as [|[] o1 IH]; try discriminate; cbn in *; auto).
    split; auto; [rewrite X1; auto|destruct X4 as [X4|X4]; auto|].
    intros I. exfalso. clear - X3 I. induction o1 as [|x o1 IH]; [destruct I|]. cbn [existsb] in X3. apply orb_false_elim in X3. destruct X3 as [X3 X4]. destruct I as [->|I]; [discriminate|auto].
  - apply shut_input in H; [|exact K]. destruct H as [-> [-> |[S ->]]]; (split; try reflexivity; try assumption); try (left; auto; fail); try (intros []); [].
    right. right. left. auto.
  - unfold timer in H. assert (ID : forall r, set_state (SClosed r) c = (c', ys) -> (is_close (KTimer v idle keys ptos lost) = false -> idle_timer (KTimer v idle keys ptos lost) = false -> Some r = reason_of (c_state c)) ->
      shut_step (KTimer v idle keys ptos lost) c c' ys).
    { clear H. intros r H Q. apply set_progress in H; [|reflexivity]. destruct H as [[-> [-> P]]|[-> [_ [-> | ->]]]].
      * split; try reflexivity; [right; split; [reflexivity|split; [exact P|discriminate]]|exact Q|left; auto|intros [|[]]; discriminate].
      * split; try reflexivity; try assumption; [left; auto|left; auto|intros []].
      * split; try reflexivity; try assumption; [left; auto|left; auto|intros [|[]]; discriminate]. }
    unfold shut in K. destruct (c_state c) eqn:S; try discriminate.
    + destruct (_ <=? _); [apply (ID _ H); reflexivity|]. destruct idle; [apply (ID _ H); discriminate|]. inv H. split; try reflexivity; try (unfold shut; rewrite S; assumption); [left; auto|left; auto|intros []].
    + destruct (_ <=? _); [apply (ID _ H); reflexivity|]. destruct idle; [apply (ID _ H); discriminate|]. inv H. split; try reflexivity; try (unfold shut; rewrite S; assumption); [left; auto|left; auto|intros []].
    + inv H. split; try reflexivity; try (unfold shut; rewrite S; assumption); [left; auto|left; auto|intros []].
  - unfold output in H. rewrite K in H. destruct (g_take (c_sig c)) as [g f] eqn:T. destruct f as [f|].
    2: { inv H. split; try reflexivity; try assumption; [left; auto|left; auto|intros []]. }
    assert (K1 : shut (with_sig g c)) by exact K.
    assert (E0 : forall ys, closes ys = [] \/ closes ys = [f] -> reported ys = [] -> counts is_done ys = 0 -> (In OData ys -> closes ys <> [] /\ exists v0 p e d t, KOutput v path res done temp more = KOutput v0 p e d t true) ->
      shut_step (KOutput v path res done temp more) c (with_sig g c) ys).
    { intros zs Z1 Z2 Z3 Z4. split; auto. right. right. right. right. exists f. split; [exact T|exact Z1]. }
    destruct temp; [rewrite shut_capture in H by exact K1; inv H; apply E0; auto; intros []|].
    destruct res; [rewrite shut_capture in H by exact K1; inv H; apply E0; auto; intros []|]. inv H. apply E0; destruct more; cbn; auto.
    + intros _. split; [discriminate|]. repeat eexists.
    + intros [|[]]; discriminate.
  - destruct (_ =? 0); inv H; (split; try reflexivity; try assumption); try (left; auto; fail); try (intros []). right. left. auto.
Qed.
Lemma run_cons : forall o os c c' ys, run (o :: os) c = (c', ys) -> exists c1 y1 y2, step o c = (c1, y1) /\ run os c1 = (c', y2) /\ ys = y1 ++ y2.
Proof. intros o os c c' ys H. cbn [run] in H. destruct (step o c) as [c1 y1] eqn:S. destruct (run os c1) as [c2 y2] eqn:R. inv H. exists c1, y1, y2. auto. Qed.
Lemma run_app : forall os1 os2 c c' ys, run (os1 ++ os2) c = (c', ys) -> exists c1 y1 y2, run os1 c = (c1, y1) /\ run os2 c1 = (c', y2) /\ ys = y1 ++ y2.
Proof.
  induction os1 as [|o os1 IH]; intros os2 c c' ys H; [exists c, [], ys; auto|]. change ((o :: os1) ++ os2) with (o :: (os1 ++ os2)) in H.
  apply run_cons in H. destruct H as [c1 [y1 [y2 [A [B ->]]]]]. apply IH in B. destruct B as [c2 [z1 [z2 [B [C ->]]]]]. exists c2, (y1 ++ z1), z2. cbn [run]. rewrite A, B. splits; auto. apply app_assoc.
Qed.

(** ** C40 *)
(** Once closing, every state reported is as far along as all before it, the connection never opens again, and the last one reported is where it is. *)
Theorem never_goes_back : forall os c c' ys, closed (c_state c) = true -> run os c = (c', ys) ->
  closed (c_state c') = true /\ Forall (fun s => closed s = true) (reported ys) /\ climbs (map progress (c_state c :: reported ys)) /\ c_state c' = last (reported ys) (c_state c).
Proof.
  induction os as [|o os IH]; intros c c' ys K H.
  - inv H. splits; auto; try constructor.
  - apply run_cons in H. destruct H as [c1 [y1 [y2 [S [R ->]]]]]. destruct (shut_steps _ _ _ _ K S) as [K1 _ RP _ _ _ _]. destruct (IH _ _ _ K1 R) as [A [B [C D]]].
    rewrite reported_app. destruct RP as [[E1 E2]|[E1 [E2 _]]]; rewrite E1; cbn [List.app].
    + rewrite <- E2. auto.
    + split; [exact A|]. split; [constructor; auto|]. split; [split; [exact E2|exact C]|].
      rewrite D. destruct (reported y2) as [|s r]; [reflexivity|]. cbn [last]. clear. revert s. induction r as [|x r IH]; intros s; [reflexivity|]. cbn [last] in *. apply IH.
Qed.
Print Assumptions never_goes_back.

(** Nothing but CONNECTION_CLOSE, and packets sent in one batch with it, leaves a closing connection. *)
Theorem only_close_is_sent : forall os c c' ys, closed (c_state c) = true -> run os c = (c', ys) ->
  ~ In ODone ys /\ (Forall (fun o => match o with KOutput _ _ _ _ _ more => more = false | _ => True end) os -> ~ In OData ys).
Proof.
  induction os as [|o os IH]; intros c c' ys K H; [inv H; split; [intros []|intros _ []]|].
  apply run_cons in H. destruct H as [c1 [y1 [y2 [S [R ->]]]]]. destruct (shut_steps _ _ _ _ K S) as [K1 _ _ _ _ DN DA]. destruct (IH _ _ _ K1 R) as [A B]. split.
  - intros I. apply in_app_or in I. destruct I as [I|I]; [|auto]. clear - DN I. unfold counts in DN. assert (In ODone (filter is_done y1)) by (apply filter_In; auto). destruct (filter is_done y1); [contradiction|rewrite lenN_cons in DN; lia].
  - intros F I. inv F. apply in_app_or in I. destruct I as [I|I]; [|exact (B H2 I)]. destruct (DA I) as [_ [v [p [e [d [t ->]]]]]]. discriminate.
Qed.
Print Assumptions only_close_is_sent.
(** The second datagram of a batch is an ordinary one. *)
Theorem only_close_is_sent_refuted : exists os c c' ys, closed (c_state c) = true /\ run os c = (c', ys) /\ In OData ys.
Proof.
  exists [KOutput (mkEnv 0 1 (Some 0)) (Some 0) None false false true], (mkCl true (SClosing (RApp 1) 3) (GClosing (mkF 0 (RApp 1) 0 [])) 0).
  eexists. eexists. split; [reflexivity|]. split; [reflexivity|]. right. left. reflexivity.
Qed.
Print Assumptions only_close_is_sent_refuted.

(** The CONNECTION_CLOSE still owed: that pending, or that which a packet can bring back. *)
Definition owed (g : signal) : N := match g with GClosing _ | GDraining _ => 1 | _ => 0 end.
(** A draining or closed endpoint sends at most one CONNECTION_CLOSE, and one for each call of [close]. *)
Lemma drained_count : forall os c c' ys, 2 <= stage (c_state c) -> run os c = (c', ys) -> lenN (closes ys) <= owed (c_sig c) + counts is_close os.
Proof.
  induction os as [|o os IH]; intros c c' ys K H; [inv H; apply N.le_0_l|].
  assert (SH : shut c) by (unfold shut; destruct (c_state c); cbn in K; try lia; reflexivity).
  apply run_cons in H. destruct H as [c1 [y1 [y2 [S [R ->]]]]]. destruct (shut_steps _ _ _ _ SH S) as [K1 _ RP _ SG _ _].
  assert (K2 : 2 <= stage (c_state c1)). { destruct RP as [[_ ->]|[_ P]]; [exact K|]. destruct P as [P _]. unfold shut in *. destruct (c_state c), (c_state c1); cbn in *; try discriminate; lia. }
  pose proof (IH _ _ _ K2 R) as L. rewrite closes_app, lenN_app, counts_cons.
  destruct SG as [[E ->]|[[E ->]|[[_ [E _]]|[[-> [f [E ->]]]|[f [E [-> | ->]]]]]]].
  - rewrite E in L. cbn. lia.
  - assert (owed (c_sig c1) = owed (c_sig c)) by (rewrite E; destruct (c_sig c); reflexivity). cbn. lia.
  - lia.
  - assert (owed (c_sig c1) <= 1) by (destruct (c_sig c1); cbn; lia). cbn. lia.
  - assert (owed (c_sig c1) = 0) by (destruct (c_sig c); cbn in E; inv E; reflexivity). cbn. lia.
  - assert (owed (c_sig c1) = 0 /\ owed (c_sig c) = 1) by (destruct (c_sig c); cbn in E; inv E; split; reflexivity). cbn. lia.
Qed.
Theorem draining_sends_once_partial : forall os c c' ys, 2 <= stage (c_state c) -> run os c = (c', ys) -> lenN (closes ys) <= 1 + counts is_close os.
Proof. intros os c c' ys K H. pose proof (drained_count _ _ _ _ K H). assert (owed (c_sig c) <= 1) by (destruct (c_sig c); cbn; lia). lia. Qed.
Print Assumptions draining_sends_once_partial.
(** [close] on a draining connection sends another. *)
Definition v0 : env := mkEnv 0 10 (Some 0).
Definition drained_ops : list op :=
  [KInput v0 0 false [PPacket true (POpened [FOther] true)]; KInput v0 0 false [PPacket false (POpened [FTlsDone] true)];
   KInput v0 0 false [PPacket false (POpened [FClose true 7] true)]; KOutput v0 (Some 0) None false false false].
Theorem draining_sends_once_refuted : exists os c xs c' ys, run drained_ops (cl_new false) = (c, xs) /\ stage (c_state c) = 2 /\ lenN (closes xs) = 1 /\
  run os c = (c', ys) /\ stage (c_state c') = 2 /\ lenN (closes ys) = 2.
Proof.
  exists [KClose v0 5 []; KOutput v0 (Some 0) None false false false; KClose v0 5 []; KOutput v0 (Some 0) None false false false].
  eexists. eexists. eexists. eexists. split; [vm_compute; reflexivity|]. split; [reflexivity|]. split; [reflexivity|]. split; [vm_compute; reflexivity|]. split; reflexivity.
Qed.
Print Assumptions draining_sends_once_refuted.

(** In the closing state, no more CONNECTION_CLOSE than datagrams received, calls of [close], and one. *)
Theorem closing_answers_bounded : forall os c c' ys, closed (c_state c) = true -> run os c = (c', ys) ->
  lenN (closes ys) <= 1 + counts is_input os + counts is_close os.
Proof.
  assert (G : forall os c c' ys, closed (c_state c) = true -> run os c = (c', ys) -> lenN (closes ys) <= owed (c_sig c) + counts is_input os + counts is_close os).
  { induction os as [|o os IH]; intros c c' ys K H; [inv H; apply N.le_0_l|].
    apply run_cons in H. destruct H as [c1 [y1 [y2 [S [R ->]]]]]. destruct (shut_steps _ _ _ _ K S) as [K1 _ RP _ SG _ _].
    pose proof (IH _ _ _ K1 R) as L. rewrite closes_app, lenN_app, !counts_cons.
    destruct SG as [[E ->]|[[E ->]|[[-> [_ [E ->]]]|[[-> [f [E ->]]]|[f [E [-> | ->]]]]]]].
    - rewrite E in L. cbn. lia.
    - assert (owed (c_sig c1) = owed (c_sig c)) by (rewrite E; destruct (c_sig c); reflexivity). cbn. lia.
    - assert (owed (c_sig c1) <= 1) by (destruct (c_sig c1); cbn; lia). assert (owed (c_sig c1) = 1 \/ owed (c_sig c1) = owed (c_sig c)) by (destruct (c_sig c1); cbn in *; auto; destruct (c_sig c) as [| | | |[|]|]; cbn in E; try discriminate; auto). cbn. lia.
    - assert (owed (c_sig c1) <= 1) by (destruct (c_sig c1); cbn; lia). cbn. lia.
    - assert (owed (c_sig c1) = 0) by (destruct (c_sig c); cbn in E; inv E; reflexivity). cbn. lia.
    - assert (owed (c_sig c1) = 0 /\ owed (c_sig c) = 1) by (destruct (c_sig c); cbn in E; inv E; split; reflexivity). cbn. lia. }
  intros os c c' ys K H. pose proof (G _ _ _ _ K H). assert (owed (c_sig c) <= 1) by (destruct (c_sig c); cbn; lia). lia.
Qed.
Print Assumptions closing_answers_bounded.

(** In the closing state a packet is answered with the CONNECTION_CLOSE last sent. *)
Theorem closing_answers : forall c r t f v v' p tk init o ps path done more, c_state c = SClosing r t -> c_sig c = GSent (Some f) ->
  exists c' ys, run [KInput v p tk (PPacket init o :: ps); KOutput v' path None done false more] c = (c', ys) /\ closes ys = [f].
Proof.
  intros c r t f v v' p tk init o ps path done more S G. destruct c as [k s g fl]. cbn in S, G. subst.
  cbn [run step]. unfold input. cbn [packets c_state c_sig with_sig g_again c_client c_flight]. unfold check_reset. cbn [c_state with_sig connected]. rewrite andb_false_r.
  unfold output. cbn [c_state closed c_sig with_sig g_take c_client c_flight]. eexists. eexists. split; [reflexivity|]. destruct more; reflexivity.
Qed.
Print Assumptions closing_answers.

(** *** Stateless reset *)
Definition is_reset (s : state) : Prop := exists t, s = SDraining (RTransport EStatelessReset) t.
Definition quiet_reset (c : cl) : Prop := shut c /\ c_sig c = GReset.
Lemma quiet_keeps : forall o c c' ys, quiet_reset c -> step o c = (c', ys) -> quiet_reset c' /\ existsb sends ys = false.
Proof.
  intros o c c' ys [K G] S. destruct (shut_steps _ _ _ _ K S) as [K1 _ _ _ SG DN DA]. rewrite G in SG.
  assert (E : c_sig c' = GReset /\ closes ys = []) by (destruct SG as [[-> ?]|[[-> ?]|[[_ [_ [-> ?]]]|[[_ [f [-> ?]]]|[f [E _]]]]]]; try discriminate; auto).
  destruct E as [E1 E2]. split; [split; auto|]. apply not_true_iff_false. intros X. apply existsb_exists in X. destruct X as [x [I X]]. destruct x; try discriminate.
  - unfold closes in E2. assert (In f (flat_map (fun x => match x with OClose f => [f] | _ => [] end) ys)) by (apply in_flat_map; exists (OClose f); split; [exact I|left; reflexivity]). rewrite E2 in H. exact H.
  - destruct (DA I) as [Z _]. contradiction.
  - unfold counts in DN. assert (In ODone (filter is_done ys)) by (apply filter_In; auto). destruct (filter is_done ys); [contradiction|rewrite lenN_cons in DN; lia].
Qed.
Lemma mv_reset_keeps : forall a c ys n c', mv a c ys n c' -> (exists s, In (OState s) ys /\ is_reset s) -> quiet_reset c'.
Proof.
  intros a c ys n c' M [s [I [t ->]]].
  destruct M; cbn [In] in I; repeat match goal with I : _ \/ _ |- quiet_reset _ => destruct I as [I|I] end; try contradiction; try discriminate; try (injection I as I; subst; try discriminate).
  - destruct H0 as [k [H0|H0]]; congruence.
  - destruct H0 as [k [H0|H0]]; congruence.
  - split; reflexivity.
Qed.
Lemma mv_quiet : forall a c ys n c', mv a c ys n c' -> quiet_reset c -> quiet_reset c'.
Proof.
  unfold quiet_reset, shut. intros a c ys n c' M [K G]. destruct M; cbn [c_state c_sig with_state with_sig] in *; rewrite ?G in *; cbn in *; try congruence; try (split; auto; fail).
  - destruct (c_state c); discriminate.
  - split; auto. destruct H1 as [->| ->]; reflexivity.
Qed.
Lemma mvs_reset : forall a c ys n c', mvs a c ys n c' -> (quiet_reset c -> quiet_reset c') /\ ((exists s, In (OState s) ys /\ is_reset s) -> quiet_reset c').
Proof.
  intros a c ys n c' M. induction M as [c|c ys n c1 zs m c2 A B [IH1 IH2]].
  - split; auto. intros [s [[] _]].
  - split; [intros Q; apply IH1; eapply mv_quiet; eauto|]. intros [s [I R]]. apply in_app_or in I. destruct I as [I|I]; [|apply IH2; eauto]. apply IH1. eapply mv_reset_keeps; eauto.
Qed.
Lemma capture_reports : forall v p ft msg e c c' ys s, capture v p ft msg e c = (c', ys) -> In (OState s) ys -> closed s = true.
Proof.
  intros v p ft msg e c c' ys s H I.
  assert (X : forall s0 d, closed s0 = true -> set_state s0 d = (c', ys) -> closed s = true).
  { intros s0 d K Q. apply set_progress in Q; [|exact K]. destruct Q as [[_ [-> _]]|[_ [_ [-> | ->]]]]; [destruct I as [I|[]]; injection I as <-; exact K|destruct I|destruct I as [I|[]]; discriminate]. }
  unfold capture in H. destruct (c_state c); try (inv H; destruct I; fail); try (eapply X; [|exact H]; reflexivity); (destruct (or_else p (v_primary v)); [destruct e|]; (eapply X; [|exact H]; reflexivity)).
Qed.
Lemma out_mvs : forall v path res done temp more c c' ys, step (KOutput v path res done temp more) c = (c', ys) -> closed (c_state c) = false ->
  exists c1 o1 o2, mvs false c1 o2 0 c' /\ ys = o1 ++ o2 ++ (match path, res with Some _, None => [OData] | _, _ => [] end) /\ ~ In (OState SConnected) o2 /\
    ((c1 = c /\ o1 = []) \/ (c_sig c = GDone /\ c1 = mkCl (c_client c) (c_state c) GIdle (c_flight c + 1) /\ o1 = [ODone])).
Proof.
  intros v path res done temp more c c' ys H O. cbn [step] in H. unfold output in H. rewrite O in H. destruct path as [p|].
  2: { inv H. exists c', [], []. splits; [constructor|reflexivity|intros []|left; auto]. }
  destruct (match c_sig c with GDone => if done then _ else _ | _ => _ end) as [c1 o1] eqn:E.
  assert (X : (c1 = c /\ o1 = []) \/ (c_sig c = GDone /\ c1 = mkCl (c_client c) (c_state c) GIdle (c_flight c + 1) /\ o1 = [ODone])).
  { destruct (c_sig c) eqn:G; try (inv E; left; auto; fail). destruct done; inv E; auto. }
  clear E. destruct res as [e|].
  - destruct (capture v (Some p) 0 [] e c1) as [c2 o2] eqn:C. inv H. exists c1, o1, o2. splits; auto; [eapply capture_mvs; exact C|rewrite app_nil_r; reflexivity|]. intros I. apply (capture_reports _ _ _ _ _ _ _ _ _ C) in I. discriminate.
  - inv H. exists c', o1, []. splits; auto. constructor. 
Qed.
Lemma close_open : forall v code msg c c' ys, step (KClose v code msg) c = (c', ys) -> closed (c_state c) = false -> mvs false c ys 0 c'.
Proof.
  intros v code msg c c' ys H O. cbn [step] in H. unfold api_close in H. pose proof (open_rank _ O) as R. destruct (v_primary v) as [p|].
  - rewrite set_up in H by (cbn; lia). inv H. apply mvs_one, mv_closing; auto.
  - rewrite set_up in H by (cbn; lia). inv H. apply mvs_one, mv_closed; auto.
Qed.
Lemma step_reset : forall o c c' ys, step o c = (c', ys) -> (quiet_reset c -> quiet_reset c') /\ ((exists s, In (OState s) ys /\ is_reset s) -> quiet_reset c').
Proof.
  intros o c c' ys S. split; [intros Q; apply (quiet_keeps _ _ _ _ Q S)|]. intros [s [I R]].
  destruct (closed (c_state c)) eqn:K.
  - destruct (shut_steps _ _ _ _ K S) as [K1 _ RP _ SG _ _].
    assert (IN : In s (reported ys)) by (apply in_flat_map; exists (OState s); split; [exact I|left; reflexivity]). destruct RP as [[E _]|[E P]]; rewrite E in IN; [destruct IN|]. destruct IN as [IN|[]]. subst s.
    exfalso. destruct R as [t R]. destruct P as [_ P]. rewrite R in P. apply P. reflexivity.
  - destruct o.
    + apply close_open in S; [|exact K]. apply mvs_reset in S. apply S. eauto.
    + destruct (step_mvs _ _ _ _ S eq_refl) as [n [_ M]]. apply mvs_reset in M. apply M. eauto.
    + destruct (step_mvs _ _ _ _ S eq_refl) as [n [_ M]]. apply mvs_reset in M. apply M. eauto.
    + destruct (step_mvs _ _ _ _ S eq_refl) as [n [_ M]]. apply mvs_reset in M. apply M. eauto.
    + destruct (step_mvs _ _ _ _ S eq_refl) as [n [_ M]]. apply mvs_reset in M. apply M. eauto.
    + apply out_mvs in S; [|exact K]. destruct S as [c1 [o1 [o2 [M [-> [NC X]]]]]]. apply mvs_reset in M. apply M.
      apply in_app_or in I. destruct I as [I|I]; [exfalso; destruct X as [[_ ->]|[_ [_ ->]]]; [destruct I|destruct I as [I|[]]; discriminate]|].
      apply in_app_or in I. destruct I as [I|I]; [eauto|]. exfalso. destruct path; [destruct res; [destruct I|destruct I as [I|[]]; discriminate]|destruct I].
    + cbn [step] in S. destruct (_ =? 0); inv S; destruct I.
Qed.
(** Once a stateless reset has been reported, nothing is ever sent again, whatever is called or received. *)
Theorem reset_is_silent : forall client os1 os2 c xs c' ys t, run os1 (cl_new client) = (c, xs) -> In (OState (SDraining (RTransport EStatelessReset) t)) xs ->
  run os2 c = (c', ys) -> existsb sends ys = false.
Proof.
  assert (Q : forall os c c' ys, run os c = (c', ys) -> (quiet_reset c -> quiet_reset c' /\ existsb sends ys = false) /\ ((exists s, In (OState s) ys /\ is_reset s) -> quiet_reset c')).
  { induction os as [|o os IH]; intros c c' ys H; [inv H; split; [auto|intros [s [[] _]]]|].
    apply run_cons in H. destruct H as [c1 [y1 [y2 [S [R ->]]]]]. destruct (IH _ _ _ R) as [A B]. destruct (step_reset _ _ _ _ S) as [C D]. split.
    - intros K. destruct (quiet_keeps _ _ _ _ K S) as [K1 E1]. destruct (A K1) as [K2 E2]. split; [exact K2|]. rewrite existsb_app, E1, E2. reflexivity.
    - intros [s [I Z]]. apply in_app_or in I. destruct I as [I|I]; [|apply B; eauto]. apply A, D. eauto. }
  intros client os1 os2 c xs c' ys t R1 I R2. apply (proj1 (Q _ _ _ _ R2)). apply (proj2 (Q _ _ _ _ R1)). exists (SDraining (RTransport EStatelessReset) t). split; [exact I|exists t; reflexivity].
Qed.
Print Assumptions reset_is_silent.
Example a_stateless_reset : exists c xs, run [KInput v0 0 false [PPacket true (POpened [FOther] true)]; KInput v0 0 false [PPacket false (POpened [FTlsDone] true)];
  KInput v0 0 true [PPacket false (PInvalid true)]] (cl_new false) = (c, xs) /\ In (OState (SDraining (RTransport EStatelessReset) 30)) xs.
Proof. eexists. eexists. split; [vm_compute; reflexivity|]. cbn. tauto. Qed.

(** *** Times and reasons *)
(** Closing or draining ends, with the reason it had, at the time set, and until then only by the idle timeout. *)
Theorem closes_at_deadline : forall c r t v idle keys ptos lost, (c_state c = SClosing r t \/ c_state c = SDraining r t) ->
  step (KTimer v idle keys ptos lost) c =
    if t <=? v_now v then (with_state (SClosed r) c, [OState (SClosed r)])
    else if idle then (with_state (SClosed (RTransport EIdleTimeout)) c, [OState (SClosed (RTransport EIdleTimeout))])
    else (c, []).
Proof.
  intros c r t v idle keys ptos lost S. cbn [step]. unfold timer.
  destruct S as [S|S]; rewrite S; (destruct (t <=? v_now v) eqn:T; [|destruct idle; [|reflexivity]]); rewrite set_up by (rewrite S; reflexivity); reflexivity.
Qed.
Print Assumptions closes_at_deadline.

Definition op_env (o : op) : option env := match o with KClose v _ _ | KStart v _ | KTls v _ _ | KInput v _ _ _ | KTimer v _ _ _ _ | KOutput v _ _ _ _ _ => Some v | KLostDone => None end.
(** Once closed, the reason stays, unless the application closes again or the idle timeout ends it. *)
Theorem reason_kept_partial : forall os c c' ys, closed (c_state c) = true -> run os c = (c', ys) -> Forall (fun o => is_close o = false /\ idle_timer o = false) os ->
  reason_of (c_state c') = reason_of (c_state c).
Proof.
  induction os as [|o os IH]; intros c c' ys K H F; [inv H; reflexivity|]. apply run_cons in H. destruct H as [c1 [y1 [y2 [S [R ->]]]]].
  inversion F as [|? ? [F1 F2] F3]. subst. destruct (shut_steps _ _ _ _ K S) as [K1 _ _ RS _ _ _]. rewrite (IH _ _ _ K1 R F3). auto.
Qed.
Print Assumptions reason_kept_partial.
(** The reason reported changes when the application closes again, and when the idle timeout expires meanwhile. *)
Theorem reason_kept_refuted : exists c xs c1 ys c2 zs, run [KClose v0 5 []] (cl_new false) = (c, xs) /\ reason_of (c_state c) = Some (RApp 5) /\
  run [KClose v0 9 []] c = (c1, ys) /\ reported ys = [SClosing (RApp 9) 30] /\
  run [KTimer v0 true None false false] c = (c2, zs) /\ reported zs = [SClosed (RTransport EIdleTimeout)].
Proof. do 6 eexists. repeat (split; [vm_compute; reflexivity|]). reflexivity. Qed.
Print Assumptions reason_kept_refuted.

(** *** The reason sent *)
(** What is signalled agrees with the state. *)
Definition agree (c : cl) : Prop :=
  (closed (c_state c) = false -> (c_sig c = GIdle \/ (c_sig c = GDone /\ c_client c = false)) /\ (c_client c = true -> c_flight c = 0)) /\
  match c_state c with
  | SClosing r _ => exists f, f_error f = r /\ (c_sig c = GClosing f \/ c_sig c = GSent (Some f))
  | SDraining r _ => c_sig c = GReset \/ c_sig c = GSent None \/ exists f, peer_reason (f_error f) /\ c_sig c = GDraining f
  | _ => True
  end.
Lemma agree_mv : forall a c ys n c', mv a c ys n c' -> agree c -> agree c'.
Proof.
  intros a c ys n c' M [A B]. unfold agree. destruct M; cbn [c_state c_sig c_client c_flight with_state with_sig closed].
  - destruct (A H) as [A1 A2]. split; [auto|]. destruct s; try exact Logic.I; discriminate.
  - destruct (A H0) as [[->|[-> _]] A2]; (split; [|exact Logic.I]); intros _; (split; [right; auto|discriminate]).
  - rewrite H0 in *. destruct (A eq_refl) as [[->|[-> _]] A2]; (split; [|exact Logic.I]); intros _; (split; [right; auto|auto]).
  - split; [discriminate|]. exists f. split; [auto|]. left. destruct (A H) as [[->|[-> _]] _]; reflexivity.
  - split; [discriminate|exact Logic.I].
  - split; [discriminate|exact Logic.I].
  - split; [discriminate|]. destruct H as [H|H].
    + right. right. exists f. split; [congruence|]. destruct (A H) as [[->|[-> _]] _]; reflexivity.
    + destruct (c_state c); try discriminate. destruct B as [->|[->|[g [_ ->]]]]; cbn; [auto| |]; right; right; exists f; split; congruence || auto.
  - destruct (c_state c); try discriminate. split; [discriminate|]. destruct B as [->|[->|[g [_ ->]]]]; cbn; [auto| |]; right; right; exists f; split; congruence || auto.
  - split; [discriminate|left; reflexivity].
  - split; [|exact Logic.I]. intros _. split; [left; reflexivity|reflexivity].
  - destruct (c_state c); try discriminate. split; [discriminate|]. destruct B as [f [E [->| ->]]]; exists f; auto.
  - split; [congruence|]. destruct (c_state c); try exact Logic.I.
    + destruct B as [f [E B]]. exists f. split; [exact E|]. destruct H1 as [->| ->]; destruct B as [->| ->]; auto.
    + destruct H1 as [->| ->]; destruct B as [->|[->|[f [E ->]]]]; cbn; eauto.
  - split; [discriminate|exact Logic.I].
Qed.
Lemma agree_mvs : forall a c ys n c', mvs a c ys n c' -> agree c -> agree c'.
Proof. intros a c ys n c' M. induction M; auto. intros A. apply IHM. eapply agree_mv; eauto. Qed.
(** [close] is called at most while the connection is open. *)
Fixpoint closes_once (os : list op) (c : cl) : Prop :=
  match os with
  | [] => True
  | o :: os' => (is_close o = true -> closed (c_state c) = false) /\ closes_once os' (fst (step o c))
  end.
Lemma agree_step : forall o c c' ys, step o c = (c', ys) -> (is_close o = true -> closed (c_state c) = false) -> agree c -> agree c'.
Proof.
  intros o c c' ys S C A. destruct o.
  - apply close_open in S; [|apply C; reflexivity]. eapply agree_mvs; eauto.
  - destruct (step_mvs _ _ _ _ S eq_refl) as [n [_ M]]. eapply agree_mvs; eauto.
  - destruct (step_mvs _ _ _ _ S eq_refl) as [n [_ M]]. eapply agree_mvs; eauto.
  - destruct (step_mvs _ _ _ _ S eq_refl) as [n [_ M]]. eapply agree_mvs; eauto.
  - destruct (step_mvs _ _ _ _ S eq_refl) as [n [_ M]]. eapply agree_mvs; eauto.
  - destruct (closed (c_state c)) eqn:K.
    + cbn [step] in S. unfold output in S. rewrite K in S. destruct (g_take (c_sig c)) as [g f] eqn:T. destruct f as [f|]; [|inv S; exact A].
      assert (X : c' = with_sig g c).
      { destruct temp; [rewrite shut_capture in S by exact K; inv S; reflexivity|]. destruct res; [rewrite shut_capture in S by exact K|]; inv S; reflexivity. }
      subst c'. destruct A as [A B]. unfold agree. cbn [c_state c_sig c_client c_flight with_sig]. split; [congruence|]. destruct (c_state c); try exact Logic.I; try discriminate.
      * destruct B as [h [E [B|B]]]; rewrite B in T; cbn in T; inv T. exists f. auto.
      * destruct B as [B|[B|[h [E B]]]]; rewrite B in T; cbn in T; inv T. auto.
    + apply out_mvs in S; [|exact K]. destruct S as [c1 [o1 [o2 [M [-> [NC X]]]]]]. eapply agree_mvs; [exact M|]. destruct X as [[-> _]|[G [-> _]]]; [exact A|].
      destruct A as [A B]. destruct (A K) as [[A1|[_ A1]] A2]; [congruence|]. unfold agree. cbn [c_state c_sig c_client c_flight]. split.
      * intros _. split; [auto|]. congruence.
      * destruct (c_state c); try exact Logic.I; discriminate.
  - cbn [step] in S. destruct (N.eqb_spec (c_flight c) 0) as [Z|Z]; inv S; [exact A|]. destruct A as [A B]. unfold agree. cbn [c_state c_sig c_client c_flight]. split.
    + intros K. destruct (A K) as [A1 A2]. assert (CC : c_client c = false) by (destruct (c_client c); [exfalso; apply Z, A2; reflexivity|reflexivity]).
      split; [|congruence]. destruct A1 as [->|[-> _]]; auto.
    + destruct (c_state c); try exact Logic.I.
      * destruct B as [f [E [->| ->]]]; exists f; auto.
      * destruct B as [->|[->|[f [E ->]]]]; cbn; eauto.
Qed.
Lemma agree_new : forall k, agree (cl_new k).
Proof. intros k. split; [|exact Logic.I]. intros _. split; [left; reflexivity|reflexivity]. Qed.
Lemma agree_run : forall os c c' ys, agree c -> closes_once os c -> run os c = (c', ys) -> agree c'.
Proof.
  induction os as [|o os IH]; intros c c' ys A C H; [inv H; exact A|]. apply run_cons in H. destruct H as [c1 [y1 [y2 [S [R _]]]]]. destruct C as [C1 C2]. rewrite S in C2.
  eapply IH; [|exact C2|exact R]. eapply agree_step; eauto.
Qed.
(** In the closing state, the CONNECTION_CLOSE sent has the reason the application is told; draining, the error code is NO_ERROR. *)
Theorem close_carries_reason_partial : forall client os c xs v path res done temp more c' ys f, run os (cl_new client) = (c, xs) -> closes_once os (cl_new client) ->
  step (KOutput v path res done temp more) c = (c', ys) -> In (OClose f) ys ->
  match c_state c with
  | SClosing r _ => f_error f = r
  | SDraining _ _ => exists e, f_error f = RTransport e /\ err_code e = 0
  | SClosed _ => True
  | _ => False
  end.
Proof.
  intros client os c xs v path res done temp more c' ys f R C S I. pose proof (agree_run _ _ _ _ (agree_new client) C R) as [A B].
  destruct (closed (c_state c)) eqn:K.
  - cbn [step] in S. unfold output in S. rewrite K in S. destruct (g_take (c_sig c)) as [g h] eqn:T. destruct h as [h|]; [|inv S; destruct I].
    assert (f = h).
    { destruct temp; [rewrite shut_capture in S by exact K; inv S; destruct I|]. destruct res; [rewrite shut_capture in S by exact K; inv S; destruct I|]. inv S. destruct I as [I|I]; [congruence|]. destruct more; [destruct I as [I|[]]; discriminate|destruct I]. }
    subst h. destruct (c_state c); try discriminate; auto.
    + destruct B as [h [E [B|B]]]; rewrite B in T; cbn in T; inv T. auto.
    + destruct B as [B|[B|[h [[k E] B]]]]; rewrite B in T; cbn in T; inv T. destruct E as [E|E]; rewrite E; eexists; split; reflexivity.
  - exfalso. apply out_mvs in S; [|exact K]. destruct S as [c1 [o1 [o2 [M [-> [NC X]]]]]]. apply in_app_or in I. destruct I as [I|I]; [destruct X as [[_ ->]|[_ [_ ->]]]; [destruct I|destruct I as [I|[]]; discriminate]|].
    apply in_app_or in I. destruct I as [I|I]; [|destruct path; [destruct res; [destruct I|destruct I as [I|[]]; discriminate]|destruct I]].
    clear - M I. induction M as [c|c ys n c1 zs m c2 M1 M2 IH]; [destruct I|]. apply in_app_or in I. destruct I as [I|I]; [|auto]. destruct M1; cbn [In] in I; intuition discriminate.
Qed.
Print Assumptions close_carries_reason_partial.
(** A second [close] with a smaller code changes what is sent but not what is reported. *)
Theorem close_carries_reason_refuted : exists os c xs c' ys, run os (cl_new false) = (c, xs) /\ reason_of (c_state c) = Some (RApp 5) /\
  step (KOutput v0 (Some 0) None false false false) c = (c', ys) /\ map f_error (closes ys) = [RApp 3].
Proof. exists [KClose v0 5 []; KClose v0 3 []]. do 4 eexists. repeat (split; [vm_compute; reflexivity|]). reflexivity. Qed.
Print Assumptions close_carries_reason_refuted.

(** The connection stays closing for three PTOs from the call that closed it. *)
Theorem closing_lasts_three_ptos : forall v code msg c c' ys p, v_primary v = Some p -> closed (c_state c) = false -> step (KClose v code msg) c = (c', ys) ->
  c_state c' = SClosing (RApp code) (v_now v + 3 * v_pto v) /\ reported ys = [c_state c'].
Proof.
  intros v code msg c c' ys p P O S. cbn [step] in S. unfold api_close in S. rewrite P in S. rewrite set_up in S by (pose proof (open_rank _ O); cbn; lia). inv S. split; reflexivity.
Qed.
Print Assumptions closing_lasts_three_ptos.

(** When the keys are used up, the connection is closed at once: it could not send anything more. *)
Theorem out_of_keys_closes_now : forall v p tk init c c' ys, connected (c_state c) = true ->
  step (KInput v p tk [PPacket init (PFatal EKeysExhausted)]) c = (c', ys) ->
  c_state c' = SClosed (RTransport EKeysExhausted) /\ reported ys = [c_state c'].
Proof.
  intros v p tk init c c' ys K S. cbn [step] in S. unfold input in S. cbn [packets] in S.
  destruct (c_state c) eqn:E; try discriminate; cbn in S; unfold check_reset, capture in S; cbn in S; rewrite ?E, ?andb_false_r, ?andb_false_l in S; cbn in S; rewrite ?E in S; cbn in S; unfold set_state in S; cbn in S; rewrite ?E in S; cbn in S; inv S; auto.
Qed.
Print Assumptions out_of_keys_closes_now.

(** *** Debug assertions *)
(** Unless TLS completes after the connection is closed, the checks of state changes hold. *)
Theorem state_checks_hold_partial : forall os client c xs, run os (cl_new client) = (c, xs) -> forallb tidy os = true -> ~ In OAssert xs.
Proof.
  assert (M1 : forall c ys n c', mvs false c ys n c' -> ~ In OAssert ys).
  { intros c ys n c' M. induction M as [c|c ys n c1 zs m c2 M1 M2 IH]; [intros []|]. intros I. apply in_app_or in I. destruct I as [I|I]; [|auto]. destruct M1; cbn [In] in I; try (intuition discriminate). }
  assert (S1 : forall o c c' ys, tidy o = true -> step o c = (c', ys) -> ~ In OAssert ys).
  { intros o c c' ys T S. destruct o.
    - destruct (closed (c_state c)) eqn:K; [|apply close_open in S; eauto]. cbn [step] in S. unfold api_close in S. destruct (v_primary v).
      + unfold set_state in S. rewrite state_with_sig, K in S. cbn [is_closing andb] in S. destruct (st_cmp _ _); [| |inv S; intros [|[]]; discriminate]; destruct (_ =? _); inv S; intros [].
      + unfold set_state in S. destruct (st_cmp _ _) eqn:E; [| |inv S; intros [|[]]; discriminate]; destruct (N.eqb_spec (st_rank (SClosed (RApp code))) (st_rank (c_state c))) as [Q|Q]; try (inv S; intros []; fail); exfalso; rewrite cmp_rank in E by exact Q.
        * apply N.compare_eq in E. contradiction.
        * destruct (c_state c); discriminate E.
    - destruct (step_mvs _ _ _ _ S eq_refl) as [n [_ M]]. rewrite T in M. eauto.
    - destruct (step_mvs _ _ _ _ S eq_refl) as [n [_ M]]. rewrite T in M. eauto.
    - destruct (step_mvs _ _ _ _ S eq_refl) as [n [_ M]]. rewrite T in M. eauto.
    - destruct (step_mvs _ _ _ _ S eq_refl) as [n [_ M]]. rewrite T in M. eauto.
    - destruct (closed (c_state c)) eqn:K.
      + cbn [step] in S. unfold output in S. rewrite K in S. destruct (g_take (c_sig c)) as [g f]. destruct f as [f|]; [|inv S; intros []].
        destruct temp; [rewrite shut_capture in S by exact K; inv S; intros []|]. destruct res; [rewrite shut_capture in S by exact K; inv S; intros []|]. inv S. intros [I|I]; [discriminate|]. destruct more; [destruct I as [I|[]]; discriminate|destruct I].
      + apply out_mvs in S; [|exact K]. destruct S as [c1 [o1 [o2 [M [-> [NC X]]]]]]. intros I. apply in_app_or in I. destruct I as [I|I]; [destruct X as [[_ ->]|[_ [_ ->]]]; [destruct I|destruct I as [I|[]]; discriminate]|].
        apply in_app_or in I. destruct I as [I|I]; [exact (M1 _ _ _ _ M I)|destruct path; [destruct res; [destruct I|destruct I as [I|[]]; discriminate]|destruct I]].
    - cbn [step] in S. destruct (_ =? 0); inv S; intros []. }
  intros os client. generalize (cl_new client). induction os as [|o os IH]; intros c0 c xs H T; [inv H; intros []|].
  apply run_cons in H. destruct H as [c1 [y1 [y2 [S [R ->]]]]]. cbn [forallb] in T. apply andb_prop in T. destruct T as [T1 T2]. intros I. apply in_app_or in I. destruct I as [I|I]; [exact (S1 _ _ _ _ T1 S I)|].
  exact (IH _ _ _ R T2 I).
Qed.
Print Assumptions state_checks_hold_partial.

(** A packet with CONNECTION_CLOSE followed by the CRYPTO data that completes the handshake fails one: debug builds panic. *)
Theorem state_checks_hold_refuted : exists os c xs, run os (cl_new false) = (c, xs) /\ Forall (fun o => is_input o = true) os /\ In OAssert xs.
Proof.
  exists [KInput v0 0 false [PPacket true (POpened [FOther] true)]; KInput v0 0 false [PPacket false (POpened [FClose false 0; FTlsDone] true)]].
  eexists. eexists. split; [vm_compute; reflexivity|]. split; [repeat constructor|]. cbn. tauto.
Qed.
Print Assumptions state_checks_hold_refuted.

(** *** While open *)
Lemma climbs_app : forall l1 x l2, climbs (map progress (x :: l1)) -> climbs (map progress (last l1 x :: l2)) -> climbs (map progress (x :: l1 ++ l2)).
Proof.
  induction l1 as [|y l1 IH]; intros x l2 A B; [exact B|]. destruct A as [A1 A2]. split; [exact A1|]. apply IH; [exact A2|].
  assert (E : last (y :: l1) x = last l1 y) by (clear; revert x y; induction l1 as [|z l1 IH]; intros x y; [reflexivity|]; change (last (z :: l1) x = last (z :: l1) y); cbn [last]; destruct l1; [reflexivity|apply IH]).
  rewrite <- E. exact B.
Qed.
Lemma last_app : forall (l1 l2 : list state) x, last (l1 ++ l2) x = last l2 (last l1 x).
Proof.
  induction l1 as [|y l1 IH]; intros l2 x; [reflexivity|]. destruct l1 as [|z l1]; [cbn [List.app last]; destruct l2; [reflexivity|]; clear; revert s x y; induction l2 as [|w l2 IH]; intros s x y; [reflexivity|]; cbn [last] in *; apply IH|].
  change (last ((z :: l1) ++ l2) x = last l2 (last (z :: l1) x)). apply IH.
Qed.
Definition goes (x : state) (l : list state) (y : state) : Prop := climbs (map progress (x :: l)) /\ y = last l x.
Lemma goes_app : forall x l1 y l2 z, goes x l1 y -> goes y l2 z -> goes x (l1 ++ l2) z.
Proof. intros x l1 y l2 z [A ->] [B ->]. split; [apply climbs_app; assumption|rewrite last_app; reflexivity]. Qed.
Lemma mv_goes : forall a c ys n c', mv a c ys n c' -> ~ In ORestart ys -> goes (c_state c) (reported ys) (c_state c').
Proof.
  intros a c ys n c' M R. destruct M; cbn [reported flat_map List.app c_state with_state with_sig]; (split; [|reflexivity]) || (exfalso; apply R; left; reflexivity); cbn [map climbs]; try exact Logic.I; (split; [|exact Logic.I]) || idtac.
  - destruct (c_state c), s; cbn in *; try discriminate; lia.
  - split; [destruct (c_state c); cbn in *; try discriminate; lia|]. split; [cbn; lia|exact Logic.I].
  - destruct (c_state c); cbn in *; try discriminate; lia.
  - destruct (c_state c); cbn in *; try discriminate; lia.
  - destruct (c_state c); cbn in *; try discriminate; lia.
  - destruct (c_state c); cbn in *; try (destruct H; discriminate); lia.
  - destruct (c_state c); cbn in *; try discriminate; lia.
  - destruct (c_state c); cbn in *; try (destruct H; discriminate); lia.
Qed.
Lemma mvs_goes : forall a c ys n c', mvs a c ys n c' -> ~ In ORestart ys -> goes (c_state c) (reported ys) (c_state c').
Proof.
  intros a c ys n c' M. induction M as [c|c ys n c1 zs m c2 A B IH]; intros R; [split; [exact Logic.I|reflexivity]|].
  rewrite reported_app. eapply goes_app; [eapply mv_goes; [exact A|]|apply IH]; intros I; apply R, in_or_app; auto.
Qed.
Lemma step_goes : forall o c c' ys, step o c = (c', ys) -> ~ In ORestart ys -> goes (c_state c) (reported ys) (c_state c').
Proof.
  intros o c c' ys S R. destruct (closed (c_state c)) eqn:K.
  - destruct (shut_steps _ _ _ _ K S) as [_ _ [[E1 E2]|[E1 [E2 _]]] _ _ _ _]; rewrite E1.
    + split; [exact Logic.I|exact E2].
    + split; [split; [exact E2|exact Logic.I]|reflexivity].
  - destruct o.
    + apply close_open in S; [|exact K]. eapply mvs_goes; eauto.
    + destruct (step_mvs _ _ _ _ S eq_refl) as [n [_ M]]. eapply mvs_goes; eauto.
    + destruct (step_mvs _ _ _ _ S eq_refl) as [n [_ M]]. eapply mvs_goes; eauto.
    + destruct (step_mvs _ _ _ _ S eq_refl) as [n [_ M]]. eapply mvs_goes; eauto.
    + destruct (step_mvs _ _ _ _ S eq_refl) as [n [_ M]]. eapply mvs_goes; eauto.
    + apply out_mvs in S; [|exact K]. destruct S as [c1 [o1 [o2 [M [-> [NC X]]]]]]. rewrite !reported_app.
      assert (E : reported o1 = [] /\ c_state c1 = c_state c) by (destruct X as [[-> ->]|[_ [-> ->]]]; split; reflexivity). destruct E as [E1 E2]. rewrite E1, <- E2.
      assert (E3 : reported (match path, res with Some _, None => [OData] | _, _ => [] end) = []) by (destruct path; [destruct res|]; reflexivity). rewrite E3, app_nil_r. cbn [List.app].
      eapply mvs_goes; [exact M|]. intros I. apply R. apply in_or_app. right. apply in_or_app. left. exact I.
    + cbn [step] in S. destruct (_ =? 0); inv S; split; try exact Logic.I; reflexivity.
Qed.
(** The handshake never goes back either, unless version negotiation starts over. *)
Theorem handshake_goes_forward : forall os c c' ys, run os c = (c', ys) -> ~ In ORestart ys ->
  climbs (map progress (c_state c :: reported ys)) /\ c_state c' = last (reported ys) (c_state c).
Proof.
  assert (G : forall os c c' ys, run os c = (c', ys) -> ~ In ORestart ys -> goes (c_state c) (reported ys) (c_state c')).
  { induction os as [|o os IH]; intros c c' ys H R; [inv H; split; [exact Logic.I|reflexivity]|]. apply run_cons in H. destruct H as [c1 [y1 [y2 [S [Q ->]]]]].
    rewrite reported_app. eapply goes_app; [eapply step_goes; [exact S|]|apply IH; [exact Q|]]; intros I; apply R, in_or_app; auto. }
  intros os c c' ys H R. exact (G _ _ _ _ H R).
Qed.
Print Assumptions handshake_goes_forward.
Example states_reported : exists c xs, run (drained_ops ++ [KTimer (mkEnv 30 10 None) false None false false]) (cl_new false) = (c, xs) /\
  reported xs = [SWaitInitial; SHandshaking; SConnected; SConfirmed; SDraining (RTransport (EPeerApplication 7)) 30; SClosed (RTransport (EPeerApplication 7))].
Proof. eexists. eexists. split; [vm_compute; reflexivity|]. vm_compute. reflexivity. Qed.

(** ** C81 *)
(** In Initial and Handshake packets, two closes with application reasons look the same: neither code nor text is revealed. *)
Theorem application_close_hidden : forall rem f g c d, f_error f = RApp c -> f_error g = RApp d -> write_closing false rem f = write_closing false rem g.
Proof. intros rem f g c d F G. unfold write_closing, sanitize. rewrite F, G. reflexivity. Qed.
Print Assumptions application_close_hidden.
(** It says APPLICATION_ERROR, and no more. *)
Theorem application_close_says : forall rem f c, f_error f = RApp c -> 27 <= rem ->
  exists l, write_closing false rem f = Some (Some l) /\ frame_wire (FConnectionClose true 12 0 []) = Some l /\ lenN l <= rem.
Proof.
  intros rem f c F R. exists [28; 12; 0; 0]. splits.
  - unfold write_closing, sanitize. rewrite F. unfold write_frame, wr_close. cbn [f_error f_type f_reason err_code]. replace (rem <? CLOSE_MIN_LENGTH) with false by (symmetry; apply N.ltb_ge; exact R).
    change (lenN (@nil N)) with 0. change (CodecModel.vvec_len 0) with (Some 1). cbv iota. replace (N.min 256 rem <? 1) with false by (symmetry; apply N.ltb_ge; lia). reflexivity.
  - reflexivity.
  - change (lenN [28; 12; 0; 0]) with 4. lia.
Qed.
Print Assumptions application_close_says.
(** In 1-RTT packets the code is the application's and the text a prefix of its text. *)
Theorem application_close_delivered : forall rem f c, f_error f = RApp c -> c < 2 ^ 62 -> lenN (f_reason f) < 2 ^ 62 -> 27 <= rem ->
  exists l n, write_closing true rem f = Some (Some l) /\ frame_wire (FConnectionClose false c 0 (firstnN n (f_reason f))) = Some l.
Proof.
  intros rem f c F C L R. unfold write_closing, write_frame. rewrite F. destruct (close_frame_fits_partial rem false c 0 (f_reason f) C ltac:(lia) L) as [r [A [B D]]].
  destruct r as [l|]; [|exfalso; assert (rem < 27) by (apply B; reflexivity); lia]. destruct (D _ eq_refl) as [n [_ [W _]]]. exists l, n. split; [exact A|exact W].
Qed.
Print Assumptions application_close_delivered.
(** Transport errors: the code of the error, the frame type that caused it, in every packet. *)
Theorem transport_close_delivered : forall app rem f e, f_error f = RTransport e -> err_code e < 2 ^ 62 -> f_type f < 2 ^ 62 -> lenN (f_reason f) < 2 ^ 62 -> 27 <= rem ->
  exists l n, write_closing app rem f = Some (Some l) /\ frame_wire (FConnectionClose true (err_code e) (f_type f) (firstnN n (f_reason f))) = Some l.
Proof.
  intros app rem f e F C T L R. assert (E : write_closing app rem f = wr_close rem true (err_code e) (f_type f) (f_reason f)).
  { unfold write_closing, sanitize. rewrite F. destruct app; unfold write_frame; rewrite F; reflexivity. }
  rewrite E. destruct (close_frame_fits_partial rem true (err_code e) (f_type f) (f_reason f) C T L) as [r [A [B D]]].
  destruct r as [l|]; [|exfalso; assert (rem < 27) by (apply B; reflexivity); lia]. destruct (D _ eq_refl) as [n [_ [W _]]]. exists l, n. split; [exact A|exact W].
Qed.
Print Assumptions transport_close_delivered.
(** An application code that is not a varint panics, once it can be sent. *)
Theorem application_close_delivered_refuted : exists rem f c, f_error f = RApp c /\ c < 2 ^ 64 /\ 27 <= rem /\ write_closing true rem f = None.
Proof. exists 1000, (mkF 0 (RApp (2 ^ 62)) 0 []), (2 ^ 62). splits; try reflexivity; lia. Qed.
Print Assumptions application_close_delivered_refuted.
Example a_close : write_closing true 1000 (mkF 0 (RApp 7) 0 [104; 105]) = Some (Some [29; 7; 2; 104; 105]) /\ write_closing false 1000 (mkF 0 (RApp 7) 0 [104; 105]) = Some (Some [28; 12; 0; 0]).
Proof. split; vm_compute; reflexivity. Qed.

(** ** C82 *)
Definition openok (c : cl) : Prop :=
  closed (c_state c) = false -> (c_sig c = GIdle \/ (c_sig c = GDone /\ c_client c = false /\ connected (c_state c) = true)) /\ (c_client c = true \/ connected (c_state c) = false -> c_flight c = 0).
Lemma openok_mv : forall a c ys n c', mv a c ys n c' -> openok c -> openok c'.
Proof.
  intros a c ys n c' M A. unfold openok in *. destruct M; cbn [c_state c_sig c_client c_flight with_state with_sig closed]; try discriminate; intros O.
  - destruct (A H) as [A1 A2].
    assert (X : connected (c_state c) = true -> connected s = true) by (destruct (c_state c), s; cbn in *; try discriminate; auto; lia).
    split; [destruct A1 as [A1|[A1 [A3 A4]]]; auto|]. intros Z. apply A2. destruct Z as [Z|Z]; [auto|]. right. apply not_true_iff_false. intros W. rewrite X in Z by exact W. discriminate.
  - split; [|intros [Z|Z]; discriminate]. right. splits; auto. destruct (A H0) as [[->|[-> _]] _]; reflexivity.
  - rewrite H0 in *. destruct (A eq_refl) as [A1 A2]. split; [right; splits; auto; destruct A1 as [->|[-> _]]; reflexivity|intros [Z|Z]; [congruence|discriminate]].
  - destruct (c_state c); discriminate.
  - split; auto.
  - destruct (c_state c); discriminate.
  - congruence.
Qed.
Lemma openok_mvs : forall a c ys n c', mvs a c ys n c' -> openok c -> openok c'.
Proof. intros a c ys n c' M. induction M; auto. intros A. apply IHM. eapply openok_mv; eauto. Qed.
Lemma openok_step : forall o c c' ys, step o c = (c', ys) -> openok c -> openok c'.
Proof.
  intros o c c' ys S A. destruct (closed (c_state c)) eqn:K.
  - destruct (shut_steps _ _ _ _ K S) as [K1 _ _ _ _ _ _]. unfold openok, shut in *. congruence.
  - destruct o.
    + apply close_open in S; [|exact K]. eapply openok_mvs; eauto.
    + destruct (step_mvs _ _ _ _ S eq_refl) as [n [_ M]]. eapply openok_mvs; eauto.
    + destruct (step_mvs _ _ _ _ S eq_refl) as [n [_ M]]. eapply openok_mvs; eauto.
    + destruct (step_mvs _ _ _ _ S eq_refl) as [n [_ M]]. eapply openok_mvs; eauto.
    + destruct (step_mvs _ _ _ _ S eq_refl) as [n [_ M]]. eapply openok_mvs; eauto.
    + apply out_mvs in S; [|exact K]. destruct S as [c1 [o1 [o2 [M [-> [NC X]]]]]]. eapply openok_mvs; [exact M|]. destruct X as [[-> _]|[G [-> _]]]; [exact A|].
      destruct (A K) as [[A1|[_ [A1 A3]]] A2]; [congruence|]. intros _. cbn [c_state c_sig c_client c_flight]. split; [auto|]. intros [Z|Z]; congruence.
    + cbn [step] in S. destruct (N.eqb_spec (c_flight c) 0) as [Z|Z]; inv S; [exact A|]. destruct (A K) as [A1 A2]. intros _. cbn [c_state c_sig c_client c_flight].
      assert (CC : c_client c = false) by (destruct (c_client c); [exfalso; apply Z, A2; auto|reflexivity]).
      assert (CO : connected (c_state c) = true) by (destruct (connected (c_state c)); [reflexivity|exfalso; apply Z, A2; auto]).
      split; [|intros [W|W]; congruence]. right. splits; auto. destruct A1 as [->|[-> _]]; reflexivity.
Qed.
Lemma openok_run : forall os c c' ys, run os c = (c', ys) -> openok c -> openok c'.
Proof. induction os as [|o os IH]; intros c c' ys H A; [inv H; exact A|]. apply run_cons in H. destruct H as [c1 [y1 [y2 [S [R _]]]]]. eapply IH; [exact R|]. eapply openok_step; eauto. Qed.
Lemma openok_new : forall k, openok (cl_new k). Proof. intros k _. split; [left; reflexivity|reflexivity]. Qed.
Lemma mvs_no_done : forall a c ys n c', mvs a c ys n c' -> counts is_done ys = 0.
Proof. intros a c ys n c' M. induction M as [|c ys n c1 zs m c2 A B IH]; [reflexivity|]. rewrite counts_app, IH. destruct A; reflexivity. Qed.
Lemma done_in : forall ys, In ODone ys <-> 0 < counts is_done ys.
Proof.
  intros ys. unfold counts. split.
  - intros I. assert (In ODone (filter is_done ys)) by (apply filter_In; auto). destruct (filter is_done ys); [contradiction|rewrite lenN_cons; lia].
  - intros L. destruct (filter is_done ys) as [|x l] eqn:E; [cbn in L; lia|]. assert (In x (filter is_done ys)) by (rewrite E; left; reflexivity). apply filter_In in H. destruct H as [H D]. destruct x; try discriminate. exact H.
Qed.
(** Only a server sends HANDSHAKE_DONE, and only once its handshake is complete. *)
Theorem handshake_done_only_server : forall client os c xs o c' ys, run os (cl_new client) = (c, xs) -> step o c = (c', ys) -> In ODone ys ->
  c_client c = false /\ connected (c_state c) = true.
Proof.
  intros client os c xs o c' ys R S I. pose proof (openok_run _ _ _ _ R (openok_new client)) as A. destruct (closed (c_state c)) eqn:K.
  - exfalso. destruct (shut_steps _ _ _ _ K S) as [_ _ _ _ _ DN _]. apply done_in in I. lia.
  - destruct o.
    + exfalso. apply close_open in S; [|exact K]. apply mvs_no_done in S. apply done_in in I. lia.
    + exfalso. destruct (step_mvs _ _ _ _ S eq_refl) as [n [_ M]]. apply mvs_no_done in M. apply done_in in I. lia.
    + exfalso. destruct (step_mvs _ _ _ _ S eq_refl) as [n [_ M]]. apply mvs_no_done in M. apply done_in in I. lia.
    + exfalso. destruct (step_mvs _ _ _ _ S eq_refl) as [n [_ M]]. apply mvs_no_done in M. apply done_in in I. lia.
    + exfalso. destruct (step_mvs _ _ _ _ S eq_refl) as [n [_ M]]. apply mvs_no_done in M. apply done_in in I. lia.
    + apply out_mvs in S; [|exact K]. destruct S as [c1 [o1 [o2 [M [-> [NC X]]]]]]. destruct X as [[_ ->]|[G _]].
      * exfalso. apply done_in in I. rewrite !counts_app, (mvs_no_done _ _ _ _ _ M) in I. destruct path; [destruct res|]; cbn in I; lia.
      * destruct (A K) as [[A1|[_ A1]] _]; [congruence|exact A1].
    + exfalso. cbn [step] in S. destruct (_ =? 0); inv S; destruct I.
Qed.
Print Assumptions handshake_done_only_server.
(** It is sent once, and again only for one lost or a packet that shows the client still lacks it. *)
Definition due (c : cl) : N := if closed (c_state c) then 0 else (if connected (c_state c) then 0 else 1) + match c_sig c with GDone => 1 | _ => 0 end.
Lemma due_mv : forall a c ys n c', mv a c ys n c' -> due c' <= due c + n.
Proof.
  intros a c ys n c' M. unfold due. destruct M; cbn [c_state c_sig c_client c_flight with_state with_sig closed connected]; try lia.
  - rewrite H. destruct s; try discriminate; cbn [closed connected stage] in *; destruct (c_state c); cbn in *; try discriminate; try lia.
  - rewrite H0, H1. destruct (c_sig c); cbn; lia.
  - rewrite H0. cbn. destruct (c_sig c); cbn; lia.
  - destruct (c_state c); try discriminate H; cbn; lia.
  - rewrite H. cbn. lia.
  - destruct (c_state c); try discriminate H; cbn; lia.
Qed.
Lemma due_mvs : forall a c ys n c', mvs a c ys n c' -> due c' <= due c + n.
Proof. intros a c ys n c' M. induction M as [|c ys n c1 zs m c2 A B IH]; [lia|]. pose proof (due_mv _ _ _ _ _ A). lia. Qed.
Theorem handshake_done_sent_again : forall client os c xs, run os (cl_new client) = (c, xs) -> counts is_done xs <= 1 + counts is_lost os + stale_in os.
Proof.
  assert (G : forall os c c' ys, run os c = (c', ys) -> counts is_done ys <= due c + counts is_lost os + stale_in os).
  { induction os as [|o os IH]; intros c c' ys H; [inv H; apply N.le_0_l|]. apply run_cons in H. destruct H as [c1 [y1 [y2 [S [R ->]]]]]. pose proof (IH _ _ _ R) as L.
    rewrite counts_app, counts_cons. assert (ST : stale_in (o :: os) = stale_in [o] + stale_in os) by (unfold stale_in; cbn [flat_map]; rewrite app_nil_r, counts_app; reflexivity). rewrite ST.
    enough (counts is_done y1 + due c1 <= due c + (if is_lost o then 1 else 0) + stale_in [o]) by lia.
    destruct (closed (c_state c)) eqn:K.
    - destruct (shut_steps _ _ _ _ K S) as [K1 _ _ _ _ DN _]. rewrite DN. unfold due. unfold shut in K1. rewrite K1. lia.
    - destruct o.
      + apply close_open in S; [|exact K]. rewrite (mvs_no_done _ _ _ _ _ S). pose proof (due_mvs _ _ _ _ _ S). lia.
      + destruct (step_mvs _ _ _ _ S eq_refl) as [n [LN M]]. rewrite (mvs_no_done _ _ _ _ _ M). pose proof (due_mvs _ _ _ _ _ M). lia.
      + destruct (step_mvs _ _ _ _ S eq_refl) as [n [LN M]]. rewrite (mvs_no_done _ _ _ _ _ M). pose proof (due_mvs _ _ _ _ _ M). lia.
      + destruct (step_mvs _ _ _ _ S eq_refl) as [n [LN M]]. rewrite (mvs_no_done _ _ _ _ _ M). pose proof (due_mvs _ _ _ _ _ M). lia.
      + destruct (step_mvs _ _ _ _ S eq_refl) as [n [LN M]]. rewrite (mvs_no_done _ _ _ _ _ M). pose proof (due_mvs _ _ _ _ _ M). lia.
      + apply out_mvs in S; [|exact K]. destruct S as [c2 [o1 [o2 [M [-> [NC X]]]]]]. rewrite !counts_app, (mvs_no_done _ _ _ _ _ M). pose proof (due_mvs _ _ _ _ _ M) as D.
        assert (E3 : counts is_done (match path, res with Some _, None => [OData] | _, _ => [] end) = 0) by (destruct path; [destruct res|]; reflexivity). rewrite E3.
        assert (counts is_done o1 + due c2 <= due c); [|cbn [is_lost]; lia]. destruct X as [[-> ->]|[Q [-> ->]]]; [cbn; lia|]. unfold due. cbn [c_state c_sig]. rewrite K, Q. change (counts is_done [ODone]) with 1. destruct (connected (c_state c)); lia.
      + cbn [step] in S. cbn [is_lost]. destruct (_ =? 0); inv S; [cbn; lia|]. unfold due. cbn [c_state c_sig]. rewrite K. change (counts is_done []) with 0. destruct (c_sig c); cbn; lia. }
  intros client os c xs H. pose proof (G _ _ _ _ H) as L. change (due (cl_new client)) with 1 in L. exact L.
Qed.
Print Assumptions handshake_done_sent_again.
(** The server's first packets after its handshake completes carry it, if there is room. *)
Lemma mvs_sig : forall a c ys n c', mvs a c ys n c' -> c_client c = false -> openok c ->
  (c_sig c = GDone -> closed (c_state c') = false -> c_sig c' = GDone) /\ (In (OState SConnected) ys -> closed (c_state c') = false -> c_sig c' = GDone).
Proof.
  intros a c ys n c' M. induction M as [c|c ys n c1 zs m c2 A B IH]; intros C O; [split; [auto|intros []]|].
  assert (CL : closed (c_state c) = true -> closed (c_state c1) = true) by (intros Z; destruct A; cbn in *; try congruence; try (rewrite Z in *; discriminate); try (destruct (c_state c); discriminate); auto).
  assert (CLS : closed (c_state c1) = true -> closed (c_state c2) = true).
  { clear - B. induction B as [c|c ys n c1 zs m c2 A B IH]; auto. intros Z. apply IH. destruct A; cbn in *; try congruence; try (destruct (c_state c); discriminate); auto. }
  assert (C1 : c_client c1 = false) by (destruct A; cbn in *; congruence).
  destruct (IH C1 (openok_mv _ _ _ _ _ A O)) as [I1 I2].
  assert (S1 : closed (c_state c1) = false -> (c_sig c = GDone \/ In (OState SConnected) ys) -> c_sig c1 = GDone).
  { intros Z D. destruct A; cbn [c_state c_sig c_client c_flight with_state with_sig closed] in *; try discriminate.
    - destruct D as [D|[D|[]]]; [exact D|]. exfalso. injection D as ->. destruct H2; [congruence|discriminate].
    - destruct (O H0) as [[->|[-> _]] _]; reflexivity.
    - destruct D as [->|[]]. reflexivity.
    - destruct (c_state c); discriminate.
    - destruct (c_state c); discriminate.
    - congruence. }
  split.
  - intros D Z. apply I1; [|exact Z]. apply S1; [|auto]. apply not_true_iff_false. intros W. rewrite (CLS W) in Z. discriminate.
  - intros I Z. apply in_app_or in I. destruct I as [I|I]; [|auto]. apply I1; [|exact Z]. apply S1; [|auto]. apply not_true_iff_false. intros W. rewrite (CLS W) in Z. discriminate.
Qed.
Theorem handshake_done_sent : forall os c xs o c1 ys v p temp more c2 zs, run os (cl_new false) = (c, xs) -> step o c = (c1, ys) -> In (OState SConnected) ys -> closed (c_state c1) = false ->
  step (KOutput v (Some p) None true temp more) c1 = (c2, zs) -> In ODone zs.
Proof.
  intros os c xs o c1 ys v p temp more c2 zs R S I K1 S2. pose proof (openok_run _ _ _ _ R (openok_new false)) as A.
  assert (C : c_client c = false).
  { clear - R. revert R. assert (E : c_client (cl_new false) = false) by reflexivity. revert E. generalize (cl_new false). revert xs. induction os as [|o os IH]; intros xs c0 E R; [inv R; exact E|].
    apply run_cons in R. destruct R as [c1 [y1 [y2 [S [R ->]]]]]. apply (IH _ _) in R; [exact R|]. clear - S E.
    assert (MC : forall a c ys n c', mvs a c ys n c' -> c_client c = false -> c_client c' = false) by (intros a c ys n c' M; induction M as [|c ys n c2 zs m c3 A B IH]; auto; intros Z; apply IH; destruct A; cbn in *; congruence).
    destruct (closed (c_state c0)) eqn:K; [destruct (shut_steps _ _ _ _ K S) as [_ Q _ _ _ _ _]; congruence|]. destruct o.
    + apply close_open in S; [|exact K]. eauto.
    + destruct (step_mvs _ _ _ _ S eq_refl) as [n [_ M]]. eauto.
    + destruct (step_mvs _ _ _ _ S eq_refl) as [n [_ M]]. eauto.
    + destruct (step_mvs _ _ _ _ S eq_refl) as [n [_ M]]. eauto.
    + destruct (step_mvs _ _ _ _ S eq_refl) as [n [_ M]]. eauto.
    + apply out_mvs in S; [|exact K]. destruct S as [c2 [o1 [o2 [M [-> [NC X]]]]]]. eapply MC; [exact M|]. destruct X as [[-> _]|[_ [-> _]]]; exact E.
    + cbn [step] in S. destruct (_ =? 0); inv S; exact E. }
  assert (D : c_sig c1 = GDone).
  { destruct (closed (c_state c)) eqn:K; [destruct (shut_steps _ _ _ _ K S) as [Q _ _ _ _ _ _]; unfold shut in Q; congruence|]. destruct o.
    - apply close_open in S; [|exact K]. apply (proj2 (mvs_sig _ _ _ _ _ S C A)); auto.
    - destruct (step_mvs _ _ _ _ S eq_refl) as [n [_ M]]. apply (proj2 (mvs_sig _ _ _ _ _ M C A)); auto.
    - destruct (step_mvs _ _ _ _ S eq_refl) as [n [_ M]]. apply (proj2 (mvs_sig _ _ _ _ _ M C A)); auto.
    - destruct (step_mvs _ _ _ _ S eq_refl) as [n [_ M]]. apply (proj2 (mvs_sig _ _ _ _ _ M C A)); auto.
    - destruct (step_mvs _ _ _ _ S eq_refl) as [n [_ M]]. apply (proj2 (mvs_sig _ _ _ _ _ M C A)); auto.
    - exfalso. apply out_mvs in S; [|exact K]. destruct S as [c3 [o1 [o2 [M [-> [NC X]]]]]].
      apply in_app_or in I. destruct I as [I|I]; [destruct X as [[_ ->]|[_ [_ ->]]]; [destruct I|destruct I as [I|[]]; discriminate]|]. apply in_app_or in I. destruct I as [I|I]; [exact (NC I)|]. destruct path; [destruct res; [destruct I|destruct I as [I|[]]; discriminate]|destruct I].
    - cbn [step] in S. destruct (_ =? 0); inv S; destruct I. }
  cbn [step] in S2. unfold output in S2. rewrite K1, D in S2. inv S2. left. reflexivity.
Qed.
Print Assumptions handshake_done_sent.

