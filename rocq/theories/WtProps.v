(** WebTransport streams, sending (C104). *)
From Coq Require Import NArith List Bool Lia.
From Verif Require Import Base Lib CodecModel CodecProofs Reader HfModel HtModel HtSpec WtModel WtSpec.
Import ListNotations.
Open Scope N_scope.

Lemma taken_app a b : taken (a ++ b) = taken a ++ taken b.
Proof. induction a as [|[o x] a IH]; [reflexivity|]. destruct o; try exact IH. destruct x; try exact IH. cbn. rewrite IH, app_assoc. reflexivity. Qed.
Definition com_ok (p : list N) (s : wts) : Prop := q_commit s = 0 \/ (lenN p <= q_commit s /\ q_commit s <= lenN (q_bytes s)).
Definition inv (p : list N) (s : wts) (acc : list N) (closed : Prop) : Prop :=
  com_ok p s /\ (q_fin s = true -> closed /\ w_state s = WDone) /\
  match w_state s with
  | WInit buf fin => q_bytes s ++ buf = p /\ buf <> [] /\ acc = [] /\ q_commit s = 0 /\ (fin = true <-> closed)
  | WSending => q_bytes s = p ++ acc /\ ~ closed
  | WDone => (q_bytes s = p ++ acc \/ (acc = [] /\ prefix_of (q_bytes s) p /\ q_commit s = 0 /\ q_fin s = false /\ w_here s = false)) /\ (w_here s = true -> closed)
  end.
Lemma inv_iff p s acc (c1 c2 : Prop) : (c1 <-> c2) -> inv p s acc c1 -> inv p s acc c2.
Proof. intros H (I1 & I2 & I3). split; [exact I1|]. split; [tauto|]. destruct (w_state s); [|tauto..]. destruct I3 as (J1 & J2 & J3 & J4 & J5). rewrite <- H. splits; auto. Qed.
Lemma lenN_app' {A} (a b : list A) : lenN (a ++ b) = lenN a + lenN b.
Proof. unfold lenN. rewrite app_length. lia. Qed.
Lemma commit_inv p s acc closed ci : w_state s <> WDone -> (forall b f, w_state s <> WInit b f) -> inv p s acc closed -> inv p (q_do_commit s ci) acc closed.
Proof.
  intros N1 N2 (I1 & I2 & I3). destruct ci; [|exact (conj I1 (conj I2 I3))..].
  destruct (w_state s) eqn:S; [destruct (N2 _ _ eq_refl)| |congruence]. destruct I3 as [I3 I4]. unfold inv, com_ok, q_do_commit. cbn [w_state q_bytes q_commit q_fin]. rewrite S. split; [right; rewrite I3, lenN_app'; lia|].
  split; [exact I2|]. auto.
Qed.
Lemma send_inv p s r ci cl s' ok acc (closed : Prop) : inv p s acc closed -> w_send s r ci cl = (s', ok) ->
  inv p s' acc closed /\ w_here s' = w_here s /\ (ok = true -> r <> None \/ (forall b f, w_state s <> WInit b f)).
Proof.
  intros I E. unfold w_send in E. destruct (w_state s) as [buf fin| |] eqn:S.
  2, 3: injection E as <- <-; (split; [exact I|split; [reflexivity|intros _; right; discriminate]]).
  destruct r as [r|]; [|injection E as <- <-; split; [exact I|split; [reflexivity|discriminate]]].
  destruct I as (I1 & I2 & I3). rewrite S in I3. destruct I3 as (J1 & J2 & -> & J4 & J5).
  assert (Fn : q_fin s = false) by (destruct (q_fin s); [destruct (I2 eq_refl) as [_ Z]; congruence|reflexivity]).
  destruct (Nat.eqb_spec (w_take r buf) (length buf)) as [L|L].
  - set (s0 := mkWT WSending (w_here s) (q_bytes s ++ buf) (q_commit s) (q_fin s)) in *. assert (Hh : w_here (q_do_commit s0 ci) = w_here s) by (destruct ci; reflexivity).
    destruct fin.
    + injection E as <- <-. split; [|split; [exact Hh|intros _; left; discriminate]]. destruct J5 as [J5 _]. specialize (J5 eq_refl).
      assert (Cm : com_ok p (q_do_commit s0 ci)) by (destruct ci; unfold com_ok; cbn [q_do_commit q_commit q_bytes s0]; rewrite ?J1; [right; lia|auto..]).
      split; [exact Cm|]. split; [auto|]. cbn [w_state q_bytes]. split; [|auto]. left. rewrite app_nil_r. destruct ci; exact J1.
    + injection E as <- <-. split; [|split; [exact Hh|intros _; left; discriminate]]. apply commit_inv; [discriminate..|]. split; [left; exact J4|]. split; [cbn [q_fin s0]; congruence|].
      cbn [w_state s0 q_bytes]. rewrite app_nil_r. split; [exact J1|]. intros Hc. destruct J5 as [_ J5]. discriminate (J5 Hc).
  - injection E as <- <-. split; [|split; [reflexivity|intros _; left; discriminate]]. split; [left; exact J4|]. split; [cbn [q_fin]; congruence|]. cbn [w_state q_bytes q_commit].
    rewrite <- app_assoc, firstn_skipn. splits; auto.
    intros H. apply (f_equal (@length N)) in H. rewrite skipn_length in H. cbn in H. unfold w_take, lenN in *. destruct buf; [congruence|cbn [length] in *; lia].
Qed.
Lemma step_inv p s o s' a acc (closed : Prop) : inv p s acc closed -> (w_here s = false -> w_state s = WDone) -> w_step s o = (s', a) ->
  inv p s' (acc ++ taken [(o, a)]) (closed \/ closes o) /\ (w_here s' = false -> w_state s' = WDone).
Proof.
  intros I Hd E. unfold w_step in E.
  assert (Wk : forall s1, inv p s1 acc closed -> ~ closes o -> taken [(o, a)] = [] -> inv p s1 (acc ++ taken [(o, a)]) (closed \/ closes o)).
  { intros s1 (K1 & K2 & K3) Hc ->. rewrite app_nil_r. split; [exact K1|]. split; [intros H; destruct (K2 H); auto|]. destruct (w_state s1); [|tauto..].
    destruct K3 as (L1 & L2 & L3 & L4 & L5). assert (J : closed <-> closed \/ closes o) by tauto. rewrite <- J. splits; auto. }
  assert (Nc : forall x, (forall cl, x <> WClose cl) -> ~ closes x) by (intros x H (cl & Hx); exact (H cl Hx)).
  destruct (w_here s) eqn:Hw; cbn [negb] in E.
  2: { assert (S' : s' = s) by (destruct o; injection E as <- _; reflexivity). subst s'. assert (Tk : taken [(o, a)] = []) by (destruct o; injection E as <-; reflexivity).
       split; [|intros _; exact (Hd eq_refl)]. destruct I as (K1 & K2 & K3). rewrite Tk, app_nil_r. split; [exact K1|]. split; [intros H; destruct (K2 H); auto|]. rewrite (Hd eq_refl) in *. destruct K3 as [K3 K4]. split; [exact K3|auto]. }
  destruct o as [r ci cl|b r ci cl r2|r ci cl ci2|cl|].
  - destruct (w_send s r ci cl) as [s1 ok] eqn:Es. destruct (send_inv _ _ _ _ _ _ _ _ _ I Es) as (I1 & H1 & _). rewrite Hw in H1.
    destruct (negb ok); [injection E as <- <-; split; [apply Wk; [exact I1|apply Nc; discriminate|reflexivity]|congruence]|].
    destruct (w_is_done (w_state s1)) eqn:D; injection E as <- <-; (split; [apply Wk; [|apply Nc; discriminate|reflexivity]|]); [|intros _; destruct (w_state s1) eqn:S1; try discriminate D; cbn [w_gone w_state]; exact S1|exact I1|congruence].
    destruct I1 as (K1 & K2 & K3). destruct (w_state s1) eqn:S1; try discriminate D. split; [exact K1|]. split; [cbn [w_gone q_fin w_state]; rewrite S1; exact K2|]. cbn [w_gone w_state q_bytes q_commit q_fin w_here]. rewrite S1. split; [|discriminate]. destruct K3 as [[K3|(_ & _ & _ & _ & K7)] _]; [left; exact K3|congruence].
  - destruct (w_send s r ci cl) as [s1 ok] eqn:Es. destruct (send_inv _ _ _ _ _ _ _ _ _ I Es) as (I1 & H1 & _). rewrite Hw in H1.
    destruct (negb ok); [injection E as <- <-; split; [apply Wk; [exact I1|apply Nc; discriminate|reflexivity]|congruence]|].
    destruct (w_is_sending (w_state s1)) eqn:Q; [|injection E as <- <-; split; [apply Wk; [exact I1|apply Nc; discriminate|reflexivity]|congruence]].
    destruct r2 as [r2|]; [|injection E as <- <-; split; [apply Wk; [exact I1|apply Nc; discriminate|reflexivity]|congruence]]. injection E as <- <-. split; [|cbn [w_here]; congruence].
    destruct (w_state s1) eqn:S1; try discriminate Q. destruct I1 as (K1 & K2 & K3). rewrite S1 in K3. destruct K3 as [K3 K4]. cbn [taken]. rewrite app_nil_r, Nat2N.id.
    split; [|split].
    + destruct K1 as [K1|[K1 K5]]; [left; exact K1|right]. cbn [q_commit q_bytes]. rewrite lenN_app'. split; lia.
    + cbn [q_fin]. intros H. destruct (K2 H); congruence.
    + cbn [w_state q_bytes]. split; [rewrite K3, app_assoc; reflexivity|]. intros [H|H]; [exact (K4 H)|]. destruct H as (c & H). discriminate H.
  - destruct (w_send s r ci cl) as [s1 ok] eqn:Es. destruct (send_inv _ _ _ _ _ _ _ _ _ I Es) as (I1 & H1 & _). rewrite Hw in H1.
    destruct (negb ok); [injection E as <- <-; split; [apply Wk; [exact I1|apply Nc; discriminate|reflexivity]|congruence]|].
    destruct (w_is_sending (w_state s1)) eqn:Q; [|injection E as <- <-; split; [apply Wk; [exact I1|apply Nc; discriminate|reflexivity]|congruence]].
    injection E as <- <-. split; [apply Wk; [|apply Nc; discriminate|reflexivity]|destruct ci2; cbn [q_do_commit w_here]; congruence].
    apply commit_inv; [| |exact I1]; intros; destruct (w_state s1); discriminate.
  - destruct I as (I1 & I2 & I3). cbn [taken] in *. destruct (w_state s) as [buf fin| |] eqn:S.
    + injection E as <- <-. cbn [taken]. rewrite app_nil_r. split; [|cbn [w_here]; congruence]. destruct I3 as (J1 & J2 & J3 & J4 & J5). split; [exact I1|].
      split; [cbn [q_fin]; intros H; destruct (I2 H); discriminate|]. cbn [w_state q_bytes q_commit]. splits; auto. split; [|reflexivity]. intros _. right. exists cl. reflexivity.
    + injection E as <- <-. cbn [taken]. rewrite app_nil_r. split; [|reflexivity]. split; [exact I1|]. split; [intros _; split; [right; exists cl; reflexivity|reflexivity]|]. cbn [w_state q_bytes w_here]. split; [left; exact (proj1 I3)|discriminate].
    + injection E as <- <-. cbn [taken]. rewrite app_nil_r. split; [|reflexivity]. split; [exact I1|]. split; [intros _; split; [right; exists cl; reflexivity|reflexivity]|]. cbn [w_state q_bytes w_here]. split; [left; destruct I3 as [[I3|(_ & _ & _ & _ & I3)] _]; [exact I3|congruence]|discriminate].
  - injection E as <- <-. cbn [taken]. rewrite app_nil_r. split; [|reflexivity]. destruct I as (I1 & I2 & I3). split; [exact I1|]. split; [cbn [q_fin w_state]; intros H; destruct (I2 H); auto|]. cbn [w_state q_bytes q_commit q_fin w_here]. split; [|discriminate].
    destruct (w_state s) as [buf fin| |] eqn:S; [|left; exact (proj1 I3)|destruct I3 as [[I3|(_ & _ & _ & _ & I3)] _]; [left; exact I3|congruence]]. destruct I3 as (J1 & J2 & J3 & J4 & J5). right. splits; auto; [exists buf; auto|]. destruct (q_fin s); [destruct (I2 eq_refl); discriminate|reflexivity].
Qed.
Lemma run_inv p os : forall s acc closed s' log, inv p s acc closed -> (w_here s = false -> w_state s = WDone) -> w_run s os = (s', log) ->
  inv p s' (acc ++ taken log) (closed \/ exists cl, In (WClose cl) os) /\ (w_here s' = false -> w_state s' = WDone).
Proof.
  induction os as [|o os IH]; intros s acc closed s' log I Hd E; cbn [w_run] in E.
  - injection E as <- <-. cbn [taken]. rewrite app_nil_r. split; [|exact Hd]. eapply inv_iff; [|exact I]. split; [auto|]. intros [H|(cl & [])]. exact H.
  - destruct (w_step s o) as [s1 a] eqn:S. destruct (w_run s1 os) as [s2 l] eqn:E2. injection E as <- <-. destruct (step_inv _ _ _ _ _ _ _ I Hd S) as [I1 H1].
    destruct (IH _ _ _ _ _ I1 H1 E2) as [I2 H2]. split; [|exact H2]. change ((o, a) :: l) with ([(o, a)] ++ l). rewrite taken_app, app_assoc. eapply inv_iff; [|exact I2].
    unfold closes. split; [intros [[H|(cl & ->)]|(cl & H)]; [auto|right; exists cl; left; reflexivity|right; exists cl; right; exact H]|]. intros [H|(cl & [->|H])]; [auto|left; right; exists cl; reflexivity|right; exists cl; exact H].
Qed.

Lemma preface_some uni sid : sid < 2 ^ 62 -> exists p, wt_preface uni sid = Some p /\ p <> [].
Proof.
  intros H. unfold wt_preface. assert (A : exists l, varint_bytes sid = Some l).
  { unfold varint_bytes. destruct (sid <? 2 ^ 6); [eauto|]. destruct (sid <? 2 ^ 14); [eauto|]. destruct (sid <? 2 ^ 30); [eauto|]. apply N.ltb_lt in H. rewrite H. eauto. }
  destruct A as (l & ->). destruct uni; cbn; eexists; (split; [reflexivity|discriminate]).
Qed.
Lemma new_inv p : p <> [] -> inv p (w_new p) [] False.
Proof. intros H. split; [left; reflexivity|]. split; [discriminate|]. cbn. splits; auto. split; [discriminate|tauto]. Qed.

(** *** C104.  What the transport is given of a stream opened here is the preface that names its session and then, in
    order, exactly the bytes the application was told were taken; nothing of the data before the whole preface. *)
Theorem wt_stream_bytes : forall uni sid p os s log, wt_preface uni sid = Some p -> sid < 2 ^ 62 -> w_run (w_new p) os = (s, log) ->
  q_bytes s = p ++ taken log \/ (taken log = [] /\ prefix_of (q_bytes s) p).
Proof.
  intros uni sid p os s log E H R. destruct (preface_some uni _ H) as (p' & E' & N). rewrite E in E'. injection E' as <-.
  destruct (run_inv _ _ _ _ _ _ _ (new_inv p N) ltac:(discriminate) R) as [(_ & _ & I) _]. cbn [app] in I.
  destruct (w_state s); [destruct I as (I1 & _ & I2 & _); right; split; [exact I2|exists buf; auto]|left; exact (proj1 I)|]. destruct I as [[I|(I1 & I2 & _)] _]; auto.
Qed.
(** The end is asked of the transport only after the application closed, and after all of that. *)
Theorem wt_stream_end : forall uni sid p os s log, wt_preface uni sid = Some p -> sid < 2 ^ 62 -> w_run (w_new p) os = (s, log) -> q_fin s = true ->
  q_bytes s = p ++ taken log /\ exists cl, In (WClose cl) os.
Proof.
  intros uni sid p os s log E H R F. destruct (preface_some uni _ H) as (p' & E' & N). rewrite E in E'. injection E' as <-.
  destruct (run_inv _ _ _ _ _ _ _ (new_inv p N) ltac:(discriminate) R) as [(_ & I2 & I) _]. cbn [app] in I. destruct (I2 F) as [[[]|C] D]. rewrite D in I.
  split; [|exact C]. destruct I as [[I|(_ & _ & _ & I & _)] _]; [exact I|congruence].
Qed.
(** While the transport takes calls on the stream and the peer does not stop it, a stream the application closed has its end asked of the transport, or has
    not yet handed over the whole preface. *)
Lemma works_step s o s' a : works o -> (w_state s = WDone -> q_fin s = true) -> w_step s o = (s', a) -> w_state s' = WDone -> q_fin s' = true.
Proof.
  intros W I E D. unfold w_step in E. destruct (w_here s); cbn [negb] in E; [|injection E as <- <-; auto].
  assert (Sd : forall r ci cl s1 ok, cl = true -> w_send s r ci cl = (s1, ok) -> w_state s1 = WDone -> q_fin s1 = true).
  { intros r ci cl s1 ok -> E1 D1. unfold w_send in E1. destruct (w_state s) as [buf fin| |] eqn:S; [|injection E1 as <- <-; congruence|injection E1 as <- <-; auto].
    destruct r as [r|]; [|injection E1 as <- <-; congruence]. destruct (Nat.eqb (w_take r buf) (length buf)); [|injection E1 as <- <-; discriminate].
    destruct fin; injection E1 as <- <-; [cbn [q_fin]; apply Bool.orb_true_r|destruct ci; discriminate]. }
  destruct o as [r ci cl|b r ci cl r2|r ci cl ci2|cl|]; cbn [works] in W.
  - destruct (w_send s r ci cl) as [s1 ok] eqn:E1. destruct W as (_ & _ & Wc). pose proof (Sd _ _ _ _ _ Wc E1) as K. destruct ok; cbn [negb] in E; [|injection E as <- <-; auto].
    destruct (w_is_done (w_state s1)); injection E as <- <-; cbn [w_gone w_state q_fin] in *; auto.
  - destruct (w_send s r ci cl) as [s1 ok] eqn:E1. destruct W as (_ & _ & Wc & _). pose proof (Sd _ _ _ _ _ Wc E1) as K. destruct ok; cbn [negb] in E; [|injection E as <- <-; auto].
    destruct (w_is_sending (w_state s1)); [|injection E as <- <-; auto]. destruct r2; injection E as <- <-; [discriminate|auto].
  - destruct (w_send s r ci cl) as [s1 ok] eqn:E1. destruct W as (_ & _ & Wc). pose proof (Sd _ _ _ _ _ Wc E1) as K. destruct ok; cbn [negb] in E; [|injection E as <- <-; auto].
    destruct (w_is_sending (w_state s1)); injection E as <- <-; [|auto]. destruct ci2; cbn [q_do_commit w_state q_fin] in *; auto.
  - subst cl. destruct (w_state s); injection E as <- <-; [discriminate|apply Bool.orb_true_r..].
  - destruct W.
Qed.
Theorem wt_close_ends : forall uni sid p os s log, wt_preface uni sid = Some p -> sid < 2 ^ 62 -> w_run (w_new p) os = (s, log) -> Forall works os -> (exists cl, In (WClose cl) os) ->
  (q_fin s = true /\ q_bytes s = p ++ taken log) \/ (prefix_of (q_bytes s) p /\ q_bytes s <> p).
Proof.
  intros uni sid p os s log E H R W C. destruct (preface_some uni _ H) as (p' & E' & N). rewrite E in E'. injection E' as <-.
  assert (D : w_state s = WDone -> q_fin s = true).
  { assert (D0 : w_state (w_new p) = WDone -> q_fin (w_new p) = true) by discriminate. clear C. revert D0 R. generalize (w_new p) as s0. revert s log. induction W as [|o os Wo W IH]; intros s log s0 D0 R; cbn [w_run] in R; [injection R as <- <-; exact D0|].
    destruct (w_step s0 o) as [s1 a] eqn:S. destruct (w_run s1 os) as [s2 l] eqn:R2. injection R as <- <-. eapply IH; [|exact R2]. exact (works_step _ _ _ _ Wo D0 S). }
  destruct (run_inv _ _ _ _ _ _ _ (new_inv p N) ltac:(discriminate) R) as [(_ & _ & I) _]. cbn [app] in I. destruct (w_state s).
  - destruct I as (I1 & I2 & _). right. split; [exists buf; auto|]. intros X. rewrite X in I1. apply I2. rewrite <- (app_nil_r p) in I1 at 2. exact (app_inv_head _ _ _ I1).
  - destruct I as [_ I]. destruct I. right. exact C.
  - left. specialize (D eq_refl). split; [exact D|]. destruct I as [[I|(_ & _ & _ & I & _)] _]; [exact I|congruence].
Qed.
(** What is promised to arrive even after a reset is nothing, or includes the whole preface, and never more than was
    written; a commit that succeeds covers all of it. *)
Theorem wt_stream_commit : forall uni sid p os s log, wt_preface uni sid = Some p -> sid < 2 ^ 62 -> w_run (w_new p) os = (s, log) ->
  (q_commit s = 0 \/ (lenN p <= q_commit s /\ q_commit s <= lenN (q_bytes s))) /\
  forall r ci cl ci2 s', w_step s (WCommit r ci cl ci2) = (s', WOk) -> q_commit s' = lenN (q_bytes s') /\ q_bytes s' = p ++ taken log.
Proof.
  intros uni sid p os s log E H R. destruct (preface_some uni _ H) as (p' & E' & N). rewrite E in E'. injection E' as <-.
  destruct (run_inv _ _ _ _ _ _ _ (new_inv p N) ltac:(discriminate) R) as [I Hd]. cbn [app] in I. split; [exact (proj1 I)|]. intros r ci cl ci2 s' S.
  unfold w_step in S. destruct (w_here s); cbn [negb] in S; [|discriminate S]. destruct (w_send s r ci cl) as [s1 ok] eqn:Es. destruct (send_inv _ _ _ _ _ _ _ _ _ I Es) as ((_ & _ & I1) & _ & _).
  destruct (negb ok); [discriminate S|]. destruct (w_state s1) eqn:S1; cbn [w_is_sending] in S; try discriminate S. injection S as <- C. destruct ci2; try discriminate C. cbn [q_do_commit q_commit q_bytes]. split; [reflexivity|exact (proj1 I1)].
Qed.
(** Progress: with room for what is left of the preface, being served once is enough; a stream the application had closed
    is then ended and gone, another takes data. *)
Theorem wt_stream_progress : forall uni sid p os s log r ci s' a, wt_preface uni sid = Some p -> sid < 2 ^ 62 -> w_run (w_new p) os = (s, log) -> w_here s = true ->
  lenN p <= r -> ci <> CFails -> w_step s (WServe (Some r) ci true) = (s', a) ->
  a = WNone /\ q_bytes s' = p ++ taken log /\ ((exists cl, In (WClose cl) os) -> w_here s' = false) /\
  (~ (exists cl, In (WClose cl) os) -> w_here s' = true /\ forall b r1 ci1 cl1 r2 s2 a2, r2 <= lenN b -> w_step s' (WWrite b r1 ci1 cl1 (Some r2)) = (s2, a2) -> a2 = WTaken r2) /\
  (w_state s <> WDone -> (exists cl, In (WClose cl) os) -> q_fin s' = true).
Proof.
  intros uni sid p os s log r ci s' a E H R Hw Hr Hc S. destruct (preface_some uni _ H) as (p' & E' & N). rewrite E in E'. injection E' as <-.
  destruct (run_inv _ _ _ _ _ _ _ (new_inv p N) ltac:(discriminate) R) as [I _]. cbn [app] in I. unfold w_step in S. rewrite Hw in S. cbn [negb] in S.
  assert (Wr : forall q com b r1 ci1 cl1 r2 s2 a2, r2 <= lenN b -> w_step (mkWT WSending true q com false) (WWrite b r1 ci1 cl1 (Some r2)) = (s2, a2) -> a2 = WTaken r2).
  { intros q com b r1 ci1 cl1 r2 s2 a2 L X. cbn in X. injection X as _ <-. unfold w_take. rewrite N.min_l by exact L. rewrite N2Nat.id. reflexivity. }
  destruct I as (I1 & I2 & I3). unfold w_send in S. destruct (w_state s) as [buf fin| |] eqn:St.
  - destruct I3 as (J1 & J2 & J3 & J4 & J5). assert (Fn : q_fin s = false) by (destruct (q_fin s); [destruct (I2 eq_refl); discriminate|reflexivity]).
    assert (L : w_take r buf = length buf) by (unfold w_take; assert (lenN buf <= lenN p) by (rewrite <- J1, lenN_app'; lia); rewrite N.min_r by lia; unfold lenN; lia). rewrite L, Nat.eqb_refl in S.
    set (s0 := mkWT WSending (w_here s) (q_bytes s ++ buf) (q_commit s) (q_fin s)) in *. assert (Q0 : w_state (q_do_commit s0 ci) = WSending /\ q_bytes (q_do_commit s0 ci) = p /\ q_fin (q_do_commit s0 ci) = false /\ w_here (q_do_commit s0 ci) = true) by (destruct ci; cbn; rewrite ?J1, ?Fn, ?Hw; auto).
    destruct Q0 as (Q1 & Q2 & Q3 & Q4). rewrite J3, app_nil_r. assert (Ok : match ci with CFails => false | _ => true end = true) by (destruct ci; congruence). rewrite Ok in S.
    destruct fin; cbn [andb negb w_is_done w_state] in S.
    + injection S as <- <-. cbn [w_gone q_bytes w_here q_fin]. rewrite Q2. assert (Cl : exists cl, In (WClose cl) os) by (destruct J5 as [J5 _]; destruct (J5 eq_refl) as [[]|J]; exact J). split; [reflexivity|]. split; [reflexivity|]. split; [reflexivity|]. split; [intros Z; destruct (Z Cl)|]. intros _ _. apply orb_true_r.
    + rewrite Q1 in S. cbn [w_is_done] in S. injection S as <- <-. assert (Nc : ~ exists cl, In (WClose cl) os) by (intros Cl; destruct J5 as [_ J5]; discriminate (J5 (or_intror Cl))). split; [reflexivity|]. split; [exact Q2|]. split; [intros Cl; destruct (Nc Cl)|]. split; [|intros _ Cl; destruct (Nc Cl)]. intros _.
      split; [exact Q4|]. destruct (q_do_commit s0 ci) as [a1 a2 a3 a4 a5]. cbn in Q1, Q2, Q3, Q4. subst. apply Wr.
  - destruct I3 as [I3 I4]. cbn [negb] in S. rewrite St in S. cbn [w_is_done] in S. injection S as <- <-. assert (Nc : ~ exists cl, In (WClose cl) os) by tauto. split; [reflexivity|]. split; [exact I3|]. split; [intros Cl; destruct (Nc Cl)|]. split; [|intros _ Cl; destruct (Nc Cl)]. intros _.
    split; [exact Hw|]. assert (Fn : q_fin s = false) by (destruct (q_fin s); [destruct (I2 eq_refl); discriminate|reflexivity]). destruct s as [a1 a2 a3 a4 a5]. cbn in St, Fn, Hw. subst. apply Wr.
  - cbn [negb] in S. rewrite St in S. cbn [w_is_done] in S. injection S as <- <-. cbn [w_gone q_bytes w_here q_fin]. destruct I3 as [I3 I4]. split; [reflexivity|]. split; [|split; [reflexivity|split; [|congruence]]].
    + destruct I3 as [I3|(_ & _ & _ & _ & I3)]; [exact I3|congruence].
    + intros Nc. destruct (I4 Hw) as [[]|Cl]. destruct (Nc Cl).
Qed.
(** Nothing is taken once the application has closed. *)
Theorem wt_stream_closed : forall uni sid p os s log b r ci cl r2 s' a, wt_preface uni sid = Some p -> sid < 2 ^ 62 -> w_run (w_new p) os = (s, log) ->
  (exists cl, In (WClose cl) os) -> w_step s (WWrite b r ci cl r2) = (s', a) -> a = WErr \/ a = WNoStream \/ a = WTaken 0.
Proof.
  intros uni sid p os s log b r ci cl r2 s' a E H R Hc S. destruct (preface_some uni _ H) as (p' & E' & N). rewrite E in E'. injection E' as <-.
  destruct (run_inv _ _ _ _ _ _ _ (new_inv p N) ltac:(discriminate) R) as [I Hd]. unfold w_step in S. destruct (w_here s); cbn [negb] in S; [|injection S as _ <-; auto].
  destruct (w_send s r ci cl) as [s1 ok] eqn:Es. destruct (send_inv _ _ _ _ _ _ _ _ _ I Es) as ((_ & _ & I1) & _ & _). destruct (negb ok); [injection S as _ <-; auto|].
  destruct (w_state s1) eqn:S1; cbn [w_is_sending] in S; [injection S as _ <-; auto| |injection S as _ <-; auto]. destruct I1 as [_ I1]. destruct (I1 (or_intror Hc)).
Qed.
Lemma preface_shape uni sid p : wt_preface uni sid = Some p -> exists l, varint_bytes sid = Some l /\ p = [64; if uni then 84 else 65] ++ l.
Proof.
  intros E. unfold wt_preface in E. destruct (varint_bytes sid) as [l|]; [|destruct uni; discriminate E]. exists l. split; [reflexivity|].
  destruct uni; [change (varint_bytes WT_UNI) with (Some [64; 84]) in E|change (varint_bytes WT_BIDI) with (Some [64; 65]) in E]; cbn [obind] in E; injection E as <-; reflexivity.
Qed.
(** The far end reads the preface as exactly this session's name and hands on the data after it; from any part of it, it
    waits for more. *)
Theorem wt_stream_understood : forall uni server sid p data, wt_preface uni sid = Some p -> head_of uni server (p ++ data) = Yes (NWebTransport sid) data.
Proof.
  intros uni server sid p data E. destruct (preface_shape _ _ _ E) as (l & L & ->). unfold head_of. set (t := if uni then 84 else 65).
  rewrite <- app_assoc, (rd_varint_encode t [64; t] (l ++ data)) by (unfold t; destruct uni; reflexivity).
  assert (M : means uni server t = WithId NWebTransport) by (unfold t; destruct uni, server; reflexivity). rewrite M, (rd_varint_encode _ _ data L). reflexivity.
Qed.
Lemma rd_varint_part l v a b : varint_bytes v = Some l -> l = a ++ b -> b <> [] -> rd_varint a = None.
Proof.
  intros L E Nb. destruct (rd_varint a) as [[v' r]|] eqn:R; [|reflexivity]. exfalso.
  assert (X : rd_varint (a ++ b) = Some (v', r ++ b)) by (destruct (rd_varint_prefix _ _ _ R) as (h & -> & _ & Hh); rewrite <- app_assoc; apply Hh). rewrite <- E, <- (app_nil_r l), (rd_varint_encode _ _ [] L) in X. injection X as _ X. symmetry in X. apply app_eq_nil in X. tauto.
Qed.
Theorem wt_stream_partial_preface : forall uni server sid p a b, wt_preface uni sid = Some p -> p = a ++ b -> b <> [] -> head_of uni server a = More.
Proof.
  intros uni server sid p a b E Ep Nb. destruct (preface_shape _ _ _ E) as (l & L & Et). set (t := if uni then 84 else 65) in *.
  assert (Vt : varint_bytes t = Some [64; t]) by (unfold t; destruct uni; reflexivity). rewrite Et in Ep. clear E Et p.
  destruct a as [|x [|y a]].
  - reflexivity.
  - cbn [app] in Ep. injection Ep as <- Ep. unfold head_of. rewrite (rd_varint_part [64; t] t [64] [t] Vt eq_refl) by discriminate. reflexivity.
  - cbn [app] in Ep. injection Ep as <- <- El. unfold head_of. change (64 :: t :: a) with ([64; t] ++ a). rewrite (rd_varint_encode _ _ a Vt).
    assert (M : means uni server t = WithId NWebTransport) by (unfold t; destruct uni, server; reflexivity). rewrite M, (rd_varint_part _ _ _ _ L El Nb). reflexivity.
Qed.
(** But a stream closed with nothing written is the preface and the end, and that ends the far end's whole connection. *)
Theorem wt_empty_stream_refuted : exists p s log, wt_preface true 4 = Some p /\ w_run (w_new p) [WClose true; WServe (Some 100) CCannot true] = (s, log) /\
  q_bytes s = p /\ q_fin s = true /\ forall server, ends_as (head_of true server (q_bytes s)) = Some TGeneral.
Proof. do 3 eexists. split; [reflexivity|]. split; [reflexivity|]. split; [reflexivity|]. split; [reflexivity|]. intros []; reflexivity. Qed.
(** *** Statistics.  On a client, of a stream it opened: what is counted of the first [n] bytes is the application's. *)
Lemma vlen v l : varint_bytes v = Some l -> varint_len v = Some (lenN l).
Proof. apply varint_bytes_len. Qed.
Theorem wt_stats_client : forall uni sid p os s log n, wt_preface uni sid = Some p -> sid < 2 ^ 62 -> w_run (w_new p) os = (s, log) -> n <= lenN (q_bytes s) ->
  w_stat true uni sid n = Some (n - lenN p) /\ n - lenN p <= lenN (taken log) /\ (n = lenN (q_bytes s) -> n - lenN p = lenN (taken log)).
Proof.
  intros uni sid p os s log n E H R Hn. pose proof (wt_stream_bytes _ _ _ _ _ _ E H R) as B.
  split.
  - destruct (preface_shape _ _ _ E) as (l & L & ->). unfold w_stat. rewrite (vlen _ _ L), lenN_app'. destruct uni; reflexivity.
  - destruct B as [B|[B (c & C)]]; [rewrite B, lenN_app' in *; lia|]. rewrite B. subst p. rewrite lenN_app' in *. cbn. lia.
Qed.
(** On a server it is not so: of its own streams the preface is counted too, and of its side of the client's, which has no
    preface, the application's bytes are left out. *)
Theorem wt_stats_server_refuted :
  (exists p s log, wt_preface true 4 = Some p /\ w_run (w_new p) [WServe (Some 100) CDone true; WWrite [1; 2; 3; 4; 5] None CDone true (Some 100)] = (s, log) /\
     lenN (taken log) = 5 /\ w_stat false true 4 (lenN (q_bytes s)) = Some 8) /\
  (exists s log, w_run w_peer [WWrite [1; 2; 3; 4; 5] None CDone true (Some 100)] = (s, log) /\ lenN (taken log) = 5 /\ w_stat true false 4 (lenN (q_bytes s)) = Some 2).
Proof. split; [do 3 eexists|do 2 eexists]; repeat (split; [reflexivity|]); reflexivity. Qed.
(** The side of a stream the peer opened: no preface, the application's bytes only. *)
Theorem wt_peer_stream_bytes : forall os s log, w_run w_peer os = (s, log) -> q_bytes s = taken log /\ (q_fin s = true -> exists cl, In (WClose cl) os).
Proof.
  intros os s log R. assert (I : inv [] w_peer [] False) by (split; [left; reflexivity|]; split; [discriminate|]; split; [reflexivity|tauto]).
  destruct (run_inv _ _ _ _ _ _ _ I ltac:(discriminate) R) as [(_ & I2 & I3) _]. cbn [app] in I3. split; [|intros F; destruct (I2 F) as [[[]|C] _]; exact C].
  destruct (w_state s); [destruct I3 as (J1 & J2 & _); apply app_eq_nil in J1; tauto|exact (proj1 I3)|]. destruct I3 as [[I3|(I3 & (c & I4) & _)] _]; [exact I3|]. rewrite I3. symmetry in I4. apply app_eq_nil in I4. tauto.
Qed.
Example wt_example : exists p s log, wt_preface false 0 = Some p /\ p = [64; 65; 0] /\
  w_run (w_new p) [WWrite [9; 9] (Some 2) CDone true (Some 5); WWrite [9; 8; 7] (Some 5) CDone true (Some 2); WCommit None CDone true CDone; WClose true] = (s, log) /\
  taken log = [9; 8] /\ q_bytes s = [64; 65; 0; 9; 8] /\ q_fin s = true /\ q_commit s = 5 /\ w_here s = false /\ head_of false true (q_bytes s) = Yes (NWebTransport 0) [9; 8].
Proof. do 3 eexists. repeat (split; [reflexivity|]). reflexivity. Qed.
Print Assumptions wt_stream_bytes.
Print Assumptions wt_stream_end.
Print Assumptions wt_close_ends.
Print Assumptions wt_stream_commit.
Print Assumptions wt_stream_progress.
Print Assumptions wt_stream_closed.
Print Assumptions wt_stream_understood.
Print Assumptions wt_stream_partial_preface.
Print Assumptions wt_empty_stream_refuted.
Print Assumptions wt_stats_client.
Print Assumptions wt_stats_server_refuted.
Print Assumptions wt_peer_stream_bytes.
