(** C109: the body of a request, as a server's application is given it. *)
From Coq Require Import String.
From Verif Require Import Base Lib CodecModel CodecSpec Reader IncrProofs HfModel HfSpec HfProofs HfProofs2 HhModel HmModel HmSpec HmProofs HmProofs2 HmProofs3 HmProps HdModel.
Open Scope N_scope.
Open Scope list_scope.
Import ListNotations.

Section Run.
  Context (prio : list N -> option priority) (D : nat -> list N -> section).
  Notation w_run := (w_run prio D Request false).
  Notation w_step := (w_step prio D Request false).
  Notation winv := (winv prio D Request false).
  (** Only between messages' headers and their end can there be anything to read, and then no headers come. *)
  Definition past (st : mstate) : Prop := match st with MData _ | MReading _ | MTrail _ | MPending => True | _ => False end.
  Lemma quiet_receive a : forall fuel m m' ev, past (m_state m) -> receive_internal prio D Request false fuel a m = (HmModel.Done m', ev) -> ev = [] /\ past (m_state m').
  Proof.
    induction fuel as [|fuel IH]; intros m m' ev P H; [discriminate|]. cbn [receive_internal] in H. destruct (m_state m) as [r|blk fin|r|n|r| | |] eqn:Es; cbn in P; try contradiction; try discriminate.
    - destruct (r_receive (HFRAME prio) r (m_src m)) as [[[[o fin] r'] s']|e|]; try discriminate. destruct o as [f|].
      + destruct f; cbn [handle_frame handle_headers handle_data handle_promise m_state m_set_reader negb m_with] in H; try discriminate.
        * destruct (0 <? len); [destruct fin; [discriminate|]|]; cbn [m_state m_with] in H.
          -- destruct (receive_internal prio D Request false fuel a _) as [o2 ev2] eqn:R. inversion H; subst. apply IH in R; [|exact I]. exact R.
          -- destruct fin; [inversion H; subst; split; [reflexivity|exact I]|]. destruct (receive_internal prio D Request false fuel a _) as [o2 ev2] eqn:R. inversion H; subst. apply IH in R; [|exact I]. exact R.
        * destruct fin; [inversion H; subst; split; [reflexivity|exact I]|]. destruct (receive_internal prio D Request false fuel a _) as [o2 ev2] eqn:R. inversion H; subst. apply IH in R; [|exact I]. exact R.
      + cbn [m_state m_set_reader close_pending m_with] in H. destruct fin; inversion H; subst; split; try reflexivity; exact I.
    - inversion H; subst. rewrite Es. split; [reflexivity|exact I].
    - destruct (r_receive (HFRAME prio) r (m_src m)) as [[[[o fin] r'] s']|e|]; try discriminate. destruct o as [f|].
      + destruct f; cbn [handle_frame handle_headers handle_data handle_promise m_state m_set_reader negb m_with] in H; try discriminate.
      + cbn [m_state m_set_reader close_pending m_with] in H. destruct fin; inversion H; subst; split; try reflexivity; exact I.
  Qed.
  Lemma quiet_read a : forall fuel m room m' b f ev, m_read prio D Request false fuel a m room = (HmModel.Done (m', b, f), ev) -> heads_of ev = [] /\ ends_of ev = 0%nat.
  Proof.
    induction fuel as [|fuel IH]; intros m room m' b f ev H; [discriminate|]. cbn [m_read] in H. destruct (m_state m) as [r|blk fin|r|n|r| | |] eqn:Es; try (inversion H; subst; split; reflexivity).
    destruct (read_data (m_src m) (N.to_nat (N.min n (N.of_nat room)))) as [[[b0 fin]|] s']; [|discriminate]. destruct fin.
    - destruct (0 <? n - lenN b0); inversion H; subst. split; reflexivity.
    - destruct (n - lenN b0 =? 0); [|inversion H; subst; split; reflexivity].
      unfold m_receive in H. destruct (receive_internal prio D Request false _ a _) as [[m2|e|] ev2] eqn:R; try discriminate. apply quiet_receive in R; [|exact I]. destruct R as [-> _].
      destruct (m_read prio D Request false fuel a m2 (room - length b0)) as [[[[m3 b3] f3]|e|] ev3] eqn:R3; try discriminate. inversion H; subst. cbn [app]. exact (IH _ _ _ _ _ _ R3).
  Qed.
  (** All that arrived is in one run: what the transport's own streams give. *)
  Definition one_run (m : msg) : Prop := (length (s_chunks (m_src m)) <= 1)%nat.
  Lemma read_runs s n x s' : read_data s n = (x, s') -> (length (s_chunks s') <= length (s_chunks s))%nat.
  Proof.
    unfold read_data. destruct (s_over s); [intro H; inversion H; subst; lia|]. destruct (s_chunks s) as [|c cs] eqn:E; intro H; inversion H; subst; cbn [s_chunks length]; [lia|]. destruct (is_nil (skipn n c)); cbn [length]; lia.
  Qed.
  Lemma receive_runs {F} (C : fdec F) : forall fuel r s o fin r' s', receive C fuel r s = HOk (o, fin, r', s') -> (length (s_chunks s') <= length (s_chunks s))%nat.
  Proof.
    induction fuel as [|fuel IH]; intros r s o fin r' s' H; [discriminate|]. cbn [receive] in H. destruct (read_data s (Nat.min (r_min r) MAX_READ_SIZE)) as [[[b f]|] s1] eqn:R; apply read_runs in R.
    - destruct (if is_nil b then HOk (None, r) else consume C r b) as [[[fr|] r1]|e|]; try discriminate; [inversion H; subst; exact R|].
      destruct f; [destruct (r_in_progress r1); inversion H; subst; exact R|]. destruct (is_nil b); [inversion H; subst; exact R|]. apply IH in H. lia.
    - inversion H; subst. exact R.
  Qed.
  Lemma run_receive a : forall fuel m m' ev, past (m_state m) -> one_run m -> receive_internal prio D Request false fuel a m = (HmModel.Done m', ev) -> one_run m'.
  Proof.
    induction fuel as [|fuel IH]; intros m m' ev P O H; [discriminate|]. cbn [receive_internal] in H. destruct (m_state m) as [r|blk fin|r|n|r| | |] eqn:Es; cbn in P; try contradiction; try discriminate.
    - destruct (r_receive (HFRAME prio) r (m_src m)) as [[[[o fin] r'] s']|e|] eqn:RR; try discriminate. unfold r_receive in RR. apply receive_runs in RR. assert (O' : (length (s_chunks s') <= 1)%nat) by (unfold one_run in O; lia). destruct o as [f|].
      + destruct f; cbn [handle_frame handle_headers handle_data handle_promise m_state m_set_reader negb m_with] in H; try discriminate.
        * destruct (0 <? len); [destruct fin; [discriminate|]|]; cbn [m_state m_with] in H.
          -- destruct (receive_internal prio D Request false fuel a _) as [o2 ev2] eqn:R. inversion H; subst. apply IH in R; [exact R|exact I|exact O'].
          -- destruct fin; [inversion H; subst; exact O'|]. destruct (receive_internal prio D Request false fuel a _) as [o2 ev2] eqn:R. inversion H; subst. apply IH in R; [exact R|exact I|exact O'].
        * destruct fin; [inversion H; subst; exact O'|]. destruct (receive_internal prio D Request false fuel a _) as [o2 ev2] eqn:R. inversion H; subst. apply IH in R; [exact R|exact I|exact O'].
      + cbn [m_state m_set_reader close_pending m_with] in H. destruct fin; inversion H; subst; exact O'.
    - inversion H; subst. exact O.
    - destruct (r_receive (HFRAME prio) r (m_src m)) as [[[[o fin] r'] s']|e|] eqn:RR; try discriminate. unfold r_receive in RR. apply receive_runs in RR. assert (O' : (length (s_chunks s') <= 1)%nat) by (unfold one_run in O; lia). destruct o as [f|].
      + destruct f; cbn [handle_frame handle_headers handle_data handle_promise m_state m_set_reader negb m_with] in H; try discriminate.
      + cbn [m_state m_set_reader close_pending m_with] in H. destruct fin; inversion H; subst; exact O'.
  Qed.
  (** A read that gives less than there is room for leaves nothing to read. *)
  Lemma short_read a : forall fuel m room m' b ev, one_run m -> m_read prio D Request false fuel a m room = (HmModel.Done (m', b, false), ev) ->
    one_run m' /\ ((length b < room)%nat -> forall fuel' room', (0 < fuel')%nat -> m_read prio D Request false fuel' a m' room' = (HmModel.Done (m', [], false), [])).
  Proof.
    induction fuel as [|fuel IH]; intros m room m' b ev O H; [discriminate|]. cbn [m_read] in H.
    destruct (m_state m) as [r|blk fin|r|n|r| | |] eqn:Es; unfold set_closed in H;
      try discriminate; try (inversion H; subst; split; [exact O|]; intros L [|fuel'] room' Lf; [lia|]; cbn [m_read]; rewrite Es; reflexivity).
    destruct (read_data (m_src m) (N.to_nat (N.min n (N.of_nat room)))) as [[[b0 fin]|] s'] eqn:R; [|discriminate]. pose proof (read_runs _ _ _ _ R) as Rr. destruct fin.
    - destruct (0 <? n - lenN b0); inversion H.
    - destruct (N.eqb_spec (n - lenN b0) 0) as [Z|Z].
      + unfold m_receive in H. destruct (receive_internal prio D Request false _ a _) as [[m2|e|] ev2] eqn:R2; try discriminate.
        apply run_receive in R2; [|exact I|unfold one_run in *; cbn [m_with m_src]; lia].
        destruct (m_read prio D Request false fuel a m2 (room - length b0)) as [[[[m3 b3] f3]|e|] ev3] eqn:R3; try discriminate. inversion H; subst.
        destruct (IH _ _ _ _ _ R2 R3) as [A B]. split; [exact A|]. intros L. rewrite app_length in L. apply B. lia.
      + inversion H; subst. split; [unfold one_run in *; cbn [m_src]; lia|]. intros L fuel' room' Lf. destruct fuel' as [|fuel']; [lia|].
        cbn [m_read m_state m_src m_blocked m_k]. unfold read_data in R. destruct (s_over (m_src m)) eqn:Eo; [discriminate|]. unfold one_run in O. destruct (s_chunks (m_src m)) as [|c [|c2 cs]] eqn:Ec; [| |cbn in O; lia].
        * assert (Ef : s_fin (m_src m) = false) by congruence. inversion R; subst. rewrite Ef. unfold read_data. cbn [s_over s_chunks s_fin].
          replace (n - lenN (@nil N) - lenN (@nil N)) with (n - lenN (@nil N)) by (unfold lenN; cbn [length]; lia). rewrite (proj2 (N.eqb_neq _ _) Z). reflexivity.
        * inversion R as [[Eb Ef Es']]. rewrite Eb in *.
          assert (Lb : (length b < N.to_nat (N.min n (N.of_nat room)))%nat). { destruct (Nat.lt_ge_cases (length b) (N.to_nat (N.min n (N.of_nat room)))) as [X|X]; [exact X|]. exfalso. unfold lenN in Z. lia. }
          assert (Sk : skipn (N.to_nat (N.min n (N.of_nat room))) c = []). { apply skipn_all2. rewrite <- Eb, firstn_length in Lb. lia. }
          rewrite Sk in *. cbn [is_nil] in *. rewrite Bool.andb_true_r in Ef. rewrite Ef in *. unfold read_data. cbn [s_over s_chunks s_fin andb].
          replace (n - lenN b - lenN (@nil N)) with (n - lenN b) by (unfold lenN; cbn [length]; lia). rewrite (proj2 (N.eqb_neq _ _) Z). reflexivity.
  Qed.
  Lemma open_read a : forall fuel m room m' b ev, m_read prio D Request false fuel a m room = (HmModel.Done (m', b, false), ev) -> m_state m <> MClosed -> m_state m' <> MClosed.
  Proof.
    induction fuel as [|fuel IH]; intros m room m' b ev H NC; [discriminate|]. cbn [m_read] in H. destruct (m_state m) as [r|blk fin|r|n|r| | |] eqn:Es; try (inversion H; subst; congruence).
    destruct (read_data (m_src m) (N.to_nat (N.min n (N.of_nat room)))) as [[[b0 fin]|] s']; [|discriminate]. destruct fin.
    - destruct (0 <? n - lenN b0); inversion H.
    - destruct (n - lenN b0 =? 0); [|inversion H; subst; cbn [m_state]; congruence].
      unfold m_receive in H. destruct (receive_internal prio D Request false _ a _) as [[m2|e|] ev2] eqn:R; try discriminate. apply quiet_receive in R; [|exact I]. destruct R as [_ P].
      destruct (m_read prio D Request false fuel a m2 (room - length b0)) as [[[[m3 b3] f3]|e|] ev3] eqn:R3; try discriminate. inversion H; subst. apply (IH _ _ _ _ _ R3). intro X. rewrite X in P. exact P.
  Qed.
  Lemma quiet_receive_error a : forall fuel m e ev, past (m_state m) -> receive_internal prio D Request false fuel a m = (HmModel.Error e, ev) -> ev = [].
  Proof.
    induction fuel as [|fuel IH]; intros m e ev P H; [discriminate|]. cbn [receive_internal] in H. destruct (m_state m) as [r|blk fin|r|n|r| | |] eqn:Es; cbn in P; try contradiction; try discriminate.
    - destruct (r_receive (HFRAME prio) r (m_src m)) as [[[[o fin] r'] s']|e1|]; try (inversion H; subst; reflexivity). destruct o as [f|]; [|inversion H; reflexivity].
      destruct f; cbn [handle_frame handle_headers handle_data handle_promise m_state m_set_reader negb m_with] in H; try (inversion H; subst; reflexivity).
      + destruct (0 <? len); [destruct fin; [inversion H; reflexivity|]|]; cbn [m_state m_with] in H.
        * destruct (receive_internal prio D Request false fuel a _) as [o2 ev2] eqn:R. inversion H; subst. apply IH in R; [exact R|exact I].
        * destruct fin; [inversion H|]. destruct (receive_internal prio D Request false fuel a _) as [o2 ev2] eqn:R. inversion H; subst. apply IH in R; [exact R|exact I].
      + destruct fin; [inversion H|]. destruct (receive_internal prio D Request false fuel a _) as [o2 ev2] eqn:R. inversion H; subst. apply IH in R; [exact R|exact I].
    - destruct (r_receive (HFRAME prio) r (m_src m)) as [[[[o fin] r'] s']|e1|]; try (inversion H; subst; reflexivity). destruct o as [f|]; [|inversion H; reflexivity].
      destruct f; cbn [handle_frame handle_headers handle_data handle_promise m_state m_set_reader negb m_with] in H; try (inversion H; subst; reflexivity).
  Qed.
  Lemma quiet_error a : forall fuel m room e ev, m_read prio D Request false fuel a m room = (HmModel.Error e, ev) -> heads_of ev = [] /\ ends_of ev = 0%nat.
  Proof.
    induction fuel as [|fuel IH]; intros m room e ev H; [discriminate|]. cbn [m_read] in H. destruct (m_state m) as [r|blk fin|r|n|r| | |] eqn:Es; try discriminate.
    destruct (read_data (m_src m) (N.to_nat (N.min n (N.of_nat room)))) as [[[b0 fin]|] s']; [|discriminate]. destruct fin.
    - destruct (0 <? n - lenN b0); inversion H. split; reflexivity.
    - destruct (n - lenN b0 =? 0); [|inversion H].
      unfold m_receive in H. destruct (receive_internal prio D Request false _ a _) as [[m2|e2|] ev2] eqn:R; try discriminate.
      + apply quiet_receive in R; [|exact I]. destruct R as [-> _]. destruct (m_read prio D Request false fuel a m2 (room - length b0)) as [[[[m3 b3] f3]|e3|] ev3] eqn:R3; try discriminate. inversion H; subst. exact (IH _ _ _ _ R3).
      + apply quiet_receive_error in R; [|exact I]. inversion H; subst. split; reflexivity.
  Qed.
  (** Reading takes what it gives. *)
  Lemma data_takes s n b f s' : read_data s n = (Some (b, f), s') -> (length (concat (s_chunks s')) + length b <= length (concat (s_chunks s)))%nat.
  Proof.
    unfold read_data. destruct (s_over s); [discriminate|]. destruct (s_chunks s) as [|c cs] eqn:E; intro H; inversion H; subst; cbn [s_chunks concat length]; [lia|].
    pose proof (firstn_skipn n c) as F. apply (f_equal (@length N)) in F. rewrite app_length in F. destruct (is_nil (skipn n c)); cbn [concat]; rewrite !app_length; lia.
  Qed.
  Lemma reader_takes {F} (C : fdec F) : forall fuel r s o fin r' s', receive C fuel r s = HOk (o, fin, r', s') -> (length (concat (s_chunks s')) <= length (concat (s_chunks s)))%nat.
  Proof.
    induction fuel as [|fuel IH]; intros r s o fin r' s' H; [discriminate|]. cbn [receive] in H. destruct (read_data s (Nat.min (r_min r) MAX_READ_SIZE)) as [[[b f]|] s1] eqn:R.
    - apply data_takes in R. destruct (if is_nil b then HOk (None, r) else consume C r b) as [[[fr|] r1]|e|]; try discriminate; [inversion H; subst; lia|].
      destruct f; [destruct (r_in_progress r1); inversion H; subst; lia|]. destruct (is_nil b); [inversion H; subst; lia|]. apply IH in H. lia.
    - unfold read_data in R. destruct (s_over s); [|destruct (s_chunks s); discriminate]. inversion R; subst. inversion H; subst. lia.
  Qed.
  Lemma receive_takes a : forall fuel m m' ev, past (m_state m) -> receive_internal prio D Request false fuel a m = (HmModel.Done m', ev) ->
    (length (concat (s_chunks (m_src m'))) <= length (concat (s_chunks (m_src m))))%nat.
  Proof.
    induction fuel as [|fuel IH]; intros m m' ev P H; [discriminate|]. cbn [receive_internal] in H. destruct (m_state m) as [r|blk fin|r|n|r| | |] eqn:Es; cbn in P; try contradiction; try discriminate.
    - destruct (r_receive (HFRAME prio) r (m_src m)) as [[[[o fin] r'] s']|e|] eqn:RR; try discriminate. unfold r_receive in RR. apply reader_takes in RR. destruct o as [f|].
      + destruct f; cbn [handle_frame handle_headers handle_data handle_promise m_state m_set_reader negb m_with] in H; try discriminate.
        * destruct (0 <? len); [destruct fin; [discriminate|]|]; cbn [m_state m_with] in H.
          -- destruct (receive_internal prio D Request false fuel a _) as [o2 ev2] eqn:R. inversion H; subst. apply IH in R; [cbn [m_src m_with] in R; lia|exact I].
          -- destruct fin; [inversion H; subst; exact RR|]. destruct (receive_internal prio D Request false fuel a _) as [o2 ev2] eqn:R. inversion H; subst. apply IH in R; [cbn [m_src m_with] in R; lia|exact I].
        * destruct fin; [inversion H; subst; exact RR|]. destruct (receive_internal prio D Request false fuel a _) as [o2 ev2] eqn:R. inversion H; subst. apply IH in R; [cbn [m_src m_with] in R; lia|exact I].
      + cbn [m_state m_set_reader close_pending m_with] in H. destruct fin; inversion H; subst; exact RR.
    - inversion H; subst. lia.
    - destruct (r_receive (HFRAME prio) r (m_src m)) as [[[[o fin] r'] s']|e|] eqn:RR; try discriminate. unfold r_receive in RR. apply reader_takes in RR. destruct o as [f|].
      + destruct f; cbn [handle_frame handle_headers handle_data handle_promise m_state m_set_reader negb m_with] in H; try discriminate.
      + cbn [m_state m_set_reader close_pending m_with] in H. destruct fin; inversion H; subst; exact RR.
  Qed.
  Lemma read_takes a : forall fuel m room m' b f ev, m_read prio D Request false fuel a m room = (HmModel.Done (m', b, f), ev) ->
    (length (concat (s_chunks (m_src m'))) + length b <= length (concat (s_chunks (m_src m))))%nat.
  Proof.
    induction fuel as [|fuel IH]; intros m room m' b f ev H; [discriminate|]. cbn [m_read] in H. destruct (m_state m) as [r|blk fin|r|n|r| | |] eqn:Es; try (inversion H; subst; cbn [length m_src m_with set_closed]; lia).
    destruct (read_data (m_src m) (N.to_nat (N.min n (N.of_nat room)))) as [[[b0 fin]|] s'] eqn:R0; [|discriminate]. apply data_takes in R0. destruct fin.
    - destruct (0 <? n - lenN b0); inversion H; subst. cbn [m_src m_with]. exact R0.
    - destruct (n - lenN b0 =? 0); [|inversion H; subst; exact R0].
      unfold m_receive in H. destruct (receive_internal prio D Request false _ a _) as [[m2|e|] ev2] eqn:R; try discriminate. apply receive_takes in R; [|exact I]. cbn [m_src m_with] in R.
      destruct (m_read prio D Request false fuel a m2 (room - length b0)) as [[[[m3 b3] f3]|e|] ev3] eqn:R3; try discriminate. inversion H; subst. apply IH in R3. rewrite app_length. lia.
  Qed.
  Lemma step_inv w x : winv w -> act_ok x -> exists w', w_step w x = Some w' /\ winv w'.
  Proof. intros V A. pose proof (winv_run prio D Request false [x] w V (Forall_cons _ A (Forall_nil _))) as H. cbn [HmSpec.w_run] in H. destruct (w_step w x); [eauto|discriminate]. Qed.

  Lemma prepare_ok a : forall fuel w, winv w -> w_status w = Running -> (length (concat (s_chunks (m_src (w_msg w)))) < fuel)%nat ->
    exists told o n w', prepare prio D fuel a (w_msg w) = (told, o) /\ w_run w (repeat (Reads a PIECE) (S n)) = Some w' /\ winv w' /\
      w_body w' = w_body w ++ concat (map fst told) /\ w_ends w' = (w_ends w + length (filter snd told))%nat /\ w_heads w' = w_heads w /\ w_all w' = w_all w /\
      match o with HmModel.Done m => w_msg w' = m /\ ((exists d, In (d, true) told) <-> w_status w' = Ending) | HmModel.Error e => w_status w' = Broken e | Panicked => False end /\
      (forall d f, In (d, f) told -> (length d <= PIECE)%nat /\ (d = [] -> f = true)) /\
      (forall t1 d t2, told = t1 ++ (d, true) :: t2 -> t2 = []) /\
      (one_run (w_msg w) -> forall m, o = HmModel.Done m -> m_read_data prio D Request false a m PIECE = (HmModel.Done (m, [], false), [])).
  Proof.
    induction fuel as [|fuel IH]; intros w V St Lf; [lia|]. cbn [prepare].
    assert (Ok : act_ok (Reads a PIECE)) by exact I. destruct (step_inv w (Reads a PIECE) V Ok) as (w1 & S1 & V1).
    pose proof V as V0. unfold HmProofs2.winv in V0. rewrite St in V0. destruct V0 as [A N].
    pose proof (mread_ok prio D Request false a (w_all w) (length (concat (s_chunks (m_src (w_msg w)))) + 2) (w_msg w) (w_heads w) (w_body w) (w_ends w) PIECE A ltac:(lia)) as Q.
    unfold HmSpec.w_step in S1. rewrite St in S1. unfold m_read_data in *. set (m := w_msg w) in *.
    destruct (m_read prio D Request false (length (concat (s_chunks (m_src m))) + 2) a m PIECE) as [[[[m' b] f]|e|] ev] eqn:R; [| |contradiction].
    - destruct Q as (_ & _ & Fc & Lb & _). destruct (quiet_read _ _ _ _ _ _ _ _ R) as [Hh He]. unfold w_put in S1. inversion S1 as [W1]. clear S1.
      assert (B1 : w_body w1 = w_body w ++ b) by (rewrite <- W1; reflexivity).
      assert (E1 : w_ends w1 = (w_ends w + (if f then 1 else 0))%nat) by (rewrite <- W1; cbn [w_ends]; rewrite He; lia).
      assert (H1 : w_heads w1 = w_heads w) by (rewrite <- W1; cbn [w_heads]; rewrite Hh, app_nil_r; reflexivity).
      assert (A1 : w_all w1 = w_all w) by (rewrite <- W1; reflexivity). assert (M1 : w_msg w1 = m') by (rewrite <- W1; reflexivity).
      assert (T1 : w_status w1 = match m_state m' with MClosed => Ending | _ => Running end) by (rewrite <- W1; reflexivity).
      assert (Step : w_step w (Reads a PIECE) = Some w1). { unfold HmSpec.w_step. rewrite St. fold m. unfold m_read_data. rewrite R. unfold w_put. rewrite <- W1. reflexivity. }
      destruct f.
      + rewrite !Bool.orb_true_r. exists [(b, true)], (HmModel.Done m'), 0%nat, w1. cbn [repeat HmSpec.w_run map fst concat filter snd length]. rewrite Step, app_nil_r.
        specialize (Fc eq_refl). rewrite Fc in T1. split; [reflexivity|]. split; [reflexivity|]. split; [exact V1|]. split; [exact B1|]. split; [exact E1|]. split; [exact H1|]. split; [exact A1|].
        split; [split; [exact M1|]; split; [intros _; exact T1 | intros _; exists b; left; reflexivity]|]. split; [intros d g [X|[]]; inversion X; subst; auto|].
        split; [intros [|x t1] d t2 X; [inversion X; reflexivity|inversion X; destruct t1; discriminate]|].
        intros _ m0 X. inversion X; subst. rewrite Nat.add_comm. cbn [m_read Nat.add]. rewrite Fc. reflexivity.
      + rewrite !Bool.orb_false_r. assert (NC : m_state m' <> MClosed) by (apply (open_read a _ _ _ _ _ _ R); exact N).
        assert (T2 : w_status w1 = Running) by (rewrite T1; destruct (m_state m'); congruence).
        destruct (Nat.ltb_spec (length b) PIECE) as [Sh|Sh].
        * exists (if 0 <? lenN b then [(b, false)] else []), (HmModel.Done m'), 0%nat, w1. cbn [repeat HmSpec.w_run]. rewrite Step.
          assert (Nf : forall d g, In (d, g) (if 0 <? lenN b then [(b, false)] else []) -> d = b /\ g = false /\ b <> []).
          { intros d g X. destruct (N.ltb_spec 0 (lenN b)) as [Y|Y]; [|destruct X]. destruct X as [X|[]]. inversion X; subst. split; auto. split; auto. intros ->. unfold lenN in Y. cbn in Y. lia. }
          split; [reflexivity|]. split; [reflexivity|]. split; [exact V1|].
          split; [rewrite B1; destruct (N.ltb_spec 0 (lenN b)) as [Y|Y]; cbn [map fst concat]; rewrite ?app_nil_r; [reflexivity|]; destruct b; [rewrite app_nil_r; reflexivity|unfold lenN in Y; cbn [length] in Y; lia]|].
          split; [rewrite E1; destruct (0 <? lenN b); reflexivity|]. split; [exact H1|]. split; [exact A1|].
          split; [split; [exact M1|]; split; [intros [d X]; apply Nf in X; destruct X as (_ & X & _); discriminate | rewrite T2; discriminate]|].
          split; [intros d g X; apply Nf in X; destruct X as (-> & -> & X); split; [exact Lb|congruence]|].
          split; [intros t1 d t2 X; assert (Y : In (d, true) (if 0 <? lenN b then [(b, false)] else [])) by (rewrite X; apply in_or_app; right; left; reflexivity); apply Nf in Y; destruct Y as (_ & Y & _); discriminate|].
          intros O m0 X. inversion X; subst m0. destruct (short_read _ _ _ _ _ _ _ O R) as [_ G]. apply G; [exact Sh|lia].
        * assert (Lt : (length (concat (s_chunks (m_src (w_msg w1)))) < fuel)%nat).
          { rewrite M1. pose proof (read_takes a _ _ _ _ _ _ _ R) as T. fold m in Lf. unfold PIECE in Sh. lia. }
          destruct (IH w1 V1 T2 Lt) as (t & o & n & w2 & P & Rn & V2 & B2 & E2 & H2 & A2 & X2 & C2 & L2 & G2). rewrite M1 in P. rewrite P.
          assert (Pb : 0 <? lenN b = true) by (apply N.ltb_lt; unfold lenN, PIECE in *; lia). rewrite Pb.
          exists ([(b, false)] ++ t), o, (S n), w2. split; [reflexivity|]. split; [change (repeat (Reads a PIECE) (S (S n))) with (Reads a PIECE :: repeat (Reads a PIECE) (S n)); cbn [HmSpec.w_run]; rewrite Step; exact Rn|].
          split; [exact V2|]. split; [rewrite B2, B1; cbn [app map fst concat]; rewrite app_assoc; reflexivity|]. split; [rewrite E2, E1; cbn [app filter snd]; lia|].
          split; [congruence|]. split; [congruence|].
          split; [destruct o as [m2|e|]; [|exact X2|exact X2]; destruct X2 as [X2 X3]; split; [exact X2|]; rewrite <- X3; split; intros [d X]; [destruct X as [X|X]; [inversion X|eauto]|exists d; right; exact X]|].
          split; [intros d g [X|X]; [inversion X; subst; split; [exact Lb|intros ->; cbn in Sh; unfold PIECE in Sh; lia]|exact (C2 d g X)]|].
          split; [intros [|x t1] d t2 X; [inversion X|inversion X; subst; eapply L2; reflexivity]|].
          intros O m0 X. apply G2; [|exact X]. rewrite M1. exact (proj1 (short_read _ _ _ _ _ _ _ O R)).
    - unfold w_put in S1. inversion S1 as [W1]. clear S1.
      assert (He : heads_of ev = [] /\ ends_of ev = 0%nat) by exact (quiet_error a _ _ _ _ _ R). destruct He as [Hh He].
      assert (Step : w_step w (Reads a PIECE) = Some w1). { unfold HmSpec.w_step. rewrite St. fold m. unfold m_read_data. rewrite R. unfold w_put. rewrite <- W1. reflexivity. }
      exists [], (HmModel.Error e), 0%nat, w1. cbn [repeat HmSpec.w_run map fst concat filter length]. rewrite Step. split; [reflexivity|]. split; [reflexivity|]. split; [exact V1|].
      rewrite <- W1. cbn [w_body w_ends w_heads w_all w_status]. rewrite Hh, He, !app_nil_r. split; [reflexivity|]. split; [lia|]. split; [reflexivity|]. split; [reflexivity|]. split; [reflexivity|].
      split; [intros d g []|]. split; [intros [|] ? ? X; discriminate|]. intros _ m0 X. discriminate.
  Qed.
End Run.

(** When a server hears that a request's stream can be read, its application is given exactly the bytes that reading takes, in order, in pieces that
    are not empty and not longer than 1024 bytes, except that the end may come alone; the end is told once, last, and exactly when the message has
    ended; no headers are lost; and unless reading failed, nothing that could be read is left behind. *)
Theorem server_body_told : forall prio D first xs w a, first_ok prio first -> Forall act_ok xs ->
  w_run prio D Request false (w_init first) xs = Some w -> w_status w = Running ->
  exists told o n w', prepare_data prio D a (w_msg w) = (told, o) /\ w_run prio D Request false w (repeat (Reads a 1024) (S n)) = Some w' /\
    w_body w' = w_body w ++ concat (map fst told) /\ w_heads w' = w_heads w /\ w_all w' = w_all w /\
    match o with HmModel.Done m => w_msg w' = m /\ ((exists d, In (d, true) told) <-> w_status w' = Ending) | HmModel.Error e => w_status w' = Broken e | Panicked => False end /\
    (forall d f, In (d, f) told -> (length d <= 1024)%nat /\ (d = [] -> f = true)) /\
    (forall t1 d t2, told = t1 ++ (d, true) :: t2 -> t2 = []) /\
    ((length (s_chunks (m_src (w_msg w))) <= 1)%nat -> forall m, o = HmModel.Done m -> m_read_data prio D Request false a m 1024 = (HmModel.Done (m, [], false), [])).
Proof.
  intros prio D first xs w a Fo Ok R St. pose proof (winv_run prio D Request false xs (w_init first) (winv_init _ _ _ _ _ Fo) Ok) as V. rewrite R in V.
  destruct (prepare_ok prio D a _ w V St (Nat.lt_succ_diag_r _)) as (told & o & n & w' & P & Rn & _ & B & _ & H & A & X & C & L & G).
  exists told, o, n, w'. unfold prepare_data. rewrite P. repeat (split; [assumption || reflexivity|]). exact G.
Qed.
Print Assumptions server_body_told.

(** So what an application was given when it is told the end is the body that the client's bytes spell. *)
Theorem server_body_whole : forall prio D first xs w a told m d, first_ok prio first -> Forall act_ok xs ->
  w_run prio D Request false (w_init first) xs = Some w -> w_status w = Running -> prepare_data prio D a (w_msg w) = (told, HmModel.Done m) -> In (d, true) told ->
  message (h3 prio read_settings) D Request false InHead 0 (w_all w) (w_heads w) (w_body w ++ concat (map fst told)) (Between true).
Proof.
  intros prio D first xs w a told m d Fo Ok R St P I. pose proof (winv_run prio D Request false xs (w_init first) (winv_init _ _ _ _ _ Fo) Ok) as V. rewrite R in V.
  destruct (prepare_ok prio D a _ w V St (Nat.lt_succ_diag_r _)) as (told' & o & n & w' & P' & Rn & V' & B & E & H & A & X & _). unfold prepare_data in P. rewrite P in P'. inversion P'; subst told' o.
  destruct X as [_ X]. assert (St' : w_status w' = Ending) by (apply X; eauto).
  assert (R' : w_run prio D Request false (w_init first) (xs ++ repeat (Reads a PIECE) (S n)) = Some w').
  { clear - R Rn. revert R. generalize (w_init first) as w0. induction xs as [|x xs IH]; intros w0 R; [inversion R; subst; exact Rn|].
    change (x :: xs) with (x :: xs) in *. cbn [HmSpec.w_run app] in *. destruct (w_step prio D Request false w0 x); [apply IH; exact R|discriminate]. }
  assert (Ok' : Forall act_ok (xs ++ repeat (Reads a PIECE) (S n))).
  { apply Forall_app. split; [exact Ok|]. apply Forall_forall. intros y Y. apply repeat_spec in Y. subst y. exact Logic.I. }
  destruct (message_ended prio D Request false first _ w' Fo Ok' R' St') as [_ [[_ M]|[Z _]]].
  - rewrite A, H, B in M. exact M.
  - exfalso. rewrite E in Z. assert (Y : In (d, true) (filter snd told)) by (apply filter_In; auto). destruct (filter snd told); [destruct Y|cbn in Z; lia].
Qed.
Print Assumptions server_body_whole.

Definition hd_D (_ : nat) (b : list N) : section := match b with [200] => SGood false (Some [(str ":method", str "GET"); (str ":scheme", str "https"); (str ":path", str "/")]) | _ => SBad end.
Example server_body_case :
  match w_run ex_prio hd_D Request false (w_init None) [Arrives ([1; 1; 200; 0; 3; 97; 98; 99] ++ [0; 0x44; 0x4c] ++ repeat 7 1100); Finishes; Readable ex_ready] with
  | Some w => w_status w = Running /\ prepare_data ex_prio hd_D ex_ready (w_msg w) = ([([97; 98; 99] ++ repeat 7 1021, false); (repeat 7 79, true)], snd (prepare_data ex_prio hd_D ex_ready (w_msg w)))
  | None => False
  end.
Proof. vm_compute. auto. Qed.
