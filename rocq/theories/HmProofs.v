From Verif Require Import Base Lib CodecModel CodecSpec Reader IncrProofs HfModel HfSpec HfProofs HfProofs2 HhModel HmModel HmSpec.
Open Scope N_scope.
Open Scope list_scope.
Import ListNotations.

Lemma accept_session mt hs hs' i : accept mt hs = Some (hs', i, true) -> i = false.
Proof.
  unfold accept. destruct mt.
  - destruct (headers_valid hs Request); [|discriminate]. intros E. apply some_inj in E. apply pair_equal_spec in E as [E _]. apply pair_equal_spec in E as [_ E]. congruence.
  - destruct (is_interim hs); [|discriminate]. destruct (headers_valid hs Response); [|discriminate]. intros E. apply some_inj in E. apply pair_equal_spec in E as [_ E]. discriminate.
Qed.
Section Main.
  Context (prio : list N -> option priority) (D : nat -> list N -> section) (mt : mtype) (push : bool).
  Notation g := (h3 prio read_settings).
  Notation message := (message g D mt push).
  Notation ri := (receive_internal prio D mt push).
  (** What remains is the message from here on. *)
  Definition carry (all : list N) (heads : list (list header * bool)) (body : list N) (pl : place) (k : nat) (rest : list N) : Prop :=
    forall x hs b f, message pl k (rest ++ x) hs b f -> message InHead 0 (all ++ x) (heads ++ hs) (body ++ b) f.
  Lemma carry_step all heads body pl k rest h0 b0 pl' k' rest' : carry all heads body pl k rest ->
    (forall x hs b f, message pl' k' (rest' ++ x) hs b f -> message pl k (rest ++ x) (h0 ++ hs) (b0 ++ b) f) ->
    carry all (heads ++ h0) (body ++ b0) pl' k' rest'.
  Proof. intros C S x hs b f M. rewrite <- !app_assoc. apply C. apply S. exact M. Qed.
  Lemma carry_same all heads body pl k rest pl' k' rest' : carry all heads body pl k rest ->
    (forall x hs b f, message pl' k' (rest' ++ x) hs b f -> message pl k (rest ++ x) hs b f) -> carry all heads body pl' k' rest'.
  Proof. intros C S x hs b f M. apply C. apply S. exact M. Qed.
  Definition done (all : list N) (heads : list (list header * bool)) (body : list N) : Prop := message InHead 0 all heads body (Between true).
  Definition session (all : list N) (heads : list (list header * bool)) (body : list N) : Prop := forall x, message InHead 0 (all ++ x) heads body Session.
  Definition place_of (st : mstate) : place := match st with MHead _ => InHead | MData _ => InBody | MTrail _ => InTrail | MDecoding b _ => InSection b | MReading n => InData n | _ => InBody end.
  Definition at_ (all : list N) (heads : list (list header * bool)) (body : list N) (ends : nat) (m : msg) : Prop :=
    let s := m_src m in
    src_ok s /\ (push = false -> m_blocked m = []) /\
    match m_state m with
    | MHead r | MData r | MTrail r => ends = 0%nat /\ s_over s = false /\ exists p, rel g r p /\ bytes_ok p /\ carry all heads body (place_of (m_state m)) (m_k m) (p ++ concat (s_chunks s))
    | MDecoding b fin => ends = 0%nat /\ fin = s_over s /\ carry all heads body (InSection b) (m_k m) (concat (s_chunks s))
    | MReading n => ends = 0%nat /\ s_over s = false /\ 0 < n /\ carry all heads body (InData n) (m_k m) (concat (s_chunks s))
    | MPending => ends = 0%nat /\ s_over s = true /\ done all heads body
    | MClosed => s_fin s = true /\ ((ends = 1%nat /\ done all heads body) \/ (ends = 0%nat /\ session all heads body))
    | MConnect => ends = 0%nat /\ session all heads body
    end.
  (** Why an error was reported. *)
  Definition bad (all : list N) (fin : bool) (heads : list (list header * bool)) (body : list N) (e : merr) : Prop :=
    (push = true /\ (e = EPush \/ e = EQpack)) \/ exists hs b,
      (forall x, message InHead 0 (all ++ x) (heads ++ hs) (body ++ b) (Wrong e)) \/
      (fin = true /\ ((e = EFrame HttpFrame /\ message InHead 0 all (heads ++ hs) (body ++ b) Inside) \/ (e = EGeneral /\ message InHead 0 all (heads ++ hs) (body ++ b) (Between false)))).
  Lemma bad_wrong all fin heads body pl k rest e : carry all heads body pl k rest -> (forall x, message pl k (rest ++ x) [] [] (Wrong e)) -> bad all fin heads body e.
  Proof. intros C W. right. exists [], []. left. intros x. apply C. apply W. Qed.
  Lemma carry_now all heads body pl k rest hs b f : carry all heads body pl k rest -> message pl k rest hs b f -> message InHead 0 all (heads ++ hs) (body ++ b) f.
  Proof. intros C W. specialize (C [] hs b f). rewrite !app_nil_r in C. apply C. exact W. Qed.
  Lemma carry_done all heads body pl k : carry all heads body pl k [] -> framed pl -> message InHead 0 all heads body (Between (may_end pl)).
  Proof.
    intros C F. assert (message pl k [] [] [] (Between (may_end pl))) by (apply g_nothing; [exact F|constructor]).
    pose proof (carry_now _ _ _ _ _ _ _ _ _ C H) as R. rewrite !app_nil_r in R. exact R.
  Qed.
  Lemma rel_new : rel g r_new [].
  Proof. reflexivity. Qed.
  Definition framed_st (st : mstate) : Prop := match st with MHead _ | MData _ | MTrail _ => True | _ => False end.
  Lemma framed_place st : framed_st st -> framed (place_of st).
  Proof. destruct st; cbn; tauto. Qed.
  Definition mu (m : msg) : nat := (2 * length (concat (s_chunks (m_src m))) + match m_state m with MDecoding _ _ => 2 | _ => 1 end)%nat.

  (** A frame. *)
  Lemma frame_ok a m all heads body f fin : src_ok (m_src m) -> (push = false -> m_blocked m = []) -> framed_st (m_state m) -> fin = s_over (m_src m) ->
    (forall r, m_reader (m_state m) = Some r -> rel g r []) ->
    forall bs, carry all heads body (place_of (m_state m)) (m_k m) bs -> (forall x, next g (bs ++ x) (Frame f (concat (s_chunks (m_src m)) ++ x))) ->
    match handle_frame push a m f fin with
    | (Done m2, ev) => m_src m2 = m_src m /\ m_k m2 = m_k m /\ heads_of ev = [] /\ ends_of ev = 0%nat /\ (push = false -> m_blocked m2 = []) /\
        carry all heads body (place_of (m_state m2)) (m_k m) (concat (s_chunks (m_src m))) /\
        match m_state m2 with
        | MHead r | MData r | MTrail r => rel g r []
        | MDecoding b fin' => fin' = fin
        | MReading n => fin = false /\ 0 < n
        | _ => False
        end
    | (Error e, ev) => bad all (s_fin (m_src m)) heads body e /\ heads_of ev = [] /\ ends_of ev = 0%nat
    | (Panicked, _) => False
    end.
  Proof.
    intros S B F Ef Rr bs C Nx. assert (Pl := framed_place _ F). set (rest := concat (s_chunks (m_src m))) in *.
    assert (Bad : forall e, (forall x, message (place_of (m_state m)) (m_k m) (bs ++ x) [] [] (Wrong e)) -> bad all (s_fin (m_src m)) heads body e).
    { intros e W. eapply bad_wrong; eauto. }
    unfold handle_frame. destruct f as [n|b|id|st|id b|id|id| |id p|id p]; try (splits; auto; apply Bad; intros x; eapply g_other; [exact Pl|apply Nx|exact I]).
    - (* DATA *)
      unfold handle_data. destruct (m_state m) as [r|? ?|r|?|r| | |] eqn:Es; try contradiction; cbn [place_of] in *.
      + splits; auto. apply Bad. intros x. eapply g_early; [left; reflexivity|apply Nx].
      + destruct (N.ltb_spec 0 n).
        * destruct fin eqn:Efin.
          -- splits; auto. right. exists [], []. right. symmetry in Ef. destruct S as (_ & _ & V). destruct (V Ef) as [V1 V2]. split; [exact V1|]. left. split; [reflexivity|].
             assert (rest = []) as Er by (unfold rest; rewrite V2; reflexivity). eapply carry_now; [exact C|]. rewrite <- (app_nil_r bs). eapply g_data; [apply Nx|]. rewrite app_nil_r, Er. apply g_short. cbn. lia.
          -- cbn [m_with m_src m_state m_k m_blocked]. splits; auto. cbn [place_of]. eapply carry_same; [exact C|]. intros x hs b ft M. eapply g_data; [apply Nx|exact M].
        * splits; auto.
          -- rewrite Es. cbn [place_of]. eapply carry_same; [exact C|]. intros x hs b ft M. eapply g_data; [apply Nx|]. change (rest ++ x) with ([] ++ rest ++ x). change b with ([] ++ b). apply g_payload; [cbn; lia|exact M].
          -- rewrite Es. apply Rr. reflexivity.
      + splits; auto. apply Bad. intros x. eapply g_early; [right; reflexivity|apply Nx].
    - (* HEADERS *)
      unfold handle_headers. destruct (m_state m) as [r|? ?|r|?|r| | |] eqn:Es; try contradiction; cbn [place_of] in *.
      + destruct b as [|b0 b].
        * splits; auto. apply Bad. intros x. eapply g_empty. apply Nx.
        * cbn [m_with m_src m_state m_k m_blocked]. splits; auto. cbn [place_of]. eapply carry_same; [exact C|]. intros x hs b' ft M. eapply g_head; [apply Nx|discriminate|exact M].
      + cbn [m_with m_src m_state m_k m_blocked]. splits; auto; [|apply rel_new]. cbn [place_of]. eapply carry_same; [exact C|]. intros x hs b' ft M. eapply g_trailers; [apply Nx|exact M].
      + splits; auto. apply Bad. intros x. eapply g_more. apply Nx.
    - (* PUSH_PROMISE *)
      unfold handle_promise. destruct (Bool.bool_dec push true) as [Ep|Ep].
      2: { apply Bool.not_true_is_false in Ep. replace (negb push) with true by (rewrite Ep; reflexivity). splits; auto. apply Bad. intros x. eapply g_no_push; [exact Pl|exact Ep|apply Nx]. }
      replace (negb push) with false by (rewrite Ep; reflexivity).
      assert (C' : carry all heads body (place_of (m_state m)) (m_k m) rest).
      { eapply carry_same; [exact C|]. intros x hs b' ft M. eapply g_promise; [exact Pl|exact Ep|apply Nx|exact M]. }
      assert (K : match m_state m with MHead r | MData r | MTrail r => rel g r [] | MDecoding _ fin' => fin' = fin | MReading n => fin = false /\ 0 < n | _ => False end).
      { destruct (m_state m); try contradiction; apply Rr; reflexivity. }
      destruct (is_nil (m_blocked m)).
      + destruct (a_promise a b); cbn [m_src m_state m_k m_blocked]; splits; auto; try congruence; left; auto.
      + cbn [m_src m_state m_k m_blocked]; splits; auto; congruence.
  Qed.
  Lemma heads_of_app a b : heads_of (a ++ b) = heads_of a ++ heads_of b.
  Proof. unfold heads_of. rewrite map_app, concat_app. reflexivity. Qed.
  Lemma ends_of_app a b : ends_of (a ++ b) = (ends_of a + ends_of b)%nat.
  Proof. unfold ends_of. rewrite filter_app, app_length. reflexivity. Qed.
  Lemma pending_ok all heads body m : src_ok (m_src m) -> (push = false -> m_blocked m = []) -> s_over (m_src m) = true -> s_fin (m_src m) = true ->
    framed_st (m_state m) -> carry all heads body (place_of (m_state m)) (m_k m) [] ->
    match close_pending m with
    | Done m' => at_ all heads body 0 m' /\ m_src m' = m_src m /\ m_state m' = MPending
    | Error e => bad all (s_fin (m_src m)) heads body e
    | Panicked => False
    end.
  Proof.
    intros S B V Fi F C. pose proof (carry_done _ _ _ _ _ C (framed_place _ F)) as Dn. unfold close_pending. destruct (m_state m); try contradiction; cbn [place_of may_end] in Dn.
    - right. exists [], []. right. split; [exact Fi|]. right. rewrite !app_nil_r. auto.
    - unfold at_, m_with. cbn [m_src m_state m_blocked m_k]. splits; auto.
    - unfold at_, m_with. cbn [m_src m_state m_blocked m_k]. splits; auto.
  Qed.
  Lemma message_next pl k b1 b2 hs b f : framed pl -> (forall st, next g b1 st -> next g b2 st) -> message pl k b1 hs b f -> message pl k b2 hs b f.
  Proof.
    intros F T M. destruct M; try contradiction F.
    - apply g_nothing; auto.
    - apply g_partial; auto.
    - apply g_fail; auto.
    - eapply g_empty; eauto.
    - eapply g_head; eauto.
    - eapply g_trailers; eauto.
    - eapply g_more; eauto.
    - eapply g_early; eauto.
    - eapply g_data; eauto.
    - eapply g_promise; eauto.
    - eapply g_no_push; eauto.
    - eapply g_other; eauto.
  Qed.
  Lemma ri_framed fuel a m r : m_reader (m_state m) = Some r -> ri (Datatypes.S fuel) a m =
    match r_receive (HFRAME prio) r (m_src m) with
    | HPanic => (Panicked, [])
    | HErr e => (Error (EFrame e), [])
    | HOk (o, fin, r', s') =>
        let m1 := mkMsg (m_set_reader (m_state m) r') s' (m_blocked m) (m_k m) in
        match o with
        | None => (if fin then close_pending m1 else Done m1, [])
        | Some f =>
            match handle_frame push a m1 f fin with
            | (Done m2, ev) =>
                match m_state m2 with
                | MDecoding _ _ => let '(o2, ev2) := ri fuel a m2 in (o2, ev ++ ev2)
                | _ => if fin then (close_pending m2, ev) else let '(o2, ev2) := ri fuel a m2 in (o2, ev ++ ev2)
                end
            | bad => bad
            end
        end
    end.
  Proof. destruct m as [st s bl k]. cbn [m_state]. destruct st; cbn [m_reader]; intros E; try discriminate; injection E as ->; reflexivity. Qed.
  Lemma ri_ok a all : forall fuel m heads body ends, at_ all heads body ends m -> m_state m <> MPending -> m_state m <> MClosed -> (mu m <= fuel)%nat ->
    match ri fuel a m with
    | (Done m', ev) => at_ all (heads ++ heads_of ev) body (ends + ends_of ev) m' /\ s_fin (m_src m') = s_fin (m_src m) /\
        (length (concat (s_chunks (m_src m'))) <= length (concat (s_chunks (m_src m))))%nat /\
        (push = false -> (forall k, a_ready a k = true) -> s_fin (m_src m) = true -> match m_state m' with MReading _ | MPending | MClosed | MConnect => True | _ => False end)
    | (Error e, ev) => bad all (s_fin (m_src m)) (heads ++ heads_of ev) body e
    | (Panicked, _) => False
    end.
  Proof.
    induction fuel as [|fuel IH]; intros m heads body ends At Np Nc Mu; [unfold mu in Mu; destruct (m_state m); lia|].
    assert (Fr : framed_st (m_state m) \/ (exists b fin, m_state m = MDecoding b fin) \/ (exists n, m_state m = MReading n) \/ m_state m = MConnect).
    { destruct (m_state m); cbn; eauto; congruence. }
    destruct Fr as [Fr|Fr].
    { (* frames *)
      destruct At as (S & B & At).
      assert (At' : ends = 0%nat /\ s_over (m_src m) = false /\ exists r p, m_reader (m_state m) = Some r /\ rel g r p /\ bytes_ok p /\ carry all heads body (place_of (m_state m)) (m_k m) (p ++ concat (s_chunks (m_src m)))).
      { destruct (m_state m) as [r| |r| |r| | |]; try contradiction; destruct At as (A1 & A2 & p & A3 & A4 & A5); splits; auto; exists r, p; splits; auto. }
      clear At. destruct At' as (-> & V & r & p & Er & R & Op & C). rewrite (ri_framed fuel a m r Er).
      pose proof (receive_ok (HFRAME prio) g (HFRAME_agrees prio) (2 + length (concat (s_chunks (m_src m)))) r (m_src m) p R Op S V ltac:(lia)) as RO. cbn zeta in RO.
      change (receive (HFRAME prio) (2 + length (concat (s_chunks (m_src m)))) r (m_src m)) with (r_receive (HFRAME prio) r (m_src m)) in RO.
      assert (Pl := framed_place _ Fr).
      destruct (r_receive (HFRAME prio) r (m_src m)) as [[[[[f|] fin] r'] s']|e|]; [| | |contradiction].
      - (* a frame *)
        destruct RO as (R' & S' & Ef & Eo & Lt & Nx). cbn zeta. set (m1 := mkMsg (m_set_reader (m_state m) r') s' (m_blocked m) (m_k m)).
        assert (P1 : place_of (m_state m1) = place_of (m_state m)) by (unfold m1; cbn [m_state]; destruct (m_state m); try contradiction; reflexivity).
        assert (F1 : framed_st (m_state m1)) by (unfold m1; cbn [m_state]; destruct (m_state m); try contradiction; exact I).
        assert (R1 : forall r0, m_reader (m_state m1) = Some r0 -> rel g r0 []).
        { unfold m1. cbn [m_state]. intros r0 E. assert (r0 = r') as -> by (destruct (m_state m); cbn in E; congruence). exact R'. }
        pose proof (frame_ok a m1 all heads body f fin S' B F1 Eo R1 (p ++ concat (s_chunks (m_src m)))) as FO. rewrite P1 in FO. specialize (FO C).
        assert (Nx' : forall x, next g ((p ++ concat (s_chunks (m_src m))) ++ x) (Frame f (concat (s_chunks (m_src m1)) ++ x))) by (intros x; apply Nx).
        specialize (FO Nx'). clear Nx'. destruct (handle_frame push a m1 f fin) as [[m2|e|] ev]; [| |contradiction].
        2: { destruct FO as (FB & FH & FE). rewrite FH, app_nil_r. cbn [m_src m1] in FB. rewrite Ef in FB. exact FB. }
        destruct FO as (G1 & G2 & G3 & G4 & G5 & G6 & G7). change (m_src m1) with s' in *. change (m_k m1) with (m_k m) in *.
        (* the rest of the loop *)
        assert (Loop : fin = false \/ (exists b, m_state m2 = MDecoding b fin) ->
          match (let '(o2, ev2) := ri fuel a m2 in (o2, ev ++ ev2)) with
          | (Done m', ev) => at_ all (heads ++ heads_of ev) body (0 + ends_of ev) m' /\ s_fin (m_src m') = s_fin (m_src m) /\ (length (concat (s_chunks (m_src m'))) <= length (concat (s_chunks (m_src m))))%nat /\
             (push = false -> (forall k, a_ready a k = true) -> s_fin (m_src m) = true -> match m_state m' with MReading _ | MPending | MClosed | MConnect => True | _ => False end)
          | (Error e, ev) => bad all (s_fin (m_src m)) (heads ++ heads_of ev) body e
          | (Panicked, _) => False
          end).
        { intros Hf. specialize (IH m2 heads body 0%nat).
          assert (At2 : at_ all heads body 0 m2).
          { unfold at_. rewrite G1, G2. splits; auto. destruct (m_state m2) as [r2|b2 fin2|r2|n2|r2| | |] eqn:E2; try contradiction.
            - destruct Hf as [->|[b Hb]]; [|discriminate]. splits; auto. exists []. splits; auto. constructor.
            - splits; auto. congruence.
            - destruct Hf as [->|[b Hb]]; [|discriminate]. splits; auto. exists []. splits; auto. constructor.
            - destruct G7 as [G7 G8]. splits; auto. congruence.
            - destruct Hf as [->|[b Hb]]; [|discriminate]. splits; auto. exists []. splits; auto. constructor. }
          assert (Mu2 : (mu m2 <= fuel)%nat). { unfold mu in *. rewrite G1. destruct (m_state m); try contradiction; destruct (m_state m2); lia. }
          specialize (IH At2 ltac:(intros Z; rewrite Z in G7; exact G7) ltac:(intros Z; rewrite Z in G7; exact G7) Mu2).
          destruct (ri fuel a m2) as [[m'|e|] ev2]; [| |contradiction]; rewrite heads_of_app, G3; cbn [app].
          - destruct IH as (I1 & I2 & I3 & I4). rewrite ends_of_app, G4. rewrite G1 in *. splits; auto; [congruence|lia|]. intros Q1 Q2 Q3. apply I4; auto. congruence.
          - rewrite G1, Ef in IH. exact IH. }
        assert (Pend : fin = true -> framed_st (m_state m2) -> match (close_pending m2, ev) with
          | (Done m', ev) => at_ all (heads ++ heads_of ev) body (0 + ends_of ev) m' /\ s_fin (m_src m') = s_fin (m_src m) /\ (length (concat (s_chunks (m_src m'))) <= length (concat (s_chunks (m_src m))))%nat /\
             (push = false -> (forall k, a_ready a k = true) -> s_fin (m_src m) = true -> match m_state m' with MReading _ | MPending | MClosed | MConnect => True | _ => False end)
          | (Error e, ev) => bad all (s_fin (m_src m)) (heads ++ heads_of ev) body e
          | (Panicked, _) => False
          end).
        { intros -> F2. destruct S' as (S1 & S2 & SV). destruct (SV (eq_sym Eo)) as [V1 V2].
          assert (PO := pending_ok all heads body m2). rewrite G1, G2 in PO. specialize (PO ltac:(unfold src_ok; auto) G5 (eq_sym Eo) V1 F2).
          rewrite V2 in G6. specialize (PO G6). rewrite G3, G4, app_nil_r. cbn [Nat.add]. destruct (close_pending m2) as [m'|e|]; [| |contradiction].
          - destruct PO as (O1 & O2 & O3). rewrite O2, O3. splits; auto; lia.
          - rewrite <- Ef. exact PO. }
        destruct (m_state m2) as [r2|b2 fin2|r2|n2|r2| | |] eqn:E2; try contradiction; try (destruct fin; [apply Pend; [reflexivity|exact I]|apply Loop; auto]).
        + apply Loop. right. subst fin2. eauto.
        + destruct G7 as [-> G7]. apply Loop. auto.
      - (* no frame *)
        destruct RO as (E0 & S' & Ef' & Eo & Efin & p' & R' & Op' & Pn & Tr). cbn zeta. cbn [heads_of ends_of map concat filter length]. rewrite app_nil_r. cbn [Nat.add].
        assert (Cc : carry all heads body (place_of (m_state m)) (m_k m) p').
        { eapply carry_same; [exact C|]. intros x hs b ft M. eapply message_next; [exact Pl| |exact M]. intros st. apply Tr. }
        set (m1 := mkMsg (m_set_reader (m_state m) r') s' (m_blocked m) (m_k m)).
        assert (P1 : place_of (m_state m1) = place_of (m_state m)) by (unfold m1; cbn [m_state]; destruct (m_state m); try contradiction; reflexivity).
        assert (F1 : framed_st (m_state m1)) by (unfold m1; cbn [m_state]; destruct (m_state m); try contradiction; exact I).
        destruct fin.
        + rewrite (Pn eq_refl) in Cc. rewrite <- P1 in Cc. pose proof (pending_ok all heads body m1 S' B (eq_sym Eo) ltac:(cbn [m1 m_src]; congruence) F1 Cc) as PO.
          destruct (close_pending m1) as [m'|e|]; [| |contradiction].
          * destruct PO as (O1 & O2 & O3). rewrite O2, O3. cbn [m1 m_src]. splits; auto. rewrite E0. cbn. lia.
          * cbn [m1 m_src] in PO. rewrite Ef' in PO. exact PO.
        + split; [|cbn [m1 m_src]; rewrite E0; splits; auto; [cbn; lia|congruence]].
          unfold at_. cbn [m1 m_src m_blocked m_k m_state]. splits; auto.
          destruct (m_state m); try contradiction; cbn [m_set_reader place_of] in *; splits; auto; exists p'; rewrite E0, app_nil_r; splits; auto.
      - destruct RO as [W|(-> & Fi & Pa)]; cbn [heads_of map concat]; rewrite app_nil_r.
        + eapply bad_wrong; [exact C|]. intros x. apply g_fail; [exact Pl|apply W].
        + right. exists [], []. right. split; [exact Fi|]. left. split; [reflexivity|]. eapply carry_now; [exact C|]. apply g_partial; [exact Pl|exact Pa]. }
    destruct At as (S & B & At). cbn [receive_internal].
    destruct Fr as [(blk & fin & Es)|[[n Es]|Es]]; rewrite Es in At |- *.
    { (* decoding *)
      destruct At as (-> & Ef & C). destruct (D (m_k m) blk) as [|dyn hs] eqn:Ed.
      { cbn [heads_of map concat]; rewrite app_nil_r; eapply bad_wrong; [exact C|]. intros x. apply g_qpack. left. exact Ed. }
      destruct (dyn && negb (is_nil (m_blocked m))) eqn:Ew.
      { cbn [heads_of ends_of map concat filter length]. rewrite app_nil_r. split; [unfold at_; rewrite Es; splits; auto|]. splits; auto. intros Hp. rewrite (B Hp) in Ew. cbn in Ew. rewrite Bool.andb_false_r in Ew. discriminate. }
      destruct (a_ready a (m_k m)) eqn:Er; cbn [negb].
      2: { cbn [heads_of ends_of map concat filter length]. rewrite app_nil_r. split; [unfold at_; rewrite Es; splits; auto|]. splits; auto. intros _ Z _. rewrite Z in Er. discriminate. }
      destruct hs as [hs|].
      2: { cbn [heads_of map concat]; rewrite app_nil_r; eapply bad_wrong; [exact C|]. intros x. apply g_qpack. right. exists dyn. exact Ed. }
      unfold add_headers. destruct (accept mt hs) as [[[hs' interim] sess]|] eqn:Ea.
      2: { cbn [heads_of map concat]; rewrite app_nil_r; eapply bad_wrong; [exact C|]. intros x. eapply g_malformed; eauto. }
      destruct (fin && interim) eqn:Efi.
      { apply Bool.andb_true_iff in Efi as [-> ->]. destruct S as (S1 & S2 & V). destruct (V (eq_sym Ef)) as [V1 V2]. rewrite V2 in C.
        destruct sess.
        - apply accept_session in Ea. discriminate.
        - right. exists [(hs', true)], []. right. split; [exact V1|]. right. split; [reflexivity|]. cbn [concat heads_of map]. rewrite app_nil_r, (app_nil_r body).
          pose proof (carry_now _ _ _ _ _ _ [(hs', true)] [] (Between false) C) as R. rewrite app_nil_r in R. apply R.
          eapply g_interim; eauto. change false with (may_end InHead). apply g_nothing; [exact I|constructor]. }
      destruct fin.
      { (* with the end *)
        cbn [andb] in Efi. subst interim. unfold set_closed, m_with. cbn [m_state m_src m_k m_blocked]. destruct S as (S1 & S2 & V). destruct (V (eq_sym Ef)) as [V1 V2].
        assert (C2 := C). rewrite V2 in C2. split; [|splits; auto]. unfold at_. cbn [m_state m_src m_k m_blocked]. splits; auto; [unfold src_ok; auto|].
        destruct sess; cbn [heads_of ends_of map concat filter length app].
        - right. split; [reflexivity|]. intros x. rewrite <- (app_nil_r body). apply C. eapply g_session; eauto.
        - left. split; [reflexivity|]. unfold done. rewrite <- (app_nil_r body). eapply carry_now; [exact C2|]. eapply g_final; eauto. change true with (may_end InBody). apply g_nothing; [exact I|constructor]. }
      cbn [andb] in Efi. destruct sess.
      { unfold m_with. cbn [m_state m_src m_k m_blocked heads_of ends_of map concat filter length app]. assert (interim = false) as -> by (eapply accept_session; eauto).
        split; [|splits; auto]. unfold at_. cbn [m_state m_src m_k m_blocked]. splits; auto. intros x. rewrite <- (app_nil_r body). apply C. eapply g_session; eauto. }
      assert (Next : forall st, (interim = true /\ st = MHead r_new) \/ (interim = false /\ st = MData r_new) ->
        match (let '(o2, ev2) := ri fuel a (mkMsg st (m_src m) (m_blocked m) (Datatypes.S (m_k m))) in (o2, [VHeaders hs' interim false] ++ ev2)) with
        | (Done m', ev) => at_ all (heads ++ heads_of ev) body (0 + ends_of ev) m' /\ s_fin (m_src m') = s_fin (m_src m) /\ (length (concat (s_chunks (m_src m'))) <= length (concat (s_chunks (m_src m))))%nat /\
           (push = false -> (forall k, a_ready a k = true) -> s_fin (m_src m) = true -> match m_state m' with MReading _ | MPending | MClosed | MConnect => True | _ => False end)
        | (Error e, ev) => bad all (s_fin (m_src m)) (heads ++ heads_of ev) body e
        | (Panicked, _) => False
        end).
      { intros st Hst. specialize (IH (mkMsg st (m_src m) (m_blocked m) (Datatypes.S (m_k m))) (heads ++ [(hs', interim)]) body 0%nat). cbn [m_state m_src m_k m_blocked] in IH.
        assert (At2 : at_ all (heads ++ [(hs', interim)]) body 0 (mkMsg st (m_src m) (m_blocked m) (Datatypes.S (m_k m)))).
        { unfold at_. cbn [m_state m_src m_k m_blocked]. splits; auto. destruct Hst as [[-> ->]|[-> ->]].
          - splits; auto. exists []. splits; auto; [apply rel_new|constructor|]. cbn [place_of app]. rewrite <- (app_nil_r body). eapply carry_step; [exact C|]. intros x hs2 b2 f2 M. cbn [app]. eapply g_interim; eauto.
          - splits; auto. exists []. splits; auto; [apply rel_new|constructor|]. cbn [place_of app]. rewrite <- (app_nil_r body). eapply carry_step; [exact C|]. intros x hs2 b2 f2 M. cbn [app]. eapply g_final; eauto. }
        specialize (IH At2). assert (Mu2 : (mu (mkMsg st (m_src m) (m_blocked m) (Datatypes.S (m_k m))) <= fuel)%nat).
        { unfold mu in *. rewrite Es in Mu. cbn [m_state m_src]. destruct Hst as [[_ ->]|[_ ->]]; lia. }
        specialize (IH ltac:(destruct Hst as [[_ ->]|[_ ->]]; discriminate) ltac:(destruct Hst as [[_ ->]|[_ ->]]; discriminate) Mu2).
        destruct (ri fuel a (mkMsg st (m_src m) (m_blocked m) (Datatypes.S (m_k m)))) as [[m'|e|] ev2]; [|..|contradiction]; rewrite heads_of_app, ?ends_of_app, app_assoc; exact IH. }
      unfold m_with. cbn [m_state m_src m_k m_blocked]. destruct interim; apply Next; auto. }
    all: cbn [heads_of ends_of map concat filter length]; rewrite app_nil_r, Nat.add_0_r; split; [unfold at_; rewrite Es; split; [exact S|split; [exact B|exact At]]|split; [reflexivity|split; [lia|intros; rewrite Es; exact I]]].
  Qed.
End Main.
