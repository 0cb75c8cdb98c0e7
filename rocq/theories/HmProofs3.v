From Verif Require Import Base Lib CodecModel CodecSpec Reader IncrProofs HfModel HfSpec HfProofs HfProofs2 HhModel HmModel HmSpec HmProofs HmProofs2.
Open Scope N_scope.
Open Scope list_scope.
Import ListNotations.
Section Main.
  Context (prio : list N -> option priority) (D : nat -> list N -> section) (mt : mtype) (push : bool).
  Notation g := (h3 prio read_settings).
  Notation message := (message g D mt push).
  Notation carry := (carry prio D mt push).
  Notation at_ := (at_ prio D mt push).
  Notation bad := (bad prio D mt push).
  Notation done := (done prio D mt push).
  Notation session := (session prio D mt push).
  Notation winv := (winv prio D mt push).
  Ltac same_next := repeat match goal with
    | A : next g ?b _, B : next g ?b _ |- _ => pose proof (next_det g _ _ A _ B) as Q0; clear B; try discriminate Q0; injection Q0; clear Q0; intros; subst
    end.
  Lemma message_det pl k bs h1 b1 f1 : message pl k bs h1 b1 f1 -> forall h2 b2 f2, message pl k bs h2 b2 f2 -> h1 = h2 /\ b1 = b2 /\ f1 = f2.
  Proof.
    induction 1; intros h2 b2 f2 Q2; inversion Q2; subst; try (cbn [framed] in *; contradiction); try discriminate; same_next; auto; try congruence;
      try (match goal with A : _ \/ _ |- _ => destruct A; discriminate || (subst; cbn [framed] in *; try contradiction) end; auto; fail);
      try (match goal with A : False |- _ => destruct A end).
    all: try (match goal with IH : forall h2 b2 f2, HmSpec.message _ _ _ _ _ _ _ h2 b2 f2 -> _, B : HmSpec.message _ _ _ _ _ _ _ _ _ _ |- _ => destruct (IH _ _ _ B) as (? & ? & ?); subst; auto end; fail).
    all: try (repeat match goal with A : D _ _ = SBad \/ _ |- _ => destruct A as [A|[? A]] | A : exists _, _ |- _ => destruct A end; congruence).
    all: try (repeat match goal with A : D ?a ?b = _, B : D ?a ?b = _ |- _ => rewrite A in B; try discriminate B; injection B; clear B; intros; subst end;
      repeat match goal with A : accept ?a ?b = _, B : accept ?a ?b = _ |- _ => rewrite A in B; apply some_inj in B; apply pair_equal_spec in B as [B ?]; apply pair_equal_spec in B as [? ?]; subst; try discriminate end;
      try (match goal with IH : forall h2 b2 f2, HmSpec.message _ _ _ _ _ _ _ h2 b2 f2 -> _, B : HmSpec.message _ _ _ _ _ _ _ _ _ _ |- _ => destruct (IH _ _ _ B) as (? & ? & ?); subst; auto end); auto; fail).
    all: try (match goal with A : _ ++ _ = _ ++ _ |- _ => apply split_eq in A; [destruct A; subst|congruence] end;
      match goal with IH : forall h2 b2 f2, HmSpec.message _ _ _ _ _ _ _ h2 b2 f2 -> _, B : HmSpec.message _ _ _ _ _ _ _ _ _ _ |- _ => destruct (IH _ _ _ B) as (? & ? & ?); subst; auto end; fail).
    all: try (rewrite lenN_app in *; lia).
    all: exfalso; match goal with A : InSection _ = _ \/ _ |- _ => destruct A; discriminate end.
  Qed.
  Definition weight (pl : place) : nat := match pl with InSection _ | InData _ => 1 | _ => 0 end.
  Lemma message_total : forall n pl k bs, (2 * length bs + weight pl < n)%nat -> exists hs b f, message pl k bs hs b f.
  Proof.
    induction n as [|n IH]; intros pl k bs L; [lia|].
    assert (Fr : framed pl -> exists hs b f, message pl k bs hs b f).
    { intros F. destruct (next_total g (Datatypes.S (length bs)) bs ltac:(lia)) as (s & Ns). destruct s as [| |f rest|e].
      - do 3 eexists. apply g_nothing; eauto.
      - do 3 eexists. apply g_partial; eauto.
      - pose proof (next_shorter g _ _ Ns _ _ eq_refl) as Sh.
        assert (Go : forall pl' k', exists hs b f, message pl' k' rest hs b f) by (intros pl' k'; apply IH; unfold weight; destruct pl'; lia).
        destruct f as [m|b|id|st|id b|id|id| |id p|id p]; try (do 3 eexists; eapply g_other; eauto; exact I).
        + destruct pl; try contradiction F; try (do 3 eexists; eapply g_early; eauto; fail).
          destruct (Go (InData m) k) as (hs & b & f & M). exists hs, b, f. eapply g_data; eauto.
        + destruct pl; try contradiction F.
          * destruct b as [|b0 b]; [do 3 eexists; eapply g_empty; eauto|]. destruct (Go (InSection (b0 :: b)) k) as (hs & bd & f & M). exists hs, bd, f. eapply g_head; eauto. discriminate.
          * destruct (Go InTrail k) as (hs & bd & f & M). exists hs, bd, f. eapply g_trailers; eauto.
          * do 3 eexists. eapply g_more; eauto.
        + destruct (Bool.bool_dec push true) as [Ep|Ep].
          * destruct (Go pl k) as (hs & bd & f & M). exists hs, bd, f. eapply g_promise; eauto.
          * apply Bool.not_true_is_false in Ep. do 3 eexists. eapply g_no_push; eauto.
      - do 3 eexists. apply g_fail; eauto. }
    destruct pl as [|b| |m|]; try (apply Fr; exact I).
    - cbn [weight] in L. destruct (D k b) as [|dyn [hs|]] eqn:Ed; [do 3 eexists; eapply g_qpack; eauto| |do 3 eexists; eapply g_qpack; eauto].
      destruct (accept mt hs) as [[[hs' i] se]|] eqn:Ea; [|do 3 eexists; eapply g_malformed; eauto].
      destruct se; [do 3 eexists; eapply g_session; eauto|].
      destruct i.
      + destruct (IH InHead (Datatypes.S k) bs ltac:(cbn [weight]; lia)) as (l & bd & f & M). do 3 eexists. eapply g_interim; eauto.
      + destruct (IH InBody (Datatypes.S k) bs ltac:(cbn [weight]; lia)) as (l & bd & f & M). do 3 eexists. eapply g_final; eauto.
    - cbn [weight] in L. destruct (N.lt_ge_cases (lenN bs) m); [do 3 eexists; eapply g_short; eauto|].
      assert (Lf : lenN (firstn (N.to_nat m) bs) = m) by (unfold lenN in *; rewrite firstn_length; lia).
      destruct (IH InBody k (skipn (N.to_nat m) bs)) as (l & bd & f & M); [cbn [weight]; rewrite skipn_length; lia|].
      exists l, (firstn (N.to_nat m) bs ++ bd), f. rewrite <- (firstn_skipn (N.to_nat m) bs) at 1. eapply g_payload; eauto.
  Qed.
  Lemma at_prefix all heads body ends m : at_ all heads body ends m -> m_state m <> MPending -> m_state m <> MClosed ->
    forall x hs b f, message InHead 0 (all ++ x) hs b f -> exists hs' b', hs = heads ++ hs' /\ b = body ++ b'.
  Proof.
    intros (_ & _ & A) N1 N2 x hs b f M.
    assert (K : forall pl k rest, carry all heads body pl k rest -> exists hs' b', hs = heads ++ hs' /\ b = body ++ b').
    { intros pl k rest C. destruct (message_total _ pl k (rest ++ x) (Nat.lt_succ_diag_r _)) as (h2 & b2 & f2 & M2). apply C in M2.
      destruct (message_det _ _ _ _ _ _ M _ _ _ M2) as (-> & -> & _). eauto. }
    destruct (m_state m); try congruence.
    - destruct A as (_ & _ & p & _ & _ & C). eauto.
    - destruct A as (_ & _ & C). eauto.
    - destruct A as (_ & _ & p & _ & _ & C). eauto.
    - destruct A as (_ & _ & _ & C). eauto.
    - destruct A as (_ & _ & p & _ & _ & C). eauto.
    - destruct A as (_ & S). destruct (message_det _ _ _ _ _ _ M _ _ _ (S x)) as (-> & -> & _). exists [], []. rewrite !app_nil_r. auto.
  Qed.
  (** *** Reading on to the end *)
  Definition all_ready (a : answers) : Prop := forall k, a_ready a k = true.
  Definition over (w : world) : Prop := w_status w <> Running \/ m_state (w_msg w) = MConnect.
  Lemma reads_end a room : push = false -> all_ready a -> (1 <= room)%nat -> forall n w, winv w -> w_status w = Running -> s_fin (m_src (w_msg w)) = true -> waits (m_state (w_msg w)) ->
    (length (concat (s_chunks (m_src (w_msg w)))) < n)%nat ->
    exists w', w_run prio D mt push w (repeat (Reads a room) n) = Some w' /\ winv w' /\ over w' /\ w_all w' = w_all w.
  Proof.
    intros Pf Ar Hr. induction n as [|n IH]; intros w V R F W L; [lia|].
    cbn [repeat w_run]. unfold w_step. rewrite R. pose proof (running_ends _ _ _ _ w V R) as E0. pose proof V as V0. unfold HmProofs2.winv in V0. rewrite R in V0. destruct V0 as [A N].
    pose proof (mread_ok prio D mt push a (w_all w) (length (concat (s_chunks (m_src (w_msg w)))) + 2) (w_msg w) (w_heads w) (w_body w) (w_ends w) room A ltac:(lia)) as Q.
    pose proof (mread_ends prio D mt push a (length (concat (s_chunks (m_src (w_msg w)))) + 2) (w_msg w) room) as Re. unfold m_read_data.
    assert (Rest : forall w1, winv w1 -> w_all w1 = w_all w -> (over w1 -> w_status w1 = Running -> m_state (w_msg w1) = MConnect) -> over w1 -> exists w', w_run prio D mt push w1 (repeat (Reads a room) n) = Some w' /\ winv w' /\ over w' /\ w_all w' = w_all w).
    { clear - Pf. induction n as [|n IHn]; intros w1 V1 E1 S1 O1; cbn [repeat w_run]; [eauto|].
      unfold w_step. destruct (w_status w1) eqn:Es.
      - specialize (S1 O1 eq_refl). unfold m_read_data. rewrite Nat.add_comm. cbn [m_read Nat.add]. rewrite S1. unfold w_put. rewrite S1. apply IHn.
        + unfold HmProofs2.winv in *. rewrite Es in V1. cbn [w_status w_all w_heads w_body w_ends w_msg heads_of ends_of map concat filter length]. rewrite !app_nil_r, !Nat.add_0_r. exact V1.
        + exact E1.
        + intros _ _. exact S1.
        + right. exact S1.
      - apply IHn; auto. rewrite Es. discriminate.
      - apply IHn; auto. rewrite Es. discriminate. }
    destruct (m_read prio D mt push _ a (w_msg w) room) as [[[[m' b] f]|e|] ev]; [| |contradiction].
    - destruct Q as (Q1 & Q2 & _ & _ & Q5). specialize (Q5 Pf Ar F W). destruct (put_ok prio D mt push w m' ev b f Q1) as (w1 & E & V1 & Em & Ea). rewrite E.
      assert (St : w_status w1 = match m_state m' with MClosed => Ending | _ => Running end) by (unfold w_put in E; injection E as <-; reflexivity).
      destruct (m_state m') eqn:Es; try contradiction.
      + destruct (IH w1) as (w' & I1 & I2 & I3 & I4); auto; try congruence; rewrite ?Em; try congruence.
        * rewrite Es. exact I.
        * destruct room; [lia|]. cbn [Nat.eqb] in Q5. lia.
        * exists w'. splits; auto. congruence.
      + apply Rest; auto; [rewrite St; discriminate|left; rewrite St; discriminate].
      + apply Rest; auto; [intros _ _; congruence|right; congruence].
    - destruct (fail_ok prio D mt push w ev e V R E0 Re Q) as (w1 & E & V1 & Em & Ea & Es). rewrite E. apply Rest; auto; [rewrite Es; discriminate|left; rewrite Es; discriminate].
  Qed.
  Lemma to_the_end a room w : push = false -> all_ready a -> (1 <= room)%nat -> winv w -> s_fin (m_src (w_msg w)) = true ->
    exists w', w_run prio D mt push w (Readable a :: Unblocked a :: repeat (Reads a room) (Datatypes.S (length (concat (s_chunks (m_src (w_msg w))))))) = Some w' /\ winv w' /\ over w' /\ w_all w' = w_all w.
  Proof.
    intros Pf Ar Hr V F. set (L := length (concat (s_chunks (m_src (w_msg w))))).
    assert (Gone : forall xs w1, w_status w1 <> Running -> w_run prio D mt push w1 xs = Some w1) by (induction xs as [|y ys IHy]; intros w1 G; cbn [w_run]; [reflexivity|]; unfold w_step; destruct (w_status w1) eqn:E1; [congruence| |]; apply IHy; congruence).
    destruct (w_status w) eqn:R. 2, 3: exists w; splits; auto; [apply Gone; congruence|left; congruence].
    pose proof (running_ends _ _ _ _ w V R) as E0. pose proof V as V0. unfold HmProofs2.winv in V0. rewrite R in V0. destruct V0 as [A N].
    assert (B : m_blocked (w_msg w) = []) by (destruct A as (_ & B & _); auto).
    (* one successful call of [receive] *)
    assert (Rec : m_state (w_msg w) <> MPending -> exists w1, (let '(o, ev) := m_receive prio D mt push a (w_msg w) in w_put w o ev [] false) = Some w1 /\ winv w1 /\ w_all w1 = w_all w /\
      (w_status w1 <> Running \/ (w_status w1 = Running /\ waits (m_state (w_msg w1)) /\ s_fin (m_src (w_msg w1)) = true /\ (length (concat (s_chunks (m_src (w_msg w1)))) <= L)%nat))).
    { intros N1. pose proof (receive_top prio D mt push a _ _ _ _ _ A N1 N) as Q. pose proof (ri_ends prio D mt push a (m_fuel (w_msg w)) (w_msg w)) as Re. unfold m_receive in *.
      destruct (receive_internal prio D mt push (m_fuel (w_msg w)) a (w_msg w)) as [[m'|e|] ev]; [| |contradiction].
      - destruct Q as (Q1 & Q2 & Q3 & Q4). destruct (put_ok prio D mt push w m' ev [] false) as (w1 & E & V1 & Em & Ea). { rewrite app_nil_r, Nat.add_0_r. exact Q1. }
        exists w1. splits; auto. destruct (w_status w1) eqn:Es; [right|left; discriminate|left; discriminate]. rewrite Em. splits; auto; congruence.
      - destruct (fail_ok prio D mt push w ev e V R E0 Re Q) as (w1 & E & V1 & Em & Ea & Es). exists w1. splits; auto. left. rewrite Es. discriminate. }
    assert (Tail : forall w1, winv w1 -> w_all w1 = w_all w -> w_status w1 <> Running \/ (w_status w1 = Running /\ waits (m_state (w_msg w1)) /\ s_fin (m_src (w_msg w1)) = true /\ (length (concat (s_chunks (m_src (w_msg w1)))) <= L)%nat) ->
      exists w', w_run prio D mt push w1 (repeat (Reads a room) (Datatypes.S L)) = Some w' /\ winv w' /\ over w' /\ w_all w' = w_all w).
    { intros w1 V1 Ea [G|(G1 & G2 & G3 & G4)].
      - exists w1. split; [apply Gone; exact G|]. split; [exact V1|]. split; [left; exact G|exact Ea].
      - destruct (reads_end a room Pf Ar Hr (Datatypes.S L) w1 V1 G1 G3 G2 ltac:(lia)) as (w' & I1 & I2 & I3 & I4). exists w'. splits; auto. congruence. }
    cbn [w_run]. destruct (s_over (m_src (w_msg w))) eqn:Eo.
    - unfold w_step at 1. rewrite R, Eo. unfold w_step at 1. rewrite R, B. destruct (m_state (w_msg w)) eqn:Es.
      + exfalso. destruct A as (_ & _ & A). rewrite Es in A. destruct A as (_ & A & _). congruence.
      + destruct (Rec ltac:(discriminate)) as (w1 & E & V1 & Ea & G). unfold m_unblocked. rewrite B. cbn [unblock].
        replace (mkMsg (m_state (w_msg w)) (m_src (w_msg w)) [] (m_k (w_msg w))) with (w_msg w) by (destruct (w_msg w); cbn in *; congruence). rewrite E. apply Tail; auto.
      + exfalso. destruct A as (_ & _ & A). rewrite Es in A. destruct A as (_ & A & _). congruence.
      + exfalso. destruct A as (_ & _ & A). rewrite Es in A. destruct A as (_ & A & _). congruence.
      + exfalso. destruct A as (_ & _ & A). rewrite Es in A. destruct A as (_ & A & _). congruence.
      + apply Tail; auto. right. rewrite Es. splits; auto. exact I.
      + congruence.
      + apply Tail; auto. right. rewrite Es. splits; auto. exact I.
    - assert (N1 : m_state (w_msg w) <> MPending) by (intros Es; destruct A as (_ & _ & A); rewrite Es in A; destruct A as (_ & A & _); congruence).
      destruct (Rec N1) as (w1 & E & V1 & Ea & G). unfold w_step at 1. rewrite R, Eo, E.
      assert (St : w_step prio D mt push w1 (Unblocked a) = Some w1).
      { unfold w_step. destruct G as [G|(G1 & G2 & _)]; [destruct (w_status w1); congruence|]. rewrite G1. unfold HmProofs2.winv in V1. rewrite G1 in V1. destruct V1 as [(_ & B1 & _) _]. rewrite (B1 Pf). destruct (m_state (w_msg w1)); try contradiction G2; reflexivity. }
      rewrite St. apply Tail; auto.
  Qed.
End Main.
