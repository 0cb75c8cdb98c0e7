From Verif Require Import Base Lib CodecModel CodecSpec Reader IncrProofs HfModel HfSpec HfProofs HfProofs2 HhModel HmModel HmSpec HmProofs.
Open Scope N_scope.
Open Scope list_scope.
Import ListNotations.

Lemma read_zero s : s_over s = false -> src_ok s -> exists s', read_data s 0 = (Some ([], s_over s'), s') /\ src_ok s' /\ concat (s_chunks s') = concat (s_chunks s) /\ s_fin s' = s_fin s /\
  (s_over s' = true -> s_fin s = true /\ concat (s_chunks s) = []) /\ (concat (s_chunks s) = [] -> s_over s' = s_fin s).
Proof.
  intros V (K & O & W). unfold read_data. rewrite V. destruct s as [cs fin over]. cbn [s_chunks s_fin s_over] in *. destruct cs as [|c cs].
  - exists (mkSrc [] fin fin). split; [reflexivity|]. unfold src_ok. cbn. splits; auto.
  - inversion K as [|? ? Nc Kc]; subst. cbn [skipn firstn]. destruct c as [|c0 c]; [congruence|]. cbn [is_nil]. rewrite Bool.andb_false_r.
    exists (mkSrc ((c0 :: c) :: cs) fin false). split; [reflexivity|]. unfold src_ok. cbn [s_chunks s_fin s_over]. splits; auto; try discriminate.
Qed.
Lemma read_any s n : s_over s = false -> src_ok s -> exists b fin s', read_data s n = (Some (b, fin), s') /\ src_ok s' /\ concat (s_chunks s) = b ++ concat (s_chunks s') /\ (length b <= n)%nat /\
  s_fin s' = s_fin s /\ fin = s_over s' /\ (fin = true -> s_fin s = true /\ concat (s_chunks s') = []) /\ ((1 <= n)%nat -> b = [] -> fin = s_fin s) /\ (concat (s_chunks s') = [] -> fin = s_fin s).
Proof.
  intros V S. destruct n as [|n].
  - destruct (read_zero s V S) as (s' & E & A & B & C & F & G). exists [], (s_over s'), s'. rewrite E, B. splits; auto. lia.
  - pose proof (read_ok s (Datatypes.S n) S ltac:(lia) V) as R. destruct (read_data s (Datatypes.S n)) as [[[b fin]|] s']; [|contradiction].
    destruct R as (R1 & R2 & R3 & R4 & R5 & R6 & R7 & R8). exists b, fin, s'. splits; auto. intros _ Hb. apply R7 in Hb. tauto.
Qed.

Section Main.
  Context (prio : list N -> option priority) (D : nat -> list N -> section) (mt : mtype) (push : bool).
  Notation g := (h3 prio read_settings).
  Notation message := (message g D mt push).
  Notation ri := (receive_internal prio D mt push).
  Notation carry := (carry prio D mt push).
  Notation at_ := (at_ prio D mt push).
  Notation bad := (bad prio D mt push).
  Notation done := (done prio D mt push).
  Lemma data_split k n b x hs bd f : lenN b <= n -> message (InData (n - lenN b)) k x hs bd f -> message (InData n) k (b ++ x) hs (b ++ bd) f.
  Proof.
    intros L M. remember (InData (n - lenN b)) as pl eqn:E. destruct M; try discriminate E; try (exfalso; destruct p; (discriminate E || contradiction)).
    - exfalso. destruct H; subst; discriminate.
    - injection E as ->. rewrite !app_assoc. apply g_payload; [|exact M]. rewrite lenN_app. lia.
    - injection E as ->. apply g_short. rewrite lenN_app. lia.
  Qed.
  Definition waits (st : mstate) : Prop := match st with MReading _ | MPending | MClosed | MConnect => True | _ => False end.
  Lemma bad_more all fin heads body b e : bad all fin heads (body ++ b) e -> bad all fin heads body e.
  Proof.
    intros [H|(hs & b2 & H)]; [left; exact H|right]. exists hs, (b ++ b2). rewrite app_assoc. exact H.
  Qed.
  Lemma receive_top a all m heads body ends : at_ all heads body ends m -> m_state m <> MPending -> m_state m <> MClosed ->
    match m_receive prio D mt push a m with
    | (Done m', ev) => at_ all (heads ++ heads_of ev) body (ends + ends_of ev) m' /\ s_fin (m_src m') = s_fin (m_src m) /\
        (length (concat (s_chunks (m_src m'))) <= length (concat (s_chunks (m_src m))))%nat /\
        (push = false -> (forall k, a_ready a k = true) -> s_fin (m_src m) = true -> waits (m_state m'))
    | (Error e, ev) => bad all (s_fin (m_src m)) (heads ++ heads_of ev) body e
    | (Panicked, _) => False
    end.
  Proof.
    intros A N1 N2. pose proof (ri_ok prio D mt push a all (m_fuel m) m heads body ends A N1 N2) as R. apply R. unfold mu, m_fuel. destruct (m_state m); lia.
  Qed.
  Lemma mread_ok a all : forall fuel m heads body ends room, at_ all heads body ends m -> (length (concat (s_chunks (m_src m))) + 1 <= fuel)%nat ->
    match m_read prio D mt push fuel a m room with
    | (Done (m', b, f), ev) => at_ all (heads ++ heads_of ev) (body ++ b) (ends + ends_of ev + if f then 1 else 0) m' /\ s_fin (m_src m') = s_fin (m_src m) /\
        (f = true -> m_state m' = MClosed) /\ (length b <= room)%nat /\
        (push = false -> (forall k, a_ready a k = true) -> s_fin (m_src m) = true -> waits (m_state m) ->
          match m_state m' with MReading _ => (length (concat (s_chunks (m_src m'))) + (if Nat.eqb room 0 then 0 else 1) <= length (concat (s_chunks (m_src m))))%nat | MClosed | MConnect => True | _ => False end)
    | (Error e, ev) => bad all (s_fin (m_src m)) (heads ++ heads_of ev) body e
    | (Panicked, _) => False
    end.
  Proof.
    induction fuel as [|fuel IH]; intros m heads body ends room A Fu; [lia|].
    cbn [m_read]. destruct (m_state m) as [r|blk fin|r|n|r| | |] eqn:Es.
    1, 2, 3, 5, 7, 8: cbn [heads_of ends_of map concat filter length]; rewrite !app_nil_r, !Nat.add_0_r, Es; splits; auto; try discriminate; try lia; intros; try contradiction; exact I.
    2: { destruct A as (S & B & A). rewrite Es in A. destruct A as (-> & V & Dn). unfold set_closed, m_with. cbn [m_state m_src m_blocked m_k heads_of ends_of map concat filter length].
         rewrite !app_nil_r. split; [|splits; auto; lia]. unfold HmProofs.at_. cbn [m_state m_src m_blocked m_k]. splits; auto. destruct S as (_ & _ & W). apply W in V. tauto. }
    destruct A as (S & B & A). rewrite Es in A. destruct A as (-> & V & Pn & C).
    destruct (read_any (m_src m) (N.to_nat (N.min n (N.of_nat room))) V S) as (b & fin & s' & E & S' & Ec & Lb & Ef & Eo & Fe & Be & Ne). rewrite E.
    assert (Ln : lenN b <= n) by (unfold lenN; lia).
    assert (C' : carry all heads (body ++ b) (InData (n - lenN b)) (m_k m) (concat (s_chunks s'))).
    { rewrite <- (app_nil_r heads). eapply carry_step; [exact C|]. intros x hs bd f M. cbn [app]. rewrite Ec, <- app_assoc. apply data_split; [exact Ln|exact M]. }
    destruct fin.
    - destruct (Fe eq_refl) as [F1 F2]. destruct (N.ltb_spec 0 (n - lenN b)) as [Hr|Hr].
      + apply bad_more with (b := b). cbn [heads_of map concat]. rewrite app_nil_r. right. exists [], []. right. split; [exact F1|]. left. split; [reflexivity|].
        eapply carry_now; [exact C'|]. rewrite F2. apply g_short. cbn. lia.
      + unfold set_closed, m_with. cbn [m_state m_src m_blocked m_k heads_of ends_of map concat filter length]. rewrite app_nil_r.
        split; [|splits; auto; lia]. unfold HmProofs.at_. cbn [m_state m_src m_blocked m_k]. splits; auto; [congruence|]. left. split; [reflexivity|].
        assert (C2 : carry all heads (body ++ b) InBody (m_k m) (concat (s_chunks s'))).
        { eapply carry_same; [exact C'|]. intros x hs bd f M. change x with ([] ++ x) at 1. replace (concat (s_chunks s') ++ [] ++ x) with ([] ++ concat (s_chunks s') ++ x) by reflexivity. change bd with ([] ++ bd). apply g_payload; [cbn; lia|exact M]. }
        rewrite F2 in C2. exact (carry_done _ _ _ _ _ _ _ _ _ C2 I).
    - destruct (N.eqb_spec (n - lenN b) 0) as [Hr|Hr].
      + assert (Nb : b <> []) by (intros ->; cbn in Hr; lia).
        assert (A2 : at_ all heads (body ++ b) 0 (m_with (mkMsg (MReading (n - lenN b)) s' (m_blocked m) (m_k m)) (MData r_new))).
        { unfold HmProofs.at_, m_with. cbn [m_state m_src m_blocked m_k]. splits; auto. exists []. splits; auto; [apply rel_new|constructor|]. cbn [place_of app].
          eapply carry_same; [exact C'|]. intros x hs bd f M. change (concat (s_chunks s') ++ x) with ([] ++ concat (s_chunks s') ++ x). change bd with ([] ++ bd). apply g_payload; [cbn; lia|exact M]. }
        pose proof (receive_top a all _ _ _ _ A2 ltac:(discriminate) ltac:(discriminate)) as R. cbn [m_with m_src] in R.
        destruct (m_receive prio D mt push a (m_with (mkMsg (MReading (n - lenN b)) s' (m_blocked m) (m_k m)) (MData r_new))) as [[m2|e|] ev]; [| |contradiction].
        2: { apply bad_more with (b := b). rewrite <- Ef. exact R. }
        destruct R as (R1 & R2 & R3 & R4). cbn [Nat.add] in R1.
        assert (Lc : (length (concat (s_chunks s')) < length (concat (s_chunks (m_src m))))%nat) by (rewrite Ec, app_length; destruct b; [congruence|cbn; lia]).
        specialize (IH m2 (heads ++ heads_of ev) (body ++ b) (ends_of ev) (room - length b)%nat R1 ltac:(lia)).
        destruct (m_read prio D mt push fuel a m2 (room - length b)) as [[[[m3 b3] f3]|e|] ev3]; [| |contradiction].
        2: { apply bad_more with (b := b). rewrite heads_of_app, app_assoc. rewrite R2, Ef in IH. exact IH. }
        destruct IH as (I1 & I2 & I3 & I4 & I5). rewrite heads_of_app, ends_of_app, !app_assoc. cbn [Nat.add]. rewrite app_length. splits; auto; try congruence; try lia.
        intros Q1 Q2 Q3 _. specialize (I5 Q1 Q2 ltac:(congruence) ltac:(apply R4; auto; congruence)). destruct (m_state m3); auto.
        destruct (Nat.eqb room 0); destruct (Nat.eqb (room - length b) 0); lia.
      + cbn [heads_of ends_of map concat filter length]. rewrite app_nil_r. cbn [m_src m_state]. split; [|splits; auto; try discriminate; try lia].
        * unfold HmProofs.at_. cbn [m_state m_src m_blocked m_k]. splits; auto. lia.
        * intros _ _ Fi _. rewrite Ec, app_length. destruct (Nat.eqb_spec room 0); [lia|]. destruct b as [|b0 b]; [|cbn [length]; lia]. exfalso. assert (false = s_fin (m_src m)) by (apply Be; [lia|reflexivity]). congruence.
  Qed.
  Lemma unblock_ok a all m heads body ends : forall ps, at_ all heads body ends m -> m_state m <> MClosed -> (push = false -> ps = []) ->
    match unblock prio D mt push a m ps with
    | (Done m', ev) => at_ all (heads ++ heads_of ev) body (ends + ends_of ev) m' /\ s_fin (m_src m') = s_fin (m_src m)
    | (Error e, ev) => bad all (s_fin (m_src m)) (heads ++ heads_of ev) body e
    | (Panicked, _) => m_state m = MPending
    end.
  Proof.
    intros ps A N Hp. assert (push = false \/ push = true) as [Pf|Pt] by (destruct push; auto).
    - rewrite (Hp Pf). cbn [unblock]. assert (A2 : at_ all heads body ends (mkMsg (m_state m) (m_src m) [] (m_k m))) by (destruct A as (A1 & A2 & A3); split; [exact A1|split; [intros _; reflexivity|exact A3]]).
      destruct (m_state m) as [| | | | | | |] eqn:Es; try congruence; try (pose proof (receive_top a all _ _ _ _ A2 ltac:(discriminate) ltac:(discriminate)) as R; cbn [m_src] in R;
        match goal with |- match ?X with _ => _ end => destruct X as [[m'|e|] ev] end; [| |contradiction]; tauto).
      unfold m_receive. destruct (receive_internal prio D mt push _ a _) as [[m'|e|] ev] eqn:E; unfold m_fuel in E; rewrite Nat.add_comm in E; cbn in E; try discriminate. reflexivity.
    - clear Hp. induction ps as [|[id b] ps IH]; cbn [unblock].
      + assert (A2 : at_ all heads body ends (mkMsg (m_state m) (m_src m) [] (m_k m))) by (destruct A as (A1 & A2 & A3); split; [exact A1|split; [intros _; reflexivity|exact A3]]).
        destruct (m_state m) as [| | | | | | |] eqn:Es; try congruence; try (pose proof (receive_top a all _ _ _ _ A2 ltac:(discriminate) ltac:(discriminate)) as R; cbn [m_src] in R;
          match goal with |- match ?X with _ => _ end => destruct X as [[m'|e|] ev] end; [| |contradiction]; tauto).
        unfold m_receive. destruct (receive_internal prio D mt push _ a _) as [[m'|e|] ev] eqn:E; unfold m_fuel in E; rewrite Nat.add_comm in E; cbn in E; try discriminate. reflexivity.
      + destruct (a_promise a b).
        * cbn [heads_of ends_of map concat filter length]. rewrite app_nil_r, Nat.add_0_r. cbn [m_src]. split; [|reflexivity]. destruct A as (A1 & A2 & A3). unfold HmProofs.at_. cbn [m_src m_blocked m_state m_k]. splits; auto. intros Z. exfalso. congruence.
        * destruct (unblock prio D mt push a m ps) as [[m'|e|] ev]; [exact IH|exact IH|exact IH].
        * left. auto.
        * left. auto.
  Qed.
  (** *** A life *)
  Definition winv (w : world) : Prop :=
    match w_status w with
    | Running => at_ (w_all w) (w_heads w) (w_body w) (w_ends w) (w_msg w) /\ m_state (w_msg w) <> MClosed
    | Ending => at_ (w_all w) (w_heads w) (w_body w) (w_ends w) (w_msg w) /\ m_state (w_msg w) = MClosed
    | Broken e => bad (w_all w) (s_fin (m_src (w_msg w))) (w_heads w) (w_body w) e /\ w_ends w = 0%nat
    end.
  Definition act_ok (x : act) : Prop := match x with Arrives b => bytes_ok b | _ => True end.
  Lemma put_ok w m ev b (f : bool) : at_ (w_all w) (w_heads w ++ heads_of ev) (w_body w ++ b) (w_ends w + ends_of ev + (if f then 1 else 0)) m ->
    exists w', w_put w (Done m) ev b f = Some w' /\ winv w' /\ w_msg w' = m /\ w_all w' = w_all w.
  Proof.
    intros A. unfold w_put. eexists. split; [reflexivity|]. unfold winv. cbn [w_status w_all w_heads w_body w_ends w_msg]. split; [|auto]. destruct (m_state m); split; auto; congruence.
  Qed.
  Lemma ri_ends a : forall fuel m, match ri fuel a m with (Done m', ev) => ends_of ev = 0%nat \/ m_state m' = MClosed | (_, ev) => ends_of ev = 0%nat end.
  Proof.
    assert (HF : forall m f fin, match handle_frame push a m f fin with (_, ev) => ends_of ev = 0%nat end).
    { intros m f fin. unfold handle_frame, handle_promise. destruct f; try reflexivity. destruct (negb push); [reflexivity|]. destruct (is_nil _); [|reflexivity]. destruct (a_promise a block); reflexivity. }
    assert (AH : forall m hs fin, match add_headers mt m hs fin with (Done m', ev) => ends_of ev = 0%nat \/ m_state m' = MClosed | (_, ev) => ends_of ev = 0%nat end).
    { intros m hs fin. unfold add_headers. destruct (accept mt hs) as [[[hs' i] se]|]; [|reflexivity]. destruct (fin && i); [reflexivity|]. destruct fin; [right; reflexivity|left]. destruct se; reflexivity. }
    induction fuel as [|fuel IH]; intros m; [reflexivity|].
    destruct (m_reader (m_state m)) as [r|] eqn:Er.
    - rewrite (ri_framed prio D mt push fuel a m r Er). destruct (r_receive (HFRAME prio) r (m_src m)) as [[[[o fin] r'] s']|e|]; try reflexivity.
      cbv zeta. destruct o as [f|].
      + specialize (HF (mkMsg (m_set_reader (m_state m) r') s' (m_blocked m) (m_k m)) f fin). destruct (handle_frame push a _ f fin) as [[m2|e|] ev]; try exact HF.
        assert (Rec : match (let '(o2, ev2) := ri fuel a m2 in (o2, ev ++ ev2)) with (Done m', ev0) => ends_of ev0 = 0%nat \/ m_state m' = MClosed | (_, ev0) => ends_of ev0 = 0%nat end).
        { specialize (IH m2). destruct (ri fuel a m2) as [[m3|e|] ev3]; rewrite ends_of_app, HF; exact IH. }
        assert (Cl : match (close_pending m2, ev) with (Done m', ev0) => ends_of ev0 = 0%nat \/ m_state m' = MClosed | (_, ev0) => ends_of ev0 = 0%nat end) by (destruct (close_pending m2); auto).
        destruct (m_state m2); try exact Rec; destruct fin; assumption.
      + destruct fin; [destruct (close_pending _)|]; try reflexivity; left; reflexivity.
    - cbn [receive_internal]. destruct (m_state m) as [?|blk fin|?|?|?| | |]; try discriminate Er; try reflexivity; try (left; reflexivity).
      destruct (D (m_k m) blk) as [|dyn hs]; [reflexivity|]. destruct (dyn && _); [left; reflexivity|]. destruct (negb _); [left; reflexivity|]. destruct hs as [hs|]; [|reflexivity].
      specialize (AH (mkMsg (MDecoding blk fin) (m_src m) (m_blocked m) (Datatypes.S (m_k m))) hs fin). destruct (add_headers mt _ hs fin) as [[m2|e|] ev]; try exact AH.
      assert (Rec : ends_of ev = 0%nat -> match (let '(o2, ev2) := ri fuel a m2 in (o2, ev ++ ev2)) with (Done m', ev0) => ends_of ev0 = 0%nat \/ m_state m' = MClosed | (_, ev0) => ends_of ev0 = 0%nat end).
      { intros E0. specialize (IH m2). destruct (ri fuel a m2) as [[m3|e|] ev3]; rewrite ends_of_app, E0; exact IH. }
      destruct (m_state m2) eqn:E2; try (apply Rec; destruct AH as [AH|AH]; [exact AH|discriminate AH]).
      + right. exact E2.
      + left. destruct AH as [AH|AH]; [exact AH|discriminate AH].
  Qed.
  Lemma mread_ends a : forall fuel m room, match m_read prio D mt push fuel a m room with (Error _, ev) => ends_of ev = 0%nat | _ => True end.
  Proof.
    induction fuel as [|fuel IH]; intros m room; [exact I|]. cbn [m_read]. destruct (m_state m) as [?|? ?|?|n|?| | |]; try exact I.
    destruct (read_data (m_src m) _) as [[[b fin]|] s']; [|exact I]. destruct fin.
    - destruct (0 <? n - lenN b); [reflexivity|exact I].
    - destruct (n - lenN b =? 0); [|exact I]. set (m1 := m_with _ _). pose proof (ri_ends a (m_fuel m1) m1) as R. unfold m_receive.
      destruct (ri (m_fuel m1) a m1) as [[m2|e|] ev]; [|exact R|exact I]. pose proof (IH m2 (room - length b)%nat) as J.
      destruct (m_read prio D mt push fuel a m2 (room - length b)) as [[[[m3 b3] f]|e|] ev3] eqn:E; try exact I.
      rewrite ends_of_app, J. destruct R as [R|R]; [rewrite R; reflexivity|]. exfalso. destruct fuel; [discriminate E|]. cbn [m_read] in E. rewrite R in E. discriminate E.
  Qed.
  Lemma unblock_ends a m : forall ps, match unblock prio D mt push a m ps with (Error _, ev) => ends_of ev = 0%nat | _ => True end.
  Proof.
    induction ps as [|[id b] ps IH]; cbn [unblock].
    - unfold m_receive. set (m1 := mkMsg _ _ _ _). pose proof (ri_ends a (m_fuel m1) m1) as R. destruct (ri (m_fuel m1) a m1) as [[m2|e|] ev]; auto.
    - destruct (a_promise a b); auto. destruct (unblock prio D mt push a m ps) as [[?|?|] ev]; auto.
  Qed.
  Lemma fail_ok w ev e : winv w -> w_status w = Running -> w_ends w = 0%nat -> ends_of ev = 0%nat -> bad (w_all w) (s_fin (m_src (w_msg w))) (w_heads w ++ heads_of ev) (w_body w) e ->
    exists w', w_put w (Error e) ev [] false = Some w' /\ winv w' /\ w_msg w' = w_msg w /\ w_all w' = w_all w /\ w_status w' = Broken e.
  Proof.
    intros V R E0 E1 B. unfold w_put. eexists. split; [reflexivity|]. unfold winv. cbn [w_status w_all w_heads w_body w_ends w_msg]. rewrite app_nil_r. splits; auto. lia.
  Qed.
  Lemma running_ends w : winv w -> w_status w = Running -> w_ends w = 0%nat.
  Proof. unfold winv. intros V R. rewrite R in V. destruct V as [(_ & _ & A) N]. destruct (m_state (w_msg w)); try tauto; congruence. Qed.
  Definition first_ok (first : option (list N * N)) : Prop :=
    match first with None => True | Some (h, t) => (forall x, rd_varint (h ++ x) = Some (t, x)) /\ h <> [] /\ bytes_ok h /\ g t <> Refused end.
  Lemma winv_init first : first_ok first -> winv (w_init first).
  Proof.
    assert (So : src_ok (mkSrc [] false false)) by (unfold src_ok; cbn; split; [constructor|split; [constructor|intros Z; discriminate Z]]).
    destruct first as [[h t]|]; unfold first_ok, w_init, winv; cbn [w_status w_all w_heads w_body w_ends w_msg].
    - intros (R & Nh & Bh & G). split; [|discriminate]. unfold HmProofs.at_. cbn [m_src m_state m_blocked m_k place_of s_over s_chunks concat]. splits; auto.
      exists h. rewrite app_nil_r. splits; auto.
      + unfold rel. cbn. exists h, []. rewrite app_nil_r. splits; auto; try reflexivity.
      + intros x hs b f M. exact M.
    - intros _. split; [|discriminate]. unfold HmProofs.at_. cbn [m_src m_state m_blocked m_k place_of s_over s_chunks concat]. splits; auto.
      exists []. splits; [apply rel_new|constructor|]. intros x hs b f M. exact M.
  Qed.
  Lemma at_put all heads body ends m b : at_ all heads body ends m -> m_state m <> MClosed -> s_fin (m_src m) = false -> bytes_ok b ->
    at_ (all ++ b) heads body ends (mkMsg (m_state m) (mkSrc (s_chunks (m_src m) ++ if is_nil b then [] else [b]) false (s_over (m_src m))) (m_blocked m) (m_k m)).
  Proof.
    intros (S & B & A) N F Bb. destruct S as (S1 & S2 & S3).
    assert (V : s_over (m_src m) = false) by (destruct (s_over (m_src m)); [|reflexivity]; destruct (S3 eq_refl); congruence).
    assert (Ec : concat (s_chunks (m_src m) ++ (if is_nil b then [] else [b])) = concat (s_chunks (m_src m)) ++ b) by (rewrite concat_app; destruct b; cbn; rewrite ?app_nil_r; reflexivity).
    assert (So : src_ok (mkSrc (s_chunks (m_src m) ++ if is_nil b then [] else [b]) false (s_over (m_src m)))).
    { unfold src_ok. cbn [s_chunks s_fin s_over]. rewrite Ec. splits.
      - apply Forall_app. split; [exact S1|]. destruct b; cbn; constructor; auto. discriminate.
      - apply bytes_ok_app. auto.
      - congruence. }
    assert (Cy : forall pl k p, carry all heads body pl k (p ++ concat (s_chunks (m_src m))) -> carry (all ++ b) heads body pl k (p ++ concat (s_chunks (m_src m)) ++ b)).
    { intros pl k p C x hs bd f M. rewrite <- app_assoc. apply C. rewrite <- !app_assoc in *. exact M. }
    unfold HmProofs.at_. cbn [m_src m_state m_blocked m_k s_over s_chunks s_fin]. rewrite Ec. split; [exact So|split; [exact B|]].
    destruct (m_state m); try congruence.
    - destruct A as (E & _ & p & R & Bp & C). splits; auto. exists p. splits; auto.
    - destruct A as (E & Ef & C). splits; auto. exact (Cy _ _ [] C).
    - destruct A as (E & _ & p & R & Bp & C). splits; auto. exists p. splits; auto.
    - destruct A as (E & _ & Pn & C). splits; auto. exact (Cy _ _ [] C).
    - destruct A as (E & _ & p & R & Bp & C). splits; auto. exists p. splits; auto.
    - destruct A as (_ & A & _). congruence.
    - destruct A as (E & Se). splits; auto. intros x. rewrite <- app_assoc. apply Se.
  Qed.
  Lemma at_finish all heads body ends m : at_ all heads body ends m -> m_state m <> MClosed -> s_fin (m_src m) = false ->
    at_ (all ++ []) heads body ends (mkMsg (m_state m) (mkSrc (s_chunks (m_src m) ++ []) true (s_over (m_src m))) (m_blocked m) (m_k m)).
  Proof.
    intros (S & B & A) N F. destruct S as (S1 & S2 & S3). rewrite !app_nil_r.
    assert (V : s_over (m_src m) = false) by (destruct (s_over (m_src m)); [|reflexivity]; destruct (S3 eq_refl); congruence).
    unfold HmProofs.at_. cbn [m_src m_state m_blocked m_k s_over s_chunks s_fin]. split; [|split; [exact B|]].
    - unfold src_ok. cbn [s_chunks s_fin s_over]. splits; auto. congruence.
    - destruct (m_state m); try congruence; exact A.
  Qed.
  (** One step keeps the invariant; it panics only for promises that are unblocked after the end. *)
  Lemma winv_step w x : winv w -> act_ok x ->
    match w_step prio D mt push w x with
    | Some w' => winv w'
    | None => push = true /\ (exists a, x = Unblocked a) /\ m_state (w_msg w) = MPending
    end.
  Proof.
    intros V Ok. unfold w_step. destruct (w_status w) eqn:Ew; try exact V. pose proof (running_ends w V Ew) as E0. pose proof V as V0. unfold winv in V0. rewrite Ew in V0. destruct V0 as [A N].
    destruct x as [b| |a|a|a room]; cbn [act_ok] in Ok.
    - destruct (s_fin (m_src (w_msg w))) eqn:Ef; [exact V|]. unfold winv. cbn [w_status w_all w_heads w_body w_ends w_msg m_state]. split; [apply at_put; auto|exact N].
    - destruct (s_fin (m_src (w_msg w))) eqn:Ef; [exact V|]. unfold winv. cbn [w_status w_all w_heads w_body w_ends w_msg m_state is_nil]. split; [apply at_finish; auto|exact N].
    - destruct (s_over (m_src (w_msg w))) eqn:Eo; [exact V|].
      assert (N1 : m_state (w_msg w) <> MPending) by (intros Es; destruct A as (_ & _ & A); rewrite Es in A; destruct A as (_ & A & _); congruence).
      pose proof (receive_top a _ _ _ _ _ A N1 N) as R. pose proof (ri_ends a (m_fuel (w_msg w)) (w_msg w)) as Re. unfold m_receive in *.
      destruct (ri (m_fuel (w_msg w)) a (w_msg w)) as [[m'|e|] ev]; [| |contradiction].
      + destruct R as (R1 & _). destruct (put_ok w m' ev [] false) as (w' & E & W & _). { rewrite app_nil_r, Nat.add_0_r. exact R1. } rewrite E. exact W.
      + destruct (fail_ok w ev e V Ew E0 Re R) as (w' & E & W & _). rewrite E. exact W.
    - assert (U : match (let '(o, ev) := m_unblocked prio D mt push a (w_msg w) in w_put w o ev [] false) with Some w' => winv w' | None => push = true /\ (exists a0, Unblocked a = Unblocked a0) /\ m_state (w_msg w) = MPending end \/ (m_blocked (w_msg w) = [] /\ m_state (w_msg w) = MPending)).
      { unfold m_unblocked. pose proof (unblock_ok a _ _ _ _ _ (m_blocked (w_msg w)) A N ltac:(destruct A as (_ & B & _); exact B)) as R. pose proof (unblock_ends a (w_msg w) (m_blocked (w_msg w))) as Re.
        destruct (unblock prio D mt push a (w_msg w) (m_blocked (w_msg w))) as [[m'|e|] ev] eqn:Eu.
        - left. destruct R as (R1 & _). destruct (put_ok w m' ev [] false) as (w' & E & W & _). { rewrite app_nil_r, Nat.add_0_r. exact R1. } rewrite E. exact W.
        - left. destruct (fail_ok w ev e V Ew E0 Re R) as (w' & E & W & _). rewrite E. exact W.
        - destruct A as (_ & B & _). destruct (m_blocked (w_msg w)) eqn:Eb; [right; auto|left]. cbn [w_put]. splits; eauto. destruct (Bool.bool_dec push true); [assumption|]. apply Bool.not_true_is_false in n. specialize (B n). discriminate. }
      destruct (m_blocked (w_msg w)) eqn:Eb.
      + destruct (m_state (w_msg w)) eqn:Es; try exact V. destruct U as [U|(_ & U)]; [|discriminate]. destruct (let '(o, ev) := m_unblocked prio D mt push a (w_msg w) in w_put w o ev [] false); [exact U|]. destruct U as (_ & _ & U). discriminate.
      + destruct U as [U|(U & _)]; [exact U|discriminate].
    - pose proof (mread_ok a (w_all w) (length (concat (s_chunks (m_src (w_msg w)))) + 2) (w_msg w) (w_heads w) (w_body w) (w_ends w) room A ltac:(lia)) as R.
      pose proof (mread_ends a (length (concat (s_chunks (m_src (w_msg w)))) + 2) (w_msg w) room) as Re. unfold m_read_data.
      destruct (m_read prio D mt push _ a (w_msg w) room) as [[[[m' b] f]|e|] ev]; [| |contradiction].
      + destruct R as (R1 & _). destruct (put_ok w m' ev b f R1) as (w' & E & W & _). rewrite E. exact W.
      + destruct (fail_ok w ev e V Ew E0 Re R) as (w' & E & W & _). rewrite E. exact W.
  Qed.
  Lemma winv_run : forall xs w, winv w -> Forall act_ok xs -> match w_run prio D mt push w xs with Some w' => winv w' | None => push = true end.
  Proof.
    induction xs as [|x xs IH]; intros w V Ok; cbn [w_run]; [exact V|]. inversion Ok; subst. pose proof (winv_step w x V ltac:(assumption)) as S.
    destruct (w_step prio D mt push w x); [apply IH; assumption|tauto].
  Qed.
End Main.
