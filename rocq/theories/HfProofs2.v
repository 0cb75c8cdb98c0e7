(** Frame types, settings, what is written. *)
From Verif Require Import Base Lib CodecModel Reader CodecSpec CodecProofs IncrProofs HfModel HfSpec HfProofs.
Open Scope N_scope.
Open Scope list_scope.
Import ListNotations.

(** *** The specification determines one reading of any bytes. *)
Lemma split_eq {A} (a b c d : list A) : a ++ b = c ++ d -> lenN a = lenN c -> a = c /\ b = d.
Proof. unfold lenN. intros E L. apply app_inj_pivot_len in E || idtac. revert c E L. induction a as [|x a IH]; intros [|y c] E L; cbn in *; try lia; auto.
  injection E as -> E. destruct (IH c E ltac:(lia)) as [-> ->]. auto. Qed.
Section Det.
  Context {F : Type} (g : N -> kind F).
  Lemma next_det bs s1 : next g bs s1 -> forall s2, next g bs s2 -> s1 = s2.
  Proof.
    intros Q1; induction Q1; intros s2 Q2; inversion Q2; subst; auto; try congruence;
    repeat match goal with
    | A : rd_varint ?l = Some _, B : rd_varint ?l = Some _ |- _ => rewrite A in B; injection B; clear B; intros; subst
    | A : rd_varint ?l = Some _, B : rd_varint ?l = None |- _ => rewrite A in B; discriminate B
    | A : g ?t = _, B : g ?t = _ |- _ => rewrite A in B; first [discriminate B | injection B; clear B; intros; subst | clear B]
    | A : g ?t = Refused, B : g ?t <> Refused |- _ => destruct (B A)
    | A : rd_varint [] = Some _ |- _ => discriminate A
    end; auto; try congruence; try lia;
    repeat match goal with
    | A : _ ++ _ = _ ++ _ |- _ => apply split_eq in A; [destruct A; subst|congruence]
    end; try congruence; auto; try (rewrite lenN_app in *; lia).
  Qed.
  Lemma next_total n : forall bs, (length bs < n)%nat -> exists s, next g bs s.
  Proof.
    induction n as [|n IH]; intros bs L; [lia|]. destruct bs as [|b0 bs0]; [eexists; constructor|]. set (bs := b0 :: bs0) in *. assert (Nb : bs <> []) by discriminate. clearbody bs.
    destruct (rd_varint bs) as [[t r]|] eqn:E1; [|eexists; apply n_type; eauto].
    destruct (rd_varint_suffix _ _ _ E1) as (h1 & X1 & Y1).
    destruct (g t) as [|f|lim parse|] eqn:G.
    - eexists. eapply n_refused; eauto.
    - destruct (rd_varint r) as [[len r']|] eqn:E2; [|eexists; eapply n_length; eauto; congruence]. eexists. eapply n_once; eauto.
    - destruct (rd_varint r) as [[len r']|] eqn:E2; [|eexists; eapply n_length; eauto; congruence].
      destruct (N.lt_ge_cases lim len); [eexists; eapply n_long; eauto|].
      destruct (N.lt_ge_cases (lenN r') len); [eexists; eapply n_part; eauto|].
      rewrite <- (firstn_skipn (N.to_nat len) r') in E2. assert (Ld : lenN (firstn (N.to_nat len) r') = len) by (unfold lenN in *; rewrite firstn_length; lia).
      destruct (parse (firstn (N.to_nat len) r')) as [f|e] eqn:P; eexists; [eapply n_whole|eapply n_bad]; eauto.
    - destruct (rd_varint r) as [[len r']|] eqn:E2; [|eexists; eapply n_length; eauto; congruence].
      destruct (N.lt_ge_cases (lenN r') len); [eexists; eapply n_skipping; eauto|].
      destruct (rd_varint_suffix _ _ _ E2) as (h2 & X2 & Y2).
      assert (Ld : lenN (firstn (N.to_nat len) r') = len) by (unfold lenN in *; rewrite firstn_length; lia).
      destruct (IH (skipn (N.to_nat len) r')) as (s & Hs).
      { rewrite skipn_length. subst bs r. rewrite !app_length in L. assert (1 <= length h1)%nat by (rewrite Y1; destruct (h1 ++ h2 ++ r'); cbn; [|repeat dmatch]; lia). lia. }
      exists s. rewrite <- (firstn_skipn (N.to_nat len) r') in E2. eapply n_skip; eauto.
  Qed.
  Lemma next_shorter bs s : next g bs s -> forall f rest, s = Frame f rest -> (length rest < length bs)%nat.
  Proof.
    assert (K : forall l v r, rd_varint l = Some (v, r) -> (length r < length l)%nat).
    { intros l v r E. destruct (rd_varint_suffix _ _ _ E) as (h & X & Y). assert (1 <= length h)%nat by (rewrite Y; destruct l; cbn; [|repeat dmatch]; lia). rewrite X, app_length. lia. }
    induction 1; intros f0 rest0 Es; try discriminate; try (injection Es as <- <-);
      repeat match goal with A : rd_varint _ = Some _ |- _ => apply K in A end; rewrite ?app_length in *; try lia.
    specialize (IHnext _ _ Es). lia.
  Qed.
  Lemma frames_det bs fs1 s1 : frames g bs fs1 s1 -> forall fs2 s2, frames g bs fs2 s2 -> fs1 = fs2 /\ s1 = s2.
  Proof.
    induction 1 as [bs s H Hn|bs f rest fs s H Hf IH]; intros fs2 s2 H2; inversion H2; subst.
    - split; [reflexivity|]. eapply next_det; eauto.
    - exfalso. eapply Hn. eapply next_det; [exact H|]; eauto.
    - exfalso. match goal with A : forall f rest, _ <> Frame f rest |- _ => eapply A; eapply next_det; [|exact H]; eauto end.
    - match goal with A : next g bs (Frame _ _) |- _ => pose proof (next_det _ _ H _ A) as E; injection E as <- <- end.
      match goal with A : frames g rest _ _ |- _ => destruct (IH _ _ A) as [-> ->]; auto end.
  Qed.
  Lemma frames_total n : forall bs, (length bs < n)%nat -> exists fs s, frames g bs fs s.
  Proof.
    induction n as [|n IH]; intros bs L; [lia|]. destruct (next_total (S (length bs)) bs ltac:(lia)) as (s & Hs).
    destruct s as [| |f rest|e].
    1,2,4: exists []; eexists; apply f_end; [exact Hs|discriminate].
    pose proof (next_shorter _ _ Hs _ _ eq_refl). destruct (IH rest ltac:(lia)) as (fs & s & H'). exists (f :: fs), s. eapply f_more; eauto.
  Qed.
End Det.

(** *** Settings *)
Fixpoint s_fold (acc : settings) (ps : list (N * N)) : bool + settings :=
  match ps with
  | [] => inr acc
  | (t, v) :: ps' => if mem t RESERVED_SETTINGS then inl true else match s_one acc t v with inr a => s_fold a ps' | inl e => inl e end
  end.
Definition tail_reserved (l : list N) : bool := match rd_varint l with Some (t, _) => mem t RESERVED_SETTINGS | None => false end.
Lemma rd_short l v r : rd_varint l = Some (v, r) -> (length r < length l)%nat.
Proof. intros E. destruct (rd_varint_suffix _ _ _ E) as (h & X & Y). assert (1 <= length h)%nat by (rewrite Y; destruct l; cbn; [|repeat dmatch]; lia). rewrite X, app_length. lia. Qed.
Lemma s_decode_pairs l ps tl : pairs l ps tl -> forall fuel acc, (length l <= fuel)%nat ->
  s_decode fuel acc l = match s_fold acc ps with inl e => inl e | inr a => if is_nil tl then inr a else inl (tail_reserved tl) end.
Proof.
  induction 1 as [l H|l t v r r' ps tl H1 H2 H3 IH]; intros fuel acc L.
  - destruct l as [|b0 l0]; [destruct fuel; reflexivity|]. set (l := b0 :: l0) in *. destruct fuel as [|fuel]; [cbn in L; lia|].
    cbn [s_fold]. replace (is_nil l) with false by reflexivity. unfold tail_reserved.
    replace (s_decode (S fuel) acc l) with
      (let '(t, r1) := dec_v l in let '(v, r2) := dec_v r1 in
       if match t with Some t => mem t RESERVED_SETTINGS | None => false end then inl true
       else match t, v with Some t, Some v => match s_one acc t v with inr s' => s_decode fuel s' r2 | inl e => inl e end | _, _ => inl false end) by reflexivity.
    clearbody l. unfold dec_v. destruct H as [E|(t & r & E1 & E2)].
    + rewrite E. rewrite E. reflexivity.
    + rewrite E1, E2. destruct (mem t RESERVED_SETTINGS); reflexivity.
  - pose proof (rd_short _ _ _ H1). pose proof (rd_short _ _ _ H2). destruct l as [|b0 l0]; [discriminate|]. set (l := b0 :: l0) in *. destruct fuel as [|fuel]; [cbn in L; lia|].
    replace (s_decode (S fuel) acc l) with
      (let '(t, r1) := dec_v l in let '(v, r2) := dec_v r1 in
       if match t with Some t => mem t RESERVED_SETTINGS | None => false end then inl true
       else match t, v with Some t, Some v => match s_one acc t v with inr s' => s_decode fuel s' r2 | inl e => inl e end | _, _ => inl false end) by reflexivity.
    clearbody l. unfold dec_v. rewrite H1, H2. cbn [s_fold]. destruct (mem t RESERVED_SETTINGS); [reflexivity|].
    destruct (s_one acc t v) as [e|a]; [reflexivity|]. apply IH. lia.
Qed.
Lemma pairs_total n : forall l, (length l < n)%nat -> exists ps tl, pairs l ps tl.
Proof.
  induction n as [|n IH]; intros l L; [lia|]. destruct (rd_varint l) as [[t r]|] eqn:E1; [|exists [], l; apply p_end; auto].
  destruct (rd_varint r) as [[v r']|] eqn:E2; [|exists [], l; apply p_end; eauto 6].
  apply rd_short in E1 as S1. apply rd_short in E2 as S2. destruct (IH r' ltac:(lia)) as (ps & tl & H). exists ((t, v) :: ps), tl. eapply p_pair; eauto.
Qed.
Lemma mem_reserved t : mem t RESERVED_SETTINGS = true <-> reserved_setting t.
Proof. unfold mem, RESERVED_SETTINGS, reserved_setting. cbn [existsb]. lia. Qed.
Definition has (k : stype) (a : settings) : bool := existsb (fun p => stype_eqb (fst p) k) a.
Lemma s_get_app acc t v k : s_get (acc ++ [(t, v)]) k = if has k acc then s_get acc k else if stype_eqb t k then v else s_default k.
Proof.
  unfold s_get, has. induction acc as [|[t0 v0] acc IH]; cbn [app find existsb fst]; [destruct (stype_eqb t k); reflexivity|].
  destruct (stype_eqb t0 k); cbn [orb]; [reflexivity|exact IH].
Qed.
Lemma s_get_none acc k : has k acc = false -> s_get acc k = s_default k.
Proof. unfold s_get, has. induction acc as [|[t0 v0] acc IH]; cbn [find existsb fst]; [reflexivity|]. destruct (stype_eqb t0 k); [discriminate|exact IH]. Qed.
Lemma has_app acc t v k : has k (acc ++ [(t, v)]) = has k acc || stype_eqb t k.
Proof. unfold has. rewrite existsb_app. cbn. rewrite Bool.orb_false_r. reflexivity. Qed.
Lemma s_one_spec acc t v : ~ reserved_setting t ->
  (switch t /\ 1 < v -> s_one acc t v = inl true) /\
  (~ (switch t /\ 1 < v) -> exists a, s_one acc t v = inr a /\ forall k,
     s_get a k = (if has k acc then s_get acc k else if existsb (N.eqb t) (ids_of k) then v else s_default k) /\
     has k a = has k acc || existsb (N.eqb t) (ids_of k)).
Proof.
  intros Nr. unfold s_one, switch. cbn [In].
  unfold ID_MAX_HEADER_LIST_SIZE, ID_TABLE_CAPACITY, ID_BLOCKED_STREAMS, ID_WEB_TRANSPORT, ID_DATAGRAM_DRAFT04, ID_DATAGRAM, ID_CONNECT in *.
  assert (P : forall t0, (forall k, existsb (N.eqb t) (ids_of k) = stype_eqb t0 k) -> exists a, @inr bool settings (acc ++ [(t0, v)]) = inr a /\ forall k,
     s_get a k = (if has k acc then s_get acc k else if existsb (N.eqb t) (ids_of k) then v else s_default k) /\ has k a = has k acc || existsb (N.eqb t) (ids_of k)).
  { intros t0 Hk. eexists. split; [reflexivity|]. intros k. rewrite s_get_app, has_app, Hk. auto. }
  destruct (N.eqb_spec t 0x6) as [->|N1]; [split; [intros [[H|[H|[H|[H|[]]]]] _]; discriminate H|intros _; apply P; intros []; reflexivity]|].
  destruct (N.eqb_spec t 0x1) as [->|N2]; [split; [intros [[H|[H|[H|[H|[]]]]] _]; discriminate H|intros _; apply P; intros []; reflexivity]|].
  destruct (N.eqb_spec t 0x7) as [->|N3]; [split; [intros [[H|[H|[H|[H|[]]]]] _]; discriminate H|intros _; apply P; intros []; reflexivity]|].
  assert (Hb : forall s0, (1 < v -> s_bool v s0 = inl true) /\ (~ 1 < v -> s_bool v s0 = inr s0)) by (intros s0; unfold s_bool; destruct (N.ltb_spec 1 v); split; intros; auto; lia).
  destruct (N.eqb_spec t 0x2b603742) as [->|N4].
  { split; [intros [_ V]; apply Hb; exact V|]. intros V. rewrite (proj2 (Hb _)) by tauto. apply P. intros []; reflexivity. }
  destruct (N.eqb_spec t 0xffd277) as [->|N5].
  { cbn [orb]. split; [intros [_ V]; apply Hb; exact V|]. intros V. rewrite (proj2 (Hb _)) by tauto. change (s_has_datagram acc) with (has EnableH3Datagram acc).
    destruct (has EnableH3Datagram acc) eqn:Hd; [|apply P; intros []; reflexivity].
    exists acc. split; [reflexivity|]. intros k. destruct (has k acc) eqn:Hh; [auto|]. rewrite (s_get_none _ _ Hh). destruct k; cbn; auto; congruence. }
  destruct (N.eqb_spec t 0x33) as [->|N6].
  { cbn [orb]. split; [intros [_ V]; apply Hb; exact V|]. intros V. rewrite (proj2 (Hb _)) by tauto. change (s_has_datagram acc) with (has EnableH3Datagram acc).
    destruct (has EnableH3Datagram acc) eqn:Hd; [|apply P; intros []; reflexivity].
    exists acc. split; [reflexivity|]. intros k. destruct (has k acc) eqn:Hh; [auto|]. rewrite (s_get_none _ _ Hh). destruct k; cbn; auto; congruence. }
  cbn [orb]. destruct (N.eqb_spec t 0x8) as [->|N7].
  { split; [intros [_ V]; apply Hb; exact V|]. intros V. rewrite (proj2 (Hb _)) by tauto. apply P. intros []; reflexivity. }
  split; [intros [[H|[H|[H|[H|[]]]]] _]; congruence|]. intros _. exists acc. split; [reflexivity|]. intros k.
  assert (E0 : existsb (N.eqb t) (ids_of k) = false).
  { destruct k; cbn [ids_of existsb]; repeat match goal with |- context [N.eqb t ?x] => destruct (N.eqb_spec t x); [congruence|] end; reflexivity. }
  rewrite E0, Bool.orb_false_r. split; [|reflexivity]. destruct (has k acc) eqn:Hh; [reflexivity|apply s_get_none; exact Hh].
Qed.
Lemma s_fold_spec ps : forall acc,
  ((exists p, In p ps /\ bad_pair p) -> s_fold acc ps = inl true) /\
  ((forall p, In p ps -> ~ bad_pair p) -> exists a, s_fold acc ps = inr a /\ forall k, s_get a k = if has k acc then s_get acc k else value_of ps k).
Proof.
  induction ps as [|[t v] ps IH]; intros acc.
  - split; [intros (p & [] & _)|]. intros _. exists acc. split; [reflexivity|]. intros k. destruct (has k acc) eqn:H; [reflexivity|]. apply s_get_none. exact H.
  - cbn [s_fold]. destruct (mem t RESERVED_SETTINGS) eqn:R.
    + split; [reflexivity|]. intros H. exfalso. apply (H (t, v)); [left; reflexivity|]. left. apply mem_reserved. exact R.
    + assert (Nr : ~ reserved_setting t) by (rewrite <- mem_reserved; congruence).
      destruct (s_one_spec acc t v Nr) as [S1 S2].
      assert (D : (switch t /\ 1 < v) \/ ~ (switch t /\ 1 < v)).
      { unfold switch. cbn [In]. destruct (N.lt_ge_cases 1 v); [|right; intros [_ ?]; lia].
        destruct (N.eq_dec t 0x2b603742), (N.eq_dec t 0xffd277), (N.eq_dec t 0x33), (N.eq_dec t 8); try (left; split; [subst t; auto 8|assumption]). right. intros [[?|[?|[?|[?|[]]]]] _]; congruence. }
      destruct D as [D|D].
      * rewrite (S1 D). split; [reflexivity|]. intros H. exfalso. apply (H (t, v)); [left; reflexivity|]. right. exact D.
      * destruct (S2 D) as (a & -> & Ha). destruct (IH a) as [I1 I2]. split.
        -- intros (p & [<-|Hp] & B); [destruct B as [B|B]; [destruct (Nr B)|destruct (D B)]|]. apply I1. eauto.
        -- intros H. destruct I2 as (a' & -> & Ha'); [intros p Hp; apply H; right; exact Hp|]. exists a'. split; [reflexivity|]. intros k. rewrite Ha'.
           destruct (Ha k) as [-> ->]. destruct (has k acc); [reflexivity|]. cbn [orb]. unfold value_of at 2. cbn [find fst].
           destruct (existsb (N.eqb t) (ids_of k)); reflexivity.
Qed.
(** What the settings frame means. *)
Definition read_settings (p : list N) : settings + herr :=
  match s_decode (length p) [] p with inl true => inr HttpSettings | inl false => inr HttpFrame | inr s => inl s end.
Lemma read_settings_spec p ps tl : pairs p ps tl ->
  ((exists q, In q ps /\ bad_pair q) -> read_settings p = inr HttpSettings) /\
  ((forall q, In q ps -> ~ bad_pair q) ->
     (tl = [] -> exists s, read_settings p = inl s /\ forall k, s_get s k = value_of ps k) /\
     (tl <> [] -> read_settings p = inr (if tail_reserved tl then HttpSettings else HttpFrame))).
Proof.
  intros P. unfold read_settings. rewrite (s_decode_pairs _ _ _ P) by lia. destruct (s_fold_spec ps []) as [S1 S2]. split.
  - intros H. rewrite (S1 H). reflexivity.
  - intros H. destruct (S2 H) as (a & -> & Ha). split.
    + intros ->. exists a. cbn [is_nil]. split; [reflexivity|]. exact Ha.
    + intros Hn. destruct tl as [|x tl]; [congruence|]. cbn [is_nil]. destruct (tail_reserved (x :: tl)); reflexivity.
Qed.
Lemma pairs_det l ps tl : pairs l ps tl -> forall ps' tl', pairs l ps' tl' -> ps = ps' /\ tl = tl'.
Proof.
  induction 1 as [l H|l t v r r' ps tl H1 H2 H3 IH]; intros ps' tl' Q; inversion Q; subst; auto.
  - exfalso. destruct H as [H|(t0 & r0 & H & H')]; congruence.
  - exfalso. match goal with A : _ \/ _ |- _ => destruct A as [?|(t0 & r0 & ? & ?)]; congruence end.
  - match goal with A : rd_varint l = _ |- _ => rewrite H1 in A; injection A as <- <- end.
    match goal with A : rd_varint r = _ |- _ => rewrite H2 in A; injection A as <- <- end.
    match goal with A : pairs r' _ _ |- _ => destruct (IH _ _ A) as [-> ->] end. auto.
Qed.

(** *** The frame types *)
Lemma HFRAME_agrees prio : agrees (HFRAME prio) (h3 prio read_settings).
Proof.
  intros t. unfold h3.
  destruct (N.eqb_spec t 2) as [->|]; [reflexivity|]. destruct (N.eqb_spec t 6) as [->|]; [reflexivity|].
  destruct (N.eqb_spec t 8) as [->|]; [reflexivity|]. destruct (N.eqb_spec t 9) as [->|]; [reflexivity|]. cbn [orb].
  destruct (N.eqb_spec t 0) as [->|]; [splits; auto|].
  destruct (N.eqb_spec t 1) as [->|]; [splits; auto|].
  destruct (N.eqb_spec t 3) as [->|]; [splits; auto; intros d; unfold HFRAME, fd_decode, h_decode, h_payload; cbn -[rd_varint s_decode lenN]; unfold h_varint, one_varint; destruct (rd_varint d) as [[v [|]]|]; reflexivity|].
  destruct (N.eqb_spec t 4) as [->|]; [splits; auto; intros d; unfold HFRAME, fd_decode, h_decode, h_payload; cbn -[rd_varint s_decode lenN]; unfold read_settings; destruct (s_decode (length d) [] d) as [[|]|]; reflexivity|].
  destruct (N.eqb_spec t 5) as [->|]; [splits; auto; intros d; unfold HFRAME, fd_decode, h_decode, h_payload; cbn -[rd_varint s_decode lenN]; destruct (rd_varint d) as [[v r]|]; reflexivity|].
  destruct (N.eqb_spec t 7) as [->|]; [splits; auto; intros d; unfold HFRAME, fd_decode, h_decode, h_payload; cbn -[rd_varint s_decode lenN]; unfold h_varint, one_varint; destruct (rd_varint d) as [[v [|]]|]; reflexivity|].
  destruct (N.eqb_spec t 13) as [->|]; [splits; auto; intros d; unfold HFRAME, fd_decode, h_decode, h_payload; cbn -[rd_varint s_decode lenN]; unfold h_varint, one_varint; destruct (rd_varint d) as [[v [|]]|]; reflexivity|].
  destruct (N.eqb_spec t 0xf0700) as [->|]; [splits; auto; intros d; unfold HFRAME, fd_decode, h_decode, h_payload; cbn -[rd_varint s_decode lenN]; destruct (rd_varint d) as [[v r]|]; [destruct (prio r)|]; reflexivity|].
  destruct (N.eqb_spec t 0xf0701) as [->|]; [splits; auto; intros d; unfold HFRAME, fd_decode, h_decode, h_payload; cbn -[rd_varint s_decode lenN]; destruct (rd_varint d) as [[v r]|]; [destruct (prio r)|]; reflexivity|].
  assert (M : forall x, t <> x -> (t =? x) = false) by (intros; apply N.eqb_neq; assumption).
  cbn [HFRAME fd_allowed fd_known fd_decode]. unfold h_allowed, h_known, mem, RESERVED_TYPES. cbn [existsb].
  unfold T_DATA, T_HEADERS, T_CANCEL_PUSH, T_SETTINGS, T_PUSH_PROMISE, T_GOAWAY, T_MAX_PUSH_ID, T_PRIORITY_REQUEST, T_PRIORITY_PUSH.
  rewrite !M by assumption. splits; auto. intros len d. unfold h_decode, h_payload.
  unfold T_DATA, T_HEADERS, T_CANCEL_PUSH, T_SETTINGS, T_PUSH_PROMISE, T_GOAWAY, T_MAX_PUSH_ID, T_PRIORITY_REQUEST, T_PRIORITY_PUSH.
  rewrite !M by assumption. destruct d; reflexivity.
Qed.
Lemma CAPSULE_agrees : agrees CAPSULE capsules.
Proof. intros t. unfold capsules. cbn [CAPSULE fd_allowed fd_known fd_decode fd_max]. destruct (N.eqb_spec t 0) as [->|]; splits; auto. Qed.
Lemma WTFRAME_agrees utf8 : agrees (WTFRAME utf8) (wt utf8).
Proof.
  intros t. unfold wt. cbn [WTFRAME fd_allowed fd_known fd_decode fd_max]. unfold WT_CLOSE. destruct (N.eqb_spec t 0x2843) as [->|]; splits; auto.
  2: { intros _ [d|]; reflexivity. }
  intros d L. destruct (N.ltb_spec (1024 + 4) (lenN d)); [lia|]. unfold rd_n.
  destruct (Nat.ltb_spec (length d) 4) as [H1|H1]; destruct (N.ltb_spec (lenN d) 4) as [H2|H2]; unfold lenN in H2; try lia; cbn [orb]; [reflexivity|].
  destruct (utf8 (skipn 4 d)); reflexivity.
Qed.

(** *** What is written is read back *)
Lemma vvec_some p b : vvec p = Some b -> exists l, varint_bytes (lenN p) = Some l /\ b = l ++ p.
Proof. unfold vvec. destruct (varint_bytes (lenN p)) as [l|]; [|discriminate]. intros E. injection E as <-. eauto. Qed.
Lemma obind_some {A B} (x : option A) (f : A -> option B) b : obind x f = Some b -> exists a, x = Some a /\ f a = Some b.
Proof. destruct x; [eauto|discriminate]. Qed.
Section Write.
  Context {F : Type} (g : N -> kind F).
  Lemma next_whole t a p l lim parse f x : varint_bytes t = Some a -> varint_bytes (lenN p) = Some l -> g t = Whole lim parse -> lenN p <= lim -> parse p = inl f ->
    next g ((a ++ l ++ p) ++ x) (Frame f x).
  Proof.
    intros Ha Hl G L P. rewrite <- !app_assoc. eapply n_whole; [apply rd_varint_encode; exact Ha|exact G|apply rd_varint_encode; exact Hl|exact L|reflexivity|exact P].
  Qed.
  Lemma next_skip t a p l x s : varint_bytes t = Some a -> varint_bytes (lenN p) = Some l -> g t = Ignored -> next g x s -> next g ((a ++ l ++ p) ++ x) s.
  Proof.
    intros Ha Hl G H. rewrite <- !app_assoc. eapply n_skip; [apply rd_varint_encode; exact Ha|exact G|apply rd_varint_encode; exact Hl|reflexivity|exact H].
  Qed.
End Write.
Fixpoint flat (ps : list (N * N)) : list N := match ps with [] => [] | (t, v) :: ps' => t :: v :: flat ps' end.
Lemma varints_pairs ps : forall w, varints (flat ps) = Some w -> pairs w ps [].
Proof.
  induction ps as [|[t v] ps IH]; intros w; cbn [flat varints].
  - intros E. injection E as <-. apply p_end. left. reflexivity.
  - destruct (varint_bytes t) as [a|] eqn:Ea; [|discriminate]. destruct (varint_bytes v) as [b|] eqn:Eb; [|discriminate].
    destruct (varints (flat ps)) as [c|] eqn:Ec; [|discriminate]. intros E. injection E as <-.
    eapply p_pair; [apply rd_varint_encode; exact Ea|apply rd_varint_encode; exact Eb|apply IH; reflexivity].
Qed.
Definition s_pairs (p : stype * N) : list (N * N) :=
  let '(t, v) := p in
  match t with
  | MaxHeaderListSize => [(6, v)] | MaxTableCapacity => [(1, v)] | BlockedStreams => [(7, v)] | EnableWebTransport => [(0x2b603742, v)]
  | EnableH3Datagram => if v =? 1 then [(0xffd277, v); (0x33, v)] else []
  | EnableConnect => if v =? 1 then [(8, v)] else []
  end.
Lemma s_ids_pairs s : concat (map s_ids s) = flat (concat (map s_pairs s)).
Proof.
  induction s as [|[t v] s IH]; [reflexivity|]. cbn [map concat]. rewrite IH. destruct t; cbn; auto; destruct (v =? 1); reflexivity.
Qed.
(** Settings that say one thing about each, with switches zero or one. *)
Definition is_switch (t : stype) : bool := match t with EnableWebTransport | EnableH3Datagram | EnableConnect => true | _ => false end.
Definition s_ok (s : settings) : Prop := NoDup (map fst s) /\ Forall (fun p => is_switch (fst p) = true -> snd p <= 1) s.
Lemma stype_eqb_eq a b : stype_eqb a b = true <-> a = b.
Proof. destruct a, b; cbn; split; intros; auto; discriminate. Qed.
Lemma value_pairs s k : s_ok s -> value_of (concat (map s_pairs s)) k = s_get s k.
Proof.
  intros [N0 B]. induction s as [|[t v] s IH]; [reflexivity|]. cbn [map] in N0. apply NoDup_cons_iff in N0 as [Nt N0]. apply Forall_cons_iff in B as [Bv B].
  specialize (IH N0 B). cbn [map concat]. cbn [fst snd] in *.
  assert (Hk : k = t \/ k <> t) by (destruct k, t; auto; right; discriminate). destruct Hk as [->|Ne].
  - replace (s_get ((t, v) :: s) t) with v by (unfold s_get; cbn [find fst]; rewrite (proj2 (stype_eqb_eq t t) eq_refl); reflexivity).
    assert (D : s_get s t = s_default t).
    { apply s_get_none. unfold has. apply Bool.not_true_iff_false. intros E. apply existsb_exists in E as ([t' v'] & Hi & Ht). apply stype_eqb_eq in Ht. cbn in Ht. subst t'. apply Nt. apply in_map_iff. exists (t, v'). auto. }
    destruct t; cbn [s_pairs app]; try reflexivity.
    + destruct (N.eqb_spec v 1) as [->|Nv]; [reflexivity|]. cbn [app]. rewrite IH, D. cbn. specialize (Bv eq_refl). lia.
    + destruct (N.eqb_spec v 1) as [->|Nv]; [reflexivity|]. cbn [app]. rewrite IH, D. cbn. specialize (Bv eq_refl). lia.
  - replace (s_get ((t, v) :: s) k) with (s_get s k).
    2: { unfold s_get. cbn [find fst]. destruct (stype_eqb t k) eqn:E; [apply stype_eqb_eq in E; congruence|reflexivity]. }
    rewrite <- IH. unfold value_of. f_equal. destruct t, k; try congruence; cbn [s_pairs app]; repeat match goal with |- context [v =? 1] => destruct (v =? 1) end; reflexivity.
Qed.
Lemma pairs_fine s : s_ok s -> forall q, In q (concat (map s_pairs s)) -> ~ bad_pair q.
Proof.
  intros [_ B] q Hq. apply in_concat in Hq as (l & Hl & Hq). apply in_map_iff in Hl as ([t v] & <- & Hi). rewrite Forall_forall in B. specialize (B _ Hi). cbn [fst snd] in B.
  unfold bad_pair, reserved_setting, switch. cbn [In].
  destruct t; cbn [s_pairs] in Hq; try (destruct (v =? 1) eqn:Ev; [apply N.eqb_eq in Ev|]); cbn [In] in Hq;
    repeat match goal with A : _ \/ _ |- _ => destruct A as [A|A] end; try contradiction; subst q; cbn [fst snd]; specialize (B eq_refl) || idtac;
    intros [?|[[?|[?|[?|[?|[]]]]] ?]]; try lia; try discriminate.
Qed.
Lemma settings_back s w : s_ok s -> s_encode s = Some w -> exists s', read_settings w = inl s' /\ forall k, s_get s' k = s_get s k.
Proof.
  intros K E. unfold s_encode in E. rewrite s_ids_pairs in E. pose proof (varints_pairs _ _ E) as P.
  destruct (read_settings_spec _ _ _ P) as [_ R]. destruct (R (pairs_fine s K)) as [(s' & Es & G) _]; [reflexivity|]. exists s'. split; [exact Es|].
  intros k. rewrite G. apply value_pairs. exact K.
Qed.
(** The same frame, settings by their values. *)
Definition same (f f' : hframe) : Prop :=
  match f with FSettings s => exists s', f' = FSettings s' /\ forall k, s_get s' k = s_get s k | _ => f' = f end.
(** Frames that fit what the reader takes; DATA is written here without a payload. *)
Definition fits (prio : list N -> option priority) (f : hframe) : Prop :=
  match f with
  | FData len => len = 0
  | FHeaders b => lenN b <= MAX_HEADER_BYTES
  | FPushPromise _ b => lenN b + 8 <= MAX_HEADER_BYTES
  | FSettings s => s_ok s /\ forall w, s_encode s = Some w -> lenN w <= MAX_BUFFERED
  | FPriorityRequest _ p | FPriorityPush _ p => prio (priority_text p) = Some p
  | _ => True
  end.
Lemma varint_len_bytes v : match varint_len v, varint_bytes v with Some k, Some w => k = lenN w /\ k <= 8 | None, None => True | _, _ => False end.
Proof.
  unfold varint_len, varint_bytes. repeat match goal with |- context [if ?c then _ else _] => destruct c end; auto; (split; [|lia]); unfold lenN; rewrite ?be_bytes_length; reflexivity.
Qed.
Lemma varint_short v w : varint_bytes v = Some w -> lenN w <= 8.
Proof. intros E. pose proof (varint_len_bytes v) as H. rewrite E in H. destruct (varint_len v); [|contradiction]. lia. Qed.
Lemma grease_ignored prio sett r : h3 prio sett (N.shiftr r 7 * 0x1f + 0x21) = Ignored.
Proof.
  set (k := N.shiftr r 7). clearbody k. unfold h3.
  assert (M : forall x, (x < 33 \/ x mod 31 <> 2) -> (k * 0x1f + 0x21 =? x) = false).
  { intros x H. apply N.eqb_neq. intros E. destruct H as [H|H]; [lia|]. apply H. rewrite <- E. replace (k * 0x1f + 0x21) with (2 + (k + 1) * 31) by lia. rewrite N.mod_add by lia. reflexivity. }
  rewrite !M; [reflexivity|..]; try (left; lia); right; vm_compute; discriminate.
Qed.
Lemma text_short p : lenN (priority_text p) <= 5.
Proof. unfold priority_text, lenN. destruct (pr_urgency p =? 3), (pr_incremental p); cbn; lia. Qed.
Lemma written_next prio r rnd f w : h_encode r rnd f = Some w -> fits prio f -> forall x,
  (f = FGrease -> forall s, next (h3 prio read_settings) x s -> next (h3 prio read_settings) (w ++ x) s) /\
  (f <> FGrease -> exists f', same f f' /\ next (h3 prio read_settings) (w ++ x) (Frame f' x)).
Proof.
  intros E K x. unfold h_encode in E. apply obind_some in E as (t & Et & E). apply obind_some in E as (b & Eb & E). injection E as <-.
  assert (S1 : forall i wi, varint_bytes i = Some wi -> forall f0, one_varint f0 wi = (inl (f0 i) : hframe + herr)).
  { intros i wi Hi f0. unfold one_varint. rewrite <- (app_nil_r wi). rewrite (rd_varint_encode _ _ [] Hi). reflexivity. }
  split; [intros ->|intros Ng; destruct f as [len|blk|i|s|i blk|i|i| |i p|i p]; [| | | | | | |congruence| |]]; cbn [h_type h_body] in *.
  - intros s Hs. destruct rnd as [|a rnd]; [discriminate|]. apply vvec_some in Eb as (l & El & ->). rewrite !app_assoc, <- (app_assoc t). eapply next_skip; eauto. apply grease_ignored.
  - exists (FData len). split; [reflexivity|]. rewrite <- app_assoc. eapply n_once; [apply rd_varint_encode; exact Et|reflexivity|apply rd_varint_encode; exact Eb].
  - exists (FHeaders blk). split; [reflexivity|]. apply vvec_some in Eb as (l & El & ->). refine (next_whole _ _ _ blk l _ _ _ x Et El eq_refl K eq_refl).
  - exists (FCancelPush i). split; [reflexivity|]. apply obind_some in Eb as (wi & Ei & Eb). apply vvec_some in Eb as (l & El & ->).
    refine (next_whole _ _ _ wi l _ _ _ x Et El eq_refl (varint_short _ _ Ei) (S1 _ _ Ei _)).
  - apply obind_some in Eb as (ws & Es & Eb). apply vvec_some in Eb as (l & El & ->). destruct K as [K1 K2]. destruct (settings_back s ws K1 Es) as (s' & R & G).
    exists (FSettings s'). split; [cbn; eauto|]. refine (next_whole _ _ _ ws l _ _ _ x Et El eq_refl (K2 _ Es) _). rewrite R. reflexivity.
  - exists (FPushPromise i blk). split; [reflexivity|]. apply obind_some in Eb as (k & Ek & Eb). apply obind_some in Eb as (l & El & Eb). apply obind_some in Eb as (wi & Ei & Eb). injection Eb as <-.
    pose proof (varint_len_bytes i) as Hk. rewrite Ek, Ei in Hk. destruct Hk as [-> Hk].
    refine (next_whole _ _ _ (wi ++ blk) l _ _ _ x Et _ eq_refl _ _).
    + rewrite lenN_app, N.add_comm. exact El.
    + rewrite lenN_app. cbn [fits] in K. change MAX_HEADER_BYTES with 393216 in K. lia.
    + cbn beta. rewrite (rd_varint_encode _ _ blk Ei). reflexivity.
  - exists (FGoaway i). split; [reflexivity|]. apply obind_some in Eb as (wi & Ei & Eb). apply vvec_some in Eb as (l & El & ->).
    refine (next_whole _ _ _ wi l _ _ _ x Et El eq_refl (varint_short _ _ Ei) (S1 _ _ Ei _)).
  - exists (FMaxPushId i). split; [reflexivity|]. apply obind_some in Eb as (wi & Ei & Eb). apply vvec_some in Eb as (l & El & ->).
    refine (next_whole _ _ _ wi l _ _ _ x Et El eq_refl (varint_short _ _ Ei) (S1 _ _ Ei _)).
  - exists (FPriorityRequest i p). split; [reflexivity|]. apply obind_some in Eb as (wi & Ei & Eb). apply vvec_some in Eb as (l & El & ->).
    refine (next_whole _ _ _ (wi ++ priority_text p) l _ _ _ x Et El eq_refl _ _); [|cbn beta; rewrite (rd_varint_encode _ _ _ Ei); cbn [fits] in K; rewrite K; reflexivity].
    rewrite lenN_app. pose proof (varint_short _ _ Ei). pose proof (text_short p). lia.
  - exists (FPriorityPush i p). split; [reflexivity|]. apply obind_some in Eb as (wi & Ei & Eb). apply vvec_some in Eb as (l & El & ->).
    refine (next_whole _ _ _ (wi ++ priority_text p) l _ _ _ x Et El eq_refl _ _); [|cbn beta; rewrite (rd_varint_encode _ _ _ Ei); cbn [fits] in K; rewrite K; reflexivity].
    rewrite lenN_app. pose proof (varint_short _ _ Ei). pose proof (text_short p). lia.
Qed.
(** A sequence of frames, each with its random values. *)
Fixpoint h_write (l : list (N * list N * hframe)) : option (list N) :=
  match l with [] => Some [] | (r, rnd, f) :: l' => obind (h_encode r rnd f) (fun a => obind (h_write l') (fun b => Some (a ++ b))) end.
Definition not_grease (f : hframe) : bool := match f with FGrease => false | _ => true end.
Lemma written_frames prio l : forall w, h_write l = Some w -> Forall (fun p => fits prio (snd p)) l ->
  exists fs, frames (h3 prio read_settings) w fs Nothing /\ Forall2 same (filter not_grease (map snd l)) fs.
Proof.
  induction l as [|[[r rnd] f] l IH]; intros w E K; cbn [h_write] in E.
  - injection E as <-. exists []. split; [apply frames_nothing|constructor].
  - apply obind_some in E as (a & Ea & E). apply obind_some in E as (b & Eb & E). injection E as <-. apply Forall_cons_iff in K as [Kf K]. destruct (IH b Eb K) as (fs & Hfs & Hs).
    destruct (written_next prio r rnd f a Ea Kf b) as [W1 W2]. destruct f; cbn [map snd filter not_grease].
    all: try (destruct W2 as (f' & Sf & Hn); [discriminate|]; exists (f' :: fs); split; [eapply f_more; eauto|constructor; [exact Sf|exact Hs]]).
    exists fs. split; [|exact Hs]. inversion Hfs; subst; [apply f_end; auto|eapply f_more; eauto].
Qed.

(** *** 0-RTT *)
Lemma zrtt_decode p w : zrtt_save p = Some w -> exists r, rd_varint w = Some (1, r) /\
  pairs r ([(1, p_table p); (7, p_blocked p)] ++ (if p_wt p then [(0x2b603742, 1)] else []) ++ (if p_datagram p then [(0x33, 1)] else [])) [].
Proof.
  unfold zrtt_save. intros E. cbn [app varints] in E. change (varint_bytes ZERO_RTT_VERSION) with (Some [1]) in E. cbn [option_map] in E.
  match type of E with match match ?x with _ => _ end with _ => _ end = _ => idtac | _ => idtac end.
  destruct (varint_bytes ID_TABLE_CAPACITY) as [a|] eqn:Ea; [|discriminate].
  remember ((if p_wt p then [ID_WEB_TRANSPORT; 1] else []) ++ (if p_datagram p then [ID_DATAGRAM; 1] else [])) as tl eqn:Etl.
  assert (Hf : flat ([(1, p_table p); (7, p_blocked p)] ++ (if p_wt p then [(0x2b603742, 1)] else []) ++ (if p_datagram p then [(0x33, 1)] else [])) = ID_TABLE_CAPACITY :: p_table p :: ID_BLOCKED_STREAMS :: p_blocked p :: tl).
  { subst tl. destruct (p_wt p), (p_datagram p); reflexivity. }
  destruct (varints (ID_TABLE_CAPACITY :: p_table p :: ID_BLOCKED_STREAMS :: p_blocked p :: tl)) as [c|] eqn:Ec.
  2: { exfalso. cbn [varints] in Ec. rewrite Ea in Ec. repeat match goal with A : context [match ?x with Some _ => _ | None => _ end] |- _ => destruct x end; discriminate. }
  exists c. assert (Ew : w = [1] ++ c).
  { cbn [varints] in Ec. rewrite Ea in Ec. repeat match goal with A : context [match ?x with Some _ => _ | None => _ end] |- _ => destruct x; try discriminate end. injection E as <-. injection Ec as <-. reflexivity. }
  subst w. split; [apply (rd_varint_encode 1 [1] c); reflexivity|]. apply varints_pairs. rewrite Hf. exact Ec.
Qed.
Lemma zrtt_back p q w : zrtt_save p = Some w ->
  zrtt_check q w = if (p_table p <=? p_table q) && (p_blocked p <=? p_blocked q) && implb (p_wt p) (p_wt q) && implb (p_datagram p) (p_datagram q) then ZAccept else ZReject.
Proof.
  intros E. destruct (zrtt_decode p w E) as (r & E1 & P). unfold zrtt_check. rewrite E1. cbn [N.eqb negb Pos.eqb ZERO_RTT_VERSION].
  change (1 =? ZERO_RTT_VERSION) with true. cbn [negb]. rewrite (s_decode_pairs _ _ _ P) by lia.
  destruct p as [pt pb pw pd pc], q as [qt qb qw qd qc]. cbn [p_table p_blocked p_wt p_datagram]. clear. destruct pw, pd, qw, qd; cbv -[N.leb]; rewrite ?Bool.andb_true_r, ?Bool.andb_false_r; destruct (pt <=? qt), (pb <=? qb); reflexivity.
Qed.
Lemma zrtt_accept_gen q w r ps : rd_varint w = Some (1, r) -> pairs r ps [] -> zrtt_check q w = ZAccept ->
  value_of ps MaxTableCapacity <= p_table q /\ value_of ps BlockedStreams <= p_blocked q /\
  (value_of ps EnableWebTransport = 1 -> p_wt q = true) /\ (value_of ps EnableH3Datagram = 1 -> p_datagram q = true) /\ (value_of ps EnableConnect = 1 -> p_connect q = true).
Proof.
  intros E P. unfold zrtt_check. rewrite E. change (1 =? ZERO_RTT_VERSION) with true. cbn [negb]. rewrite (s_decode_pairs _ _ _ P) by lia. cbn [is_nil].
  destruct (s_fold_spec ps []) as [S1 S2].
  destruct (s_fold [] ps) as [e|a] eqn:Ef; [discriminate|].
  assert (Nb : forall q0, In q0 ps -> ~ bad_pair q0) by (intros q0 Hq B; specialize (S1 (ex_intro _ q0 (conj Hq B))); discriminate).
  destruct (S2 Nb) as (a' & Ea & G). injection Ea as <-.
  destruct (forallb (zrtt_one q) a) eqn:Fa; [|discriminate]. intros _. rewrite forallb_forall in Fa.
  assert (V : forall k, value_of ps k = s_default k \/ zrtt_one q (k, value_of ps k) = true).
  { intros k. specialize (G k). cbn [has existsb] in G. rewrite <- G. unfold s_get. destruct (find (fun p => stype_eqb (fst p) k) a) as [[k' v]|] eqn:Fi; [|auto].
    right. apply find_some in Fi as [Hi Hk]. apply stype_eqb_eq in Hk. cbn in Hk. subst k'. apply (Fa (k, v) Hi). }
  splits.
  - destruct (V MaxTableCapacity) as [->|H]; cbn in *; lia.
  - destruct (V BlockedStreams) as [->|H]; cbn in *; lia.
  - intros H1. destruct (V EnableWebTransport) as [H|H]; [cbn in H; lia|]. rewrite H1 in H. cbn in H. rewrite Bool.orb_false_r in H. exact H.
  - intros H1. destruct (V EnableH3Datagram) as [H|H]; [cbn in H; lia|]. rewrite H1 in H. cbn in H. rewrite Bool.orb_false_r in H. exact H.
  - intros H1. destruct (V EnableConnect) as [H|H]; [cbn in H; lia|]. rewrite H1 in H. cbn in H. rewrite Bool.orb_false_r in H. exact H.
Qed.

(** *** A life, in the terms of the specification *)
Section Life.
  Context {F : Type} (C : fdec F) (g : N -> kind F) (A : agrees C g).
  Lemma life_ok es : (forall b, In (Arrive b) es -> bytes_ok b) -> exists l, l_run C l_init es = Some l /\
    match l_status l with
    | Reading => (forall fs st, frames g (l_all l) fs st -> exists more, fs = l_out l ++ more) /\
        (l_idle l = true -> frames g (l_all l) (l_out l) Nothing \/ frames g (l_all l) (l_out l) Partial)
    | Failed e => (forall x, frames g (l_all l ++ x) (l_out l) (Fail e)) \/ (e = HttpFrame /\ s_fin (l_source l) = true /\ frames g (l_all l) (l_out l) Partial)
    | Ended => s_fin (l_source l) = true /\ frames g (l_all l) (l_out l) Nothing
    end.
  Proof.
    intros Ob. destruct (linv_run C g A es l_init Ob (linv_init g)) as (l & E & I). exists l. split; [exact E|]. unfold linv in I. destruct (l_status l); auto.
    destruct I as (p & R & Op & S & V & Fr & Id). split.
    - intros fs st H. destruct (frames_total g _ (p ++ concat (s_chunks (l_source l))) (Nat.lt_succ_diag_r _)) as (fs0 & st0 & H0).
      specialize (Fr [] fs0 st0). rewrite !app_nil_r in Fr. destruct (frames_det g _ _ _ H _ _ (Fr H0)) as [-> _]. eauto.
    - intros Hi. specialize (Id Hi). rewrite Id in Fr. specialize (Fr [] []). cbn [app] in Fr. rewrite !app_nil_r in Fr.
      pose proof (rel_next g _ _ R) as Nx. destruct p; cbn [is_nil] in Nx; [left|right]; apply Fr; apply f_end; auto; discriminate.
  Qed.
  Lemma life_buffer es l : (forall b, In (Arrive b) es -> bytes_ok b) -> l_run C l_init es = Some l -> l_status l = Reading ->
    forall b, r_state (l_reader l) = GetData b -> exists lim parse, g (r_type (l_reader l)) = Whole lim parse /\ lenN (ib_v b) + N.of_nat (ib_remaining b) <= lim.
  Proof.
    intros Ob E St b Es. destruct (linv_run C g A es l_init Ob (linv_init g)) as (l' & E' & I). rewrite E in E'. injection E' as <-. unfold linv in I. rewrite St in I.
    destruct I as (p & R & _). unfold rel in R. rewrite Es in R. destruct R as (h & _ & _ & _ & (lim & parse & G & L) & Ir & Lb). exists lim, parse. split; [exact G|]. unfold lenN in *. lia.
  Qed.
End Life.
