From Verif Require Import Base Lib CodecModel CodecSpec CodecProofs Reader IncrProofs HfModel HfSpec HfProofs HfProofs2 HhModel HmModel HmSpec HmProofs HmProofs3 HsModel HsSpec.
Open Scope N_scope.
Open Scope list_scope.
Import ListNotations.

Lemma data_header n w : h_encode 0 [] (FData n) = Some w -> lenN w = 1 + match varint_len n with Some k => k | None => 0 end /\ w <> [] /\ bytes_ok w.
Proof.
  unfold h_encode, obind, h_type, h_body, T_DATA. destruct (varint_bytes 0) as [t|] eqn:Et; [|discriminate]. destruct (varint_bytes n) as [b|] eqn:Eb; [|discriminate]. intros E. injection E as <-.
  rewrite (varint_bytes_len _ _ Eb). pose proof (varint_bytes_ok _ _ Et). pose proof (varint_bytes_ok _ _ Eb). vm_compute in Et. injection Et as <-. rewrite lenN_app. splits; [reflexivity|discriminate|apply bytes_ok_app; auto].
Qed.
Lemma to_send_ok len avail w : 3 <= avail -> len < 2 ^ 62 -> h_encode 0 [] (FData (to_send len avail)) = Some w -> lenN w + to_send len avail <= avail.
Proof.
  intros A L E. destruct (data_header _ _ E) as (-> & _). clear E.
  assert (V : forall n b, n < b -> match varint_len n with Some k => k | None => 0 end <= if b <=? 64 then 1 else if b <=? 2 ^ 14 then 2 else if b <=? 2 ^ 30 then 4 else 8).
  { intros n b H. unfold varint_len. repeat match goal with |- context [if ?c then _ else _] => let X := fresh in destruct c eqn:X end;
    repeat match goal with X : (_ <? _) = true |- _ => apply N.ltb_lt in X | X : (_ <? _) = false |- _ => apply N.ltb_ge in X | X : (_ <=? _) = true |- _ => apply N.leb_le in X | X : (_ <=? _) = false |- _ => apply N.leb_gt in X end; try lia. }
  unfold to_send, MAX_2_LIMIT, MAX_3_LIMIT, MAX_5_LIMIT, MAX_2, MAX_3, MAX_5. destruct (N.leb_spec avail (2 ^ 6 - 1 + 3)).
  - pose proof (V (N.min (N.min len (avail - 2)) (2 ^ 6 - 1)) 64 ltac:(lia)) as Q. change (if 64 <=? 64 then 1 else if 64 <=? 2 ^ 14 then 2 else if 64 <=? 2 ^ 30 then 4 else 8) with 1 in Q. lia.
  - destruct (N.leb_spec avail (2 ^ 14 - 1 + 5)).
    + pose proof (V (N.min (N.min len (avail - 3)) (2 ^ 14 - 1)) (2 ^ 14) ltac:(lia)) as Q. change (if 2 ^ 14 <=? 64 then 1 else if 2 ^ 14 <=? 2 ^ 14 then 2 else if 2 ^ 14 <=? 2 ^ 30 then 4 else 8) with 2 in Q. lia.
    + destruct (N.leb_spec avail (2 ^ 30 - 1)).
      * pose proof (V (N.min (N.min len (avail - 5)) (2 ^ 30 - 1 + 9)) (2 ^ 30) ltac:(lia)) as Q. change (if 2 ^ 30 <=? 64 then 1 else if 2 ^ 30 <=? 2 ^ 14 then 2 else if 2 ^ 30 <=? 2 ^ 30 then 4 else 8) with 4 in Q. lia.
      * pose proof (V (N.min len (avail - 9)) (2 ^ 62) ltac:(lia)) as Q. change (if 2 ^ 62 <=? 64 then 1 else if 2 ^ 62 <=? 2 ^ 14 then 2 else if 2 ^ 62 <=? 2 ^ 30 then 4 else 8) with 8 in Q. lia.
Qed.
Lemma to_send_len len avail : to_send len avail <= len.
Proof. unfold to_send. repeat match goal with |- context [if ?c then _ else _] => destruct c end; lia. Qed.
Lemma to_send_pos len avail : 3 <= avail -> 0 < len -> 0 < to_send len avail.
Proof. unfold to_send, MAX_2_LIMIT, MAX_3_LIMIT, MAX_5_LIMIT, MAX_2, MAX_3, MAX_5. intros. repeat match goal with |- context [?a <=? ?b] => destruct (N.leb_spec a b) end; lia. Qed.
Lemma data_some n : n < 2 ^ 62 -> exists w, h_encode 0 [] (FData n) = Some w.
Proof. intros H. unfold h_encode, obind, h_type, h_body, T_DATA. destruct (varint_bytes_some n H) as [b ->]. destruct (varint_bytes 0) eqn:E; [eauto|discriminate]. Qed.
Lemma headers_some b : lenN b <= 384 * 1024 -> exists w, h_encode 0 [] (FHeaders b) = Some w.
Proof. intros H. unfold h_encode, obind, h_type, h_body, vvec, T_HEADERS. destruct (varint_bytes_some (lenN b) ltac:(lia)) as [l ->]. destruct (varint_bytes 1) eqn:E; [eauto|discriminate]. Qed.
Lemma headers_bytes b w : bytes_ok b -> h_encode 0 [] (FHeaders b) = Some w -> bytes_ok w.
Proof.
  intros B. unfold h_encode, obind, h_type, h_body, vvec. destruct (varint_bytes T_HEADERS) as [t|] eqn:Et; [|discriminate]. destruct (varint_bytes (lenN b)) as [l|] eqn:El; [|discriminate]. intros E. injection E as <-.
  apply bytes_ok_app. split; [eapply varint_bytes_ok; eauto|]. apply bytes_ok_app. split; [eapply varint_bytes_ok; eauto|exact B].
Qed.
  Lemma buffer_ok s : (n_closed s = true -> n_buf s = []) -> exists s1, send_buffer s = ROk s1 /\ n_sent s1 ++ n_buf s1 = n_sent s ++ n_buf s /\ n_st s1 = n_st s /\ n_closed s1 = n_closed s /\
    lenN (n_sent s1) + n_avail s1 = lenN (n_sent s) + n_avail s /\ (n_buf s1 = [] \/ n_avail s1 = 0) /\ (n_buf s = [] -> s1 = s).
  Proof.
    intros C. unfold send_buffer. destruct (n_buf s) as [|b0 b] eqn:Eb; cbn [is_nil].
    - exists s. rewrite Eb. splits; auto.
    - unfold t_send. cbn [is_nil orb]. destruct (n_closed s) eqn:Ec; [specialize (C eq_refl); discriminate|].
      eexists. split; [reflexivity|]. cbn [n_with n_sent n_buf n_st n_closed n_avail]. set (B := b0 :: b). set (n := if n_avail s <? lenN B then n_avail s else lenN B).
      assert (Ln : n <= lenN B /\ n <= n_avail s) by (unfold n; destruct (N.ltb_spec (n_avail s) (lenN B)); lia).
      splits; auto.
      + rewrite <- app_assoc, firstn_skipn. reflexivity.
      + rewrite lenN_app. unfold lenN at 2. rewrite firstn_length. unfold lenN in *. lia.
      + unfold n. destruct (N.ltb_spec (n_avail s) (lenN B)); [right; lia|left]. apply skipn_all2. unfold lenN. lia.
      + discriminate.
  Qed.
  Lemma atomic_ok s b : n_buf s = [] -> n_closed s = false -> b <> [] -> lenN b <= n_avail s ->
    send_atomic s b = ROk (mkS (n_st s) [] (n_sent s ++ b) (n_avail s - lenN b) false, true).
  Proof.
    intros Eb Ec Nb L. unfold send_atomic, send_buffer. rewrite Eb. cbn [is_nil]. rewrite Eb. cbn [is_nil negb]. unfold t_send. rewrite Ec. destruct b as [|b0 b]; [congruence|]. cbn [is_nil orb].
    destruct (N.ltb_spec (n_avail s) (lenN (b0 :: b))); [lia|]. rewrite N.eqb_refl, Eb. unfold lenN at 1. rewrite Nat2N.id, firstn_all. reflexivity.
  Qed.
Section Main.
  Context (prio : list N -> option priority) (D : nat -> list N -> section) (mt : mtype) (push : bool).
  Notation g := (h3 prio read_settings).
  Notation message := (message g D mt push).
  Notation carry := (carry prio D mt push).
  Lemma headers_next b w : lenN b <= 384 * 1024 -> h_encode 0 [] (FHeaders b) = Some w -> forall x, next g (w ++ x) (Frame (FHeaders b) x).
  Proof.
    intros L E x. destruct (written_next prio 0 [] (FHeaders b) w E L x) as [_ W]. destruct (W ltac:(discriminate)) as (f' & S & Nx). cbn in S. subst f'. exact Nx.
  Qed.
  Lemma data_next n w : h_encode 0 [] (FData n) = Some w -> forall x, next g (w ++ x) (Frame (FData n) x).
  Proof.
    unfold h_encode, obind, h_type, h_body. destruct (varint_bytes T_DATA) as [t|] eqn:Et; [|discriminate]. destruct (varint_bytes n) as [b|] eqn:Eb; [|discriminate]. intros E x. injection E as <-.
    rewrite <- app_assoc. apply (n_once g (t ++ b ++ x) T_DATA (b ++ x) FData n x); [apply rd_varint_encode; exact Et|reflexivity|apply rd_varint_encode; exact Eb].
  Qed.
  Lemma carry_put all heads body pl k new h0 b0 pl' k' : carry all heads body pl k [] ->
    (forall x hs b f, message pl' k' x hs b f -> message pl k (new ++ x) (h0 ++ hs) (b0 ++ b) f) -> carry (all ++ new) (heads ++ h0) (body ++ b0) pl' k' [].
  Proof. intros C S x hs b f M. rewrite <- !app_assoc. apply (C (new ++ x)). cbn [app]. apply S. exact M. Qed.
  Definition readable (heads : list (list header * list N)) : Prop := forall k hs block, nth_error heads k = Some (hs, block) -> exists dyn, D k block = SGood dyn (Some hs).
  Definition place_st (st : sstate) (pl : place) : Prop := match st with WHeaders => pl = InHead | WData => pl = InBody | WTrailers => pl = InTrail | WDone => pl = InBody \/ pl = InTrail end.
  Definition phase (st : sstate) (a : option nat) : Prop := match st with WHeaders => a = None | WData => a = Some 0%nat | WTrailers => a = Some 1%nat | WDone => a = Some 0%nat \/ a = Some 1%nat end.
  Definition says (v : given) := told mt (map fst (v_heads v)).
  Record sinv (p : sender * given) : Prop := {
    i_closed : n_closed (fst p) = true -> n_st (fst p) = WDone /\ n_buf (fst p) = [];
    i_fin : v_closed (snd p) = true <-> n_st (fst p) = WDone;
    i_room : lenN (n_sent (fst p)) + n_avail (fst p) = v_room (snd p);
    i_bytes : bytes_ok (n_sent (fst p) ++ n_buf (fst p));
    i_phase : phase (n_st (fst p)) (after_final mt (map fst (v_heads (snd p))));
    i_carry : readable (v_heads (snd p)) -> exists pl, place_st (n_st (fst p)) pl /\ carry (n_sent (fst p) ++ n_buf (fst p)) (says (snd p)) (v_body (snd p)) pl (length (says (snd p))) [] }.
  Lemma told_more l hs : after_final mt l = None -> told mt (l ++ [hs]) = told mt l ++ match accept mt hs with Some (hs', i, _) => [(hs', i)] | None => [] end /\ length (told mt l) = length l.
  Proof.
    induction l as [|h l IH]; cbn [told after_final app]; intros A.
    - destruct (accept mt hs) as [[[hs' i] se]|]; [destruct i|]; auto.
    - destruct (accept mt h) as [[[h' [|]] se]|]; try discriminate. destruct (IH A) as [E1 E2]. cbn [length app]. rewrite E1, E2. auto.
  Qed.
  Lemma told_after l hs n : after_final mt l = Some n -> told mt (l ++ [hs]) = told mt l /\ after_final mt (l ++ [hs]) = Some (Datatypes.S n).
  Proof.
    revert n. induction l as [|h l IH]; cbn [told after_final app]; intros n A; [discriminate|].
    destruct (accept mt h) as [[[h' [|]] se]|].
    - destruct (IH n A) as [-> ->]. auto.
    - injection A as <-. rewrite app_length. cbn. rewrite Nat.add_1_r. auto.
    - injection A as <-. rewrite app_length. cbn. rewrite Nat.add_1_r. auto.
  Qed.
  Lemma final_new l hs : after_final mt l = None -> after_final mt (l ++ [hs]) = match accept mt hs with Some (_, true, _) => None | _ => Some 0%nat end.
  Proof.
    induction l as [|h l IH]; cbn [after_final app]; intros A; [destruct (accept mt hs) as [[[? [|]] ?]|]; reflexivity|].
    destruct (accept mt h) as [[[h' [|]] se]|]; try discriminate. apply IH. exact A.
  Qed.
  Lemma readable_less l x : readable (l ++ [x]) -> readable l.
  Proof. intros R k hs b E. apply (R k hs b). rewrite nth_error_app1; [exact E|]. apply nth_error_Some. congruence. Qed.
  Lemma payload_step k n d w : h_encode 0 [] (FData n) = Some w -> lenN d = n -> forall x hs b f, message InBody k x hs b f -> message InBody k ((w ++ d) ++ x) ([] ++ hs) (d ++ b) f.
  Proof. intros E L x hs b f M. rewrite <- app_assoc. eapply g_data; [apply (data_next n w E)|]. apply g_payload; [exact L|exact M]. Qed.
  Lemma sinv_start : sinv s_start.
  Proof.
    constructor; cbn; auto; try discriminate; try (split; discriminate). { constructor. }
    intros _. exists InHead. split; [reflexivity|]. intros x hs b f M. exact M.
  Qed.
  (** The same bytes, cut elsewhere. *)
  Lemma sinv_moved s s1 v : sinv (s, v) -> n_sent s1 ++ n_buf s1 = n_sent s ++ n_buf s -> n_st s1 = n_st s -> (n_closed s1 = true -> n_st s1 = WDone /\ n_buf s1 = []) ->
    lenN (n_sent s1) + n_avail s1 = lenN (n_sent s) + n_avail s -> sinv (s1, v).
  Proof.
    intros [I1 I2 I4 I5 I6 I7] E1 E2 E3 E4. cbn [fst snd] in *. constructor; cbn [fst snd]; rewrite ?E1, ?E2 in *; auto. lia.
  Qed.
  Lemma sinv_step p o : sinv p -> sane mt (snd p) o -> exists p', s_step mt p o = Some p' /\ sinv p'.
  Proof.
    destruct p as [s v]. intros V Sn. pose proof V as [I1 I2 I4 I5 I6 I7]. cbn [fst snd] in *.
    assert (Cl : n_closed s = true -> n_buf s = []) by (intros E; apply I1 in E; tauto).
    assert (Op : n_st s <> WDone -> n_closed s = false) by (intros E; destruct (n_closed s); [|reflexivity]; exfalso; apply E; apply I1; reflexivity).
    destruct o as [hs block|b|b| | |n]; cbn [s_step sane] in *.
    - destruct Sn as (Nb & Bb & Lb & Sh). unfold send_headers. destruct (headers_some block Lb) as (w & Ew).
      destruct (n_st s) eqn:Est; cbn [phase] in I6; cbn [new_headers].
      + destruct (Sh I6) as (hs' & i & Ea). pose proof Ea as Ea0. unfold accept in Ea.
        assert (Nh : new_headers mt WHeaders hs = ROk (if i then WHeaders else WData)).
        { cbn [new_headers]. destruct mt.
          - destruct (headers_valid hs Request); [|discriminate]. apply some_inj in Ea. apply pair_equal_spec in Ea as [Ea _]. apply pair_equal_spec in Ea as [_ <-]. reflexivity.
          - destruct (is_interim hs) as [j|]; [|discriminate]. destruct (headers_valid hs Response); [|discriminate]. apply some_inj in Ea. apply pair_equal_spec in Ea as [Ea _]. apply pair_equal_spec in Ea as [_ <-]. destruct j; reflexivity. }
        cbn [new_headers] in Nh. rewrite Nh, Ew. eexists. split; [reflexivity|]. unfold n_with. constructor; cbn [fst snd n_sent n_buf n_st n_closed n_avail v_heads v_body v_closed v_room].
        * rewrite Op by discriminate. discriminate.
        * rewrite I2. destruct i; split; discriminate.
        * exact I4.
        * rewrite app_assoc. apply bytes_ok_app. split; [exact I5|exact (headers_bytes block w Bb Ew)].
        * rewrite map_app. cbn [map fst]. rewrite final_new by exact I6. rewrite Ea0. destruct i; reflexivity.
        * intros R. destruct (I7 (readable_less _ _ R)) as (pl & P & C). cbn [place_st] in P. subst pl. unfold says in *. cbn [v_heads]. rewrite map_app. cbn [map fst].
          destruct (told_more (map fst (v_heads v)) hs I6) as [Et El]. rewrite Ea0 in Et. rewrite Et. destruct (R (length (v_heads v)) hs block) as [dyn Ed]. { rewrite nth_error_app2, Nat.sub_diag by lia. reflexivity. }
          rewrite map_length in El. exists (if i then InHead else InBody). split; [destruct i; reflexivity|]. rewrite app_assoc, <- (app_nil_r (v_body v)). rewrite app_length. cbn [length]. rewrite Nat.add_1_r.
          eapply carry_put; [exact C|]. intros x hs0 b0 f M. cbn [app]. eapply g_head; [apply headers_next; eauto|exact Nb|]. rewrite El in *. destruct i; [eapply g_interim|eapply g_final]; eauto.
      + assert (Q : (if trailers_valid hs then ROk WTrailers else RErr) = ROk WTrailers \/ (if trailers_valid hs then ROk WTrailers else RErr) = (RErr : res sstate)) by (destruct (trailers_valid hs); auto).
        destruct Q as [-> | ->]; [|eexists; split; [reflexivity|exact V]]. rewrite Ew. eexists. split; [reflexivity|]. unfold n_with.
        destruct (told_after (map fst (v_heads v)) hs 0 I6) as [Et Ef]. constructor; cbn [fst snd n_sent n_buf n_st n_closed n_avail v_heads v_body v_closed v_room].
        * rewrite Op by discriminate. discriminate.
        * rewrite I2. split; discriminate.
        * exact I4.
        * rewrite app_assoc. apply bytes_ok_app. split; [exact I5|exact (headers_bytes block w Bb Ew)].
        * rewrite map_app. cbn [map fst]. rewrite Ef. reflexivity.
        * intros R. destruct (I7 (readable_less _ _ R)) as (pl & P & C). cbn [place_st] in P. subst pl. unfold says in *. cbn [v_heads]. rewrite map_app. cbn [map fst]. rewrite Et. exists InTrail. split; [reflexivity|].
          rewrite app_assoc. pose proof (carry_put _ _ _ _ _ w [] [] InTrail (length (told mt (map fst (v_heads v)))) C) as C2. rewrite !app_nil_r in C2. apply C2. intros x hs0 b0 f M. cbn [app]. eapply g_trailers; [apply headers_next; eauto|exact M].
      + eexists; split; [reflexivity|exact V].
      + eexists; split; [reflexivity|exact V].
    - destruct Sn as [Bb Lb]. unfold send_data. destruct (n_st s) eqn:Est; try (eexists; split; [reflexivity|exact V]).
      destruct (buffer_ok s Cl) as (s1 & -> & E1 & E2 & E3 & E4 & E5 & _). rewrite Est in E2.
      assert (V1 : sinv (s1, v)). { apply (sinv_moved s); auto; [congruence|]. rewrite E3, Op by discriminate. discriminate. }
      assert (Same : sinv (s1, mkG (v_heads v) (v_body v ++ firstn (N.to_nat 0) b) (v_closed v) (v_room v))). { cbn [N.to_nat firstn]. rewrite app_nil_r. destruct v; exact V1. }
      destruct (n_buf s1) as [|q1 q] eqn:Eq; cbn [is_nil negb]; [|eexists; split; [reflexivity|exact Same]].
      destruct (N.ltb_spec (n_avail s1) MIN_DATA_FRAME_SIZE) as [La|La]; [eexists; split; [reflexivity|exact Same]|]. unfold MIN_DATA_FRAME_SIZE in La.
      set (n := to_send (lenN b) (n_avail s1)). assert (Ln : n <= lenN b) by apply to_send_len. destruct (data_some n ltac:(lia)) as (w & Ew). rewrite Ew.
      pose proof (to_send_ok (lenN b) (n_avail s1) w La Lb Ew) as Fit. fold n in Fit. destruct (data_header n w Ew) as (_ & Nw & Bw).
      assert (C1 : n_closed s1 = false) by (rewrite E3; apply Op; discriminate).
      rewrite (atomic_ok s1 w Eq C1 Nw ltac:(lia)). set (d := firstn (N.to_nat n) b). assert (Ld : lenN d = n) by (unfold d, lenN in *; rewrite firstn_length; lia).
      assert (New : forall d', bytes_ok d' -> lenN d' = n -> lenN w + n <= n_avail s1 -> sinv (mkS WData [] ((n_sent s1 ++ w) ++ d') (n_avail s1 - lenN w - n) false, mkG (v_heads v) (v_body v ++ d') (v_closed v) (v_room v))).
      { intros d' Bd Ld' Fit'. destruct V1 as [J1 J2 J4 J5 J6 J7]. cbn [fst snd] in *. rewrite Eq, app_nil_r in *. rewrite E2 in *. constructor; cbn [fst snd n_sent n_buf n_st n_closed n_avail v_heads v_body v_closed v_room]; auto; try discriminate.
        - rewrite !lenN_app. lia.
        - rewrite app_nil_r. apply bytes_ok_app. split; [apply bytes_ok_app; auto|exact Bd].
        - intros R. destruct (J7 R) as (pl & P & C). cbn [place_st] in P. subst pl. exists InBody. split; [reflexivity|]. unfold says in *. cbn [v_heads]. rewrite app_nil_r, <- app_assoc.
          intros x hs0 b0 f M. pose proof (carry_put _ _ _ _ _ (w ++ d') [] d' InBody (length (told mt (map fst (v_heads v)))) C (payload_step _ n d' w Ew Ld')) as C2. rewrite (app_nil_r (told mt _)) in C2. exact (C2 x hs0 b0 f M). }
      destruct d as [|d0 d1] eqn:Edd.
      + unfold send_atomic, send_buffer. cbn [n_buf is_nil negb]. unfold t_send. cbn [is_nil orb]. eexists. split; [reflexivity|]. rewrite E2.
        assert (n = 0) by (cbn in Ld; lia). pose proof (New [] ltac:(constructor) ltac:(cbn; lia) ltac:(lia)) as Z. rewrite !app_nil_r in Z. replace (n_avail s1 - lenN w - n) with (n_avail s1 - lenN w) in Z by lia. destruct v; exact Z.
      + rewrite atomic_ok; cbn [n_buf n_closed n_avail n_st n_sent]; auto; [|discriminate|rewrite Ld; lia]. eexists. split; [reflexivity|]. rewrite E2, Ld. fold d. rewrite Edd. apply New; auto.
        rewrite <- Edd. apply bytes_ok_firstn. exact Bb.
    - destruct Sn as (Bb & Lb & Nc & Af). unfold send_data_atomic. destruct (data_some (lenN b) Lb) as (w & Ew). rewrite Ew. destruct (data_header _ _ Ew) as (_ & Nw & Bw).
      assert (Est : n_st s = WData). { destruct (n_st s) eqn:Est; cbn [phase] in I6; try congruence. exfalso. assert (v_closed v = true) by (apply I2; reflexivity). congruence. }
      rewrite Est in *.
      assert (V1 : sinv (n_with s WData (n_buf s ++ w ++ b), mkG (v_heads v) (v_body v ++ b) (v_closed v) (v_room v))).
      { unfold n_with. constructor; cbn [fst snd n_sent n_buf n_st n_closed n_avail v_heads v_body v_closed v_room]; auto; try discriminate.
        - rewrite Op by discriminate. discriminate.
        - rewrite app_assoc. apply bytes_ok_app. split; [exact I5|]. apply bytes_ok_app. auto.
        - intros R. destruct (I7 R) as (pl & P & C). cbn [place_st] in P. subst pl. exists InBody. split; [reflexivity|]. unfold says in *. cbn [v_heads]. rewrite app_assoc.
          pose proof (carry_put _ _ _ _ _ (w ++ b) [] b InBody (length (told mt (map fst (v_heads v)))) C (payload_step _ (lenN b) b w Ew eq_refl)) as C2. rewrite (app_nil_r (told mt _)) in C2. exact C2. }
      destruct (buffer_ok (n_with s WData (n_buf s ++ w ++ b))) as (s2 & -> & E1 & E2 & E3 & E4 & _). { cbn [n_with n_closed]. rewrite Op by discriminate. discriminate. }
      eexists. split; [reflexivity|]. apply (sinv_moved (n_with s WData (n_buf s ++ w ++ b))); auto. rewrite E3. cbn [n_with n_closed]. rewrite Op by discriminate. discriminate.
    - unfold n_send. destruct (buffer_ok s Cl) as (s1 & -> & E1 & E2 & E3 & E4 & E5 & E6). eexists. split; [reflexivity|].
      assert (V1 : n_closed s1 = true -> n_st s1 = WDone /\ n_buf s1 = []). { rewrite E3, E2. intros E. destruct (I1 E) as [Q1 Q2]. rewrite (E6 Q2). auto. }
      destruct (is_nil (n_buf s1)) eqn:En; [|apply (sinv_moved s); auto]. destruct (n_st s1) eqn:Es1; try (apply (sinv_moved s); auto; rewrite Es1; auto; fail).
      apply (sinv_moved s); cbn [t_close n_sent n_buf n_st n_closed n_avail]; auto; try congruence. intros _. split; [congruence|]. destruct (n_buf s1); [reflexivity|discriminate].
    - unfold n_close. destruct (n_st s) eqn:Est; try (eexists; split; [reflexivity|exact V]); cbn [phase] in I6.
      1, 2: eexists; split; [reflexivity|]; cbn [n_with n_buf];
        assert (W : forall c, (c = true -> n_buf s = []) -> sinv (mkS WDone (n_buf s) (n_sent s) (n_avail s) c, mkG (v_heads v) (v_body v) true (v_room v)))
        by (intros c Hc; constructor; cbn [fst snd n_sent n_buf n_st n_closed n_avail v_heads v_body v_closed v_room phase]; auto; try tauto;
            intros R; destruct (I7 R) as (pl & P & C); cbn [place_st] in P; subst pl; eexists; split; [|exact C]; cbn; auto);
        unfold n_with, t_close; cbn [n_st n_buf n_sent n_avail n_closed]; destruct (n_buf s) as [|q1 q] eqn:Eq; cbn [is_nil]; apply W; auto; rewrite Op by discriminate; discriminate.
    - eexists. split; [reflexivity|]. constructor; cbn [fst snd n_sent n_buf n_st n_closed n_avail v_heads v_body v_closed v_room]; auto. lia.
  Qed.
  Lemma sinv_run os : forall p, sinv p -> sane_run mt p os -> exists p', s_run mt p os = Some p' /\ sinv p'.
  Proof.
    induction os as [|o os IH]; intros p V Sn; cbn [s_run sane_run] in *; [eauto|]. destruct Sn as [S1 S2]. destruct (sinv_step p o V S1) as (p' & E & V'). rewrite E in *. apply IH; auto.
  Qed.
End Main.
