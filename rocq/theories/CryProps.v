(** CRYPTO streams: properties C46 and C77. *)
From Coq Require Import Lia.
From Verif Require Import Base Lib CodecModel FcModel RtModel RtSpec SsModel SsSpec RxModel RxSpec RxProofs LrModel LrProofs2 SniModel SniProps CryModel CrySpec CryProofs.

(** ** C46 *)

(** No sequence of calls panics: whatever the peer's frames are, and whenever the handshake reads,
    writes or discards keys in order. *)
Theorem crypto_streams_never_panic : forall ops c h o, k_run cstreams_new ops = Some (c, h) -> fair h -> k_fair h o -> discard_ok c o -> k_step c o <> None.
Proof.
  intros ops c h o R F Fo Dk. destruct (step_cinv h c o (reach_cinv _ _ _ R F) Fo Dk) as (c' & out & -> & _). discriminate.
Qed.
Print Assumptions crypto_streams_never_panic.

(** An accepted frame leaves at most 65536 unread bytes in the buffer of its space, whatever was
    received before (even if frames were refused). *)
Theorem crypto_buffer_bounded : forall ops c h sp off d c', k_run cstreams_new ops = Some (c, h) -> fair h -> off + lenN d <= 2 ^ 62 ->
  k_step c (KFrame sp off d) = Some (c', OOk) ->
  exists x n, c_get sp c' = Some x /\ rx_buffered (cs_rx x) = Some n /\ n <= 65536.
Proof.
  intros ops c h sp off d c' R F Hd St. pose proof (reach_cinv _ _ _ R F) as V. cbn [k_step k_space] in St.
  destruct (c_get sp c) as [x|] eqn:G; [|discriminate]. cbn [k_local] in St.
  destruct (rinv_frame _ _ _ _ off d (si_rx _ _ _ (V _ _ G)) Hd) as (r' & e & E & A' & _ & _ & T). rewrite E in St.
  destruct e as [e|]; [discriminate|]. inv St. exists (with_rx r' x), (tot (rx_retired r') (rx_ranges r')).
  rewrite (get_put_same _ _ _ _ G). splits; auto.
  cbn. apply buffered_tot. eapply rinv_inv. exact A'.
Qed.
Print Assumptions crypto_buffer_bounded.

(** Data that starts more than 65536 bytes past what was read is refused and changes nothing. *)
Theorem far_crypto_data_refused : forall ops c h sp off d, k_run cstreams_new ops = Some (c, h) -> fair h -> off + lenN d <= 2 ^ 62 ->
  c_get sp c <> None -> d <> [] -> lenN (handed sp h) + 65536 < off -> k_step c (KFrame sp off d) = Some (c, OErr EBufferExceeded).
Proof.
  intros ops c h sp off d R F Hd G Dn Far. pose proof (reach_cinv _ _ _ R F) as V. cbn [k_step k_space].
  destruct (c_get sp c) as [x|] eqn:G'; [|congruence]. cbn [k_local].
  pose proof (si_rx _ _ _ (V _ _ G')) as A. destruct (rinv_frame _ _ _ _ off d A Hd) as (r' & e & E & _ & _ & T & _). rewrite E.
  destruct A as [(st & H & _) _ _]. pose proof (h_len _ _ _ H) as HL.
  destruct (T Dn) as (-> & ->); [unfold BUFFER_LIMIT; lia|]. f_equal. f_equal.
  unfold with_rx. destruct x as [tx rx]. cbn. clear -G'. destruct c, sp; cbn in *; try discriminate; inv G'; reflexivity.
Qed.
Print Assumptions far_crypto_data_refused.

(** What is refused otherwise: too many separate ranges, or more than 65536 bytes counted as
    received and not read. *)
Theorem crypto_refusal_reasons : forall ops c h sp off d c' e, k_run cstreams_new ops = Some (c, h) -> fair h ->
  k_step c (KFrame sp off d) = Some (c', OErr e) -> c_get sp c <> None ->
  e = EBufferExceeded /\
  (lenN (handed sp h) + 65536 < off \/
   exists x, c_get sp c' = Some x /\
     (MAX_GAPS + (rx_end (cs_rx x) - rx_retired (cs_rx x)) / RANGE_TARGET < lenN (rx_ranges (cs_rx x)) \/ 65536 < rx_received (cs_rx x) - rx_retired (cs_rx x))).
Proof.
  intros ops c h sp off d c' e R F St G. pose proof (reach_cinv _ _ _ R F) as V. cbn [k_step k_space] in St.
  destruct (c_get sp c) as [x|] eqn:G'; [|congruence]. clear G. cbn [k_local] in St.
  destruct (rx_crypto off d (cs_rx x)) as [[r e']|] eqn:E; [|discriminate]. destruct e' as [e'|]; [|discriminate]. inv St.
  pose proof (si_rx _ _ _ (V _ _ G')) as [(st & H & _) _ _]. pose proof (h_len _ _ _ H) as HL.
  unfold rx_crypto in E. destruct (chk _) as [lim|] eqn:Ec; [|discriminate]. unfold chk in Ec. dmatch_in Ec; [|discriminate]. apply some_inj in Ec. subst lim.
  destruct (_ && _) eqn:Far.
  - inv E. split; [reflexivity|]. left. apply andb_prop in Far as [_ Far]. unfold BUFFER_LIMIT in Far. lia.
  - destruct (rx_inbound off d (cs_rx x)) as [[r1 ok]|] eqn:B; [|discriminate]. rewrite (get_put_same _ _ _ _ G'). destruct ok.
    + unfold csub in E. destruct (rx_retired r1 <=? rx_received r1); [|discriminate]. destruct (N.leb_spec (rx_received r1 - rx_retired r1) BUFFER_LIMIT); [discriminate|]. inv E.
      split; [reflexivity|]. right. eexists. split; [reflexivity|]. right. cbn. unfold BUFFER_LIMIT in *. lia.
    + inv E. split; [reflexivity|]. right. eexists. split; [reflexivity|]. left. cbn [with_rx cs_rx].
      apply (refused_lemma (cs_rx x) (XFrame off d)). cbn [xstep]. rewrite B. reflexivity.
Qed.
Print Assumptions crypto_refusal_reasons.

(** The claim "refused exactly if more than 65536 bytes ahead" fails both ways: a frame that starts
    within the window may end beyond it; and the limit is on a count in which a byte sent in
    several frames counts several times, so a handshake message of 724 bytes can be refused. *)
Theorem far_crypto_end_accepted_refuted : exists c' x, k_step cstreams_new (KFrame SpInitial 65536 (repeat 7 1000)) = Some (c', OOk) /\
  c_get SpInitial c' = Some x /\ rx_end (cs_rx x) = 66536 /\ rx_retired (cs_rx x) = 0.
Proof.
  assert (X : match k_step cstreams_new (KFrame SpInitial 65536 (repeat 7 1000)) with
     | Some (c', OOk) => match c_get SpInitial c' with Some x => rx_end (cs_rx x) = 66536 /\ rx_retired (cs_rx x) = 0 | None => False end | _ => False end) by (vm_compute; auto).
  revert X. generalize (repeat 7 1000). intros big X. destruct (k_step cstreams_new (KFrame SpInitial 65536 big)) as [[c' out]|] eqn:E; [|contradiction].
  destruct out; try contradiction. destruct (c_get SpInitial c') as [x|] eqn:G; [|contradiction]. exists c', x. tauto.
Qed.
Print Assumptions far_crypto_end_accepted_refuted.
(** Frames that each start a byte earlier and end a byte later than the one before. *)
Fixpoint growing (n : nat) (at_ : N) : list kop :=
  match n with O => [] | S n' => growing n' (at_ + 1) ++ [KFrame SpInitial at_ (repeat 7 (2 * n'))] end.
Theorem repeated_crypto_data_refused_refuted : exists ops c h off d c' x, k_run cstreams_new ops = Some (c, h) /\ fair h /\
  off + lenN d <= 724 /\ k_step c (KFrame SpInitial off d) = Some (c', OErr EBufferExceeded) /\
  c_get SpInitial c' = Some x /\ rx_end (cs_rx x) <= 724 /\ lenN (rx_ranges (cs_rx x)) = 1.
Proof.
  set (ops := growing 257 2).
  assert (X : match k_run cstreams_new ops with
     | Some (c, h) => match k_step c (KFrame SpInitial 1 (repeat 7 514)) with
        | Some (c', OErr EBufferExceeded) => match c_get SpInitial c' with Some x => (rx_end (cs_rx x) <=? 724) && (lenN (rx_ranges (cs_rx x)) =? 1) = true | None => False end
        | _ => False end
     | None => False end) by (vm_compute; reflexivity).
  assert (Y : forallb (fun o => match o with KFrame _ off d => off + lenN d <=? 2 ^ 62 | _ => false end) ops = true) by (vm_compute; reflexivity).
  assert (L : 1 + lenN (repeat 7 514) <=? 724 = true) by (vm_compute; reflexivity).
  clearbody ops. revert X L. generalize (repeat 7 514). intros big X L.
  destruct (k_run cstreams_new ops) as [[c h]|] eqn:R; [|contradiction].
  destruct (k_step c (KFrame SpInitial 1 big)) as [[c' out]|] eqn:St; [|contradiction].
  destruct out as [|e| | |]; try contradiction. destruct e; try contradiction. destruct (c_get SpInitial c') as [x|] eqn:G; [|contradiction].
  exists ops, c, h, 1, big, c', x. apply andb_prop in X as [X1 X2]. splits; auto; try lia.
  - assert (FO : Forall (fun o => match o with KFrame _ off d => off + lenN d <=? 2 ^ 62 = true | _ => False end) ops).
    { rewrite forallb_forall in Y. apply Forall_forall. intros o I. specialize (Y _ I). destruct o; try discriminate. exact Y. }
    assert (M : forall ops c0 c1 h, k_run c0 ops = Some (c1, h) -> map fst h = ops).
    { clear. induction ops as [|o ops IH]; intros c0 c1 h H; cbn in H; [inv H; reflexivity|]. destruct (k_step c0 o) as [[c2 out]|]; [|discriminate].
      destruct (k_run c2 ops) as [[c3 h3]|] eqn:R; [|discriminate]. inv H. cbn. f_equal. eauto. }
    intros h1 e h2 Eh. pose proof (M _ _ _ _ R) as Mo. rewrite Eh, map_app in Mo. cbn [map] in Mo. rewrite <- Mo in FO. apply Forall_app in FO as [_ FO]. apply Forall_cons_iff in FO as [FO _].
    destruct (fst e); cbn in *; try contradiction. apply N.leb_le. exact FO.
Qed.
Print Assumptions repeated_crypto_data_refused_refuted.
(** A refused frame can still be stored. *)
Theorem refused_crypto_data_stored_refuted : exists c' x n, k_step cstreams_new (KFrame SpInitial 0 (repeat 7 (N.to_nat 65537))) = Some (c', OErr EBufferExceeded) /\
  c_get SpInitial c' = Some x /\ rx_buffered (cs_rx x) = Some n /\ 65536 < n.
Proof.
  assert (X : match k_step cstreams_new (KFrame SpInitial 0 (repeat 7 (N.to_nat 65537))) with
     | Some (c', OErr EBufferExceeded) => match c_get SpInitial c' with Some x => match rx_buffered (cs_rx x) with Some n => n =? 65537 = true | None => False end | None => False end | _ => False end) by (vm_compute; reflexivity).
  revert X. generalize (repeat 7 (N.to_nat 65537)). intros big X.
  destruct (k_step cstreams_new (KFrame SpInitial 0 big)) as [[c' out]|] eqn:E; [|contradiction].
  destruct out as [|e| | |]; try contradiction. destruct e; try contradiction. destruct (c_get SpInitial c') as [x|] eqn:G; [|contradiction].
  destruct (rx_buffered (cs_rx x)) as [n|] eqn:B; [|contradiction]. exists c', x, n. splits; auto. lia.
Qed.
Print Assumptions refused_crypto_data_stored_refuted.

(** The handshake reads, in each space, a prefix of the peer's stream of that space. *)
Theorem crypto_read_in_order : forall ops c h sp g, k_run cstreams_new ops = Some (c, h) -> fair h -> c_get sp c <> None ->
  pieces_of g (got sp h) -> handed sp h = stream_slice g 0 (length (handed sp h)).
Proof.
  intros ops c h sp g R F G P. pose proof (reach_cinv _ _ _ R F) as V. destruct (c_get sp c) as [x|] eqn:G'; [|congruence].
  pose proof (si_rx _ _ _ (V _ _ G')) as [(st & H & _ & Sub) _ _].
  apply nth_error_ext. intros i. rewrite nth_slice. destruct (Nat.ltb_spec i (length (handed sp h))) as [L|L].
  - destruct (nth_error (handed sp h) i) as [b|] eqn:E; [|apply nth_error_None in E; lia].
    destruct (h_deliv _ _ _ H (N.of_nat i) b) as (f & If & Cf); [rewrite carries0, Nat2N.id; exact E|]. rewrite (P _ _ _ (Sub _ If) Cf). reflexivity.
  - apply nth_error_None. exact L.
Qed.
Print Assumptions crypto_read_in_order.
(** A read returns all that is available: the next byte is in no accepted frame. *)
Theorem crypto_read_complete : forall ops c h sp, k_run cstreams_new ops = Some (c, h) -> fair h -> c_get sp c <> None ->
  exists c' l, k_step c (KRead sp) = Some (c', OBytes l) /\ ~ arrived (accepted sp h) (lenN (handed sp h) + lenN l).
Proof.
  intros ops c h sp R F G. pose proof (reach_cinv _ _ _ R F) as V. destruct (c_get sp c) as [x|] eqn:G'; [|congruence].
  destruct (rinv_read _ _ _ _ (si_rx _ _ _ (V _ _ G'))) as (r' & l & E & _ & A). cbn [k_step k_space]. rewrite G'. cbn [k_local]. rewrite E. eauto.
Qed.
Print Assumptions crypto_read_complete.

(** ** C77 *)

(** Every CRYPTO frame written carries, at its offset, the handshake data given for that space;
    the frames fit in the room there was; and no byte is in two of them. *)
Theorem crypto_writes_supplied_data : forall ops c h sp sl lim room spl c' fs, k_run cstreams_new ops = Some (c, h) -> fair h -> 0 < lim -> room < 2 ^ 62 ->
  k_step c (KWrite sp sl lim room spl) = Some (c', OFrames fs) ->
  Forall (fun f => fst (fst f) + lenN (snd (fst f)) <= lenN (supplied sp h) /\ snd (fst f) = slice (fst (fst f)) (lenN (snd (fst f))) (supplied sp h)) fs /\
  frames_size fs <= room /\ once fs /\
  (forall o d n y, In (o, d, n) fs -> covers o (lenN d) y -> ~ k_acked sp h y).
Proof.
  intros ops c h sp sl lim room spl c' fs R F Hl Hr St. pose proof (reach_cinv _ _ _ R F) as V. pose proof max_small as MS. cbn [k_step k_space] in St.
  destruct (c_get sp c) as [x|] eqn:G.
  - destruct (V _ _ G) as [A B C D E W]. cbn [k_local] in St.
    destruct (loop_spec (supplied sp h) sl lim spl Hl ltac:(lia) (S (N.to_nat room)) room (cs_tx x) B Hr ltac:(lia)) as (b' & fs' & Ew & B' & S' & G1 & G2 & G3 & G4 & _).
    rewrite Ew in St. inv St. splits; auto. intros o d n y I Cv Ak. apply D in Ak. rewrite G4 in Ak; [discriminate|].
    apply existsb_exists. exists (o, d, n). split; [exact I|]. cbn. unfold coversb, covers in *. lia.
  - cbn in St. inv St. splits; try constructor. cbn. lia. intros ? ? ? ? [].
Qed.
Print Assumptions crypto_writes_supplied_data.

(** Handshake data is never forgotten: each byte given for sending was acknowledged, or was written
    and not declared lost since, or the next packet with 11 bytes of room gets CRYPTO data.
    Without slicing, that packet starts with the lowest such byte. *)
Theorem handshake_data_not_forgotten : forall ops c h sp y, k_run cstreams_new ops = Some (c, h) -> fair h -> c_get sp c <> None -> y < lenN (supplied sp h) ->
  k_acked sp h y \/ k_flight sp h y \/
  forall sl lim room spl, 0 < lim -> 11 <= room < 2 ^ 62 -> exists c' fs, k_step c (KWrite sp sl lim room spl) = Some (c', OFrames fs) /\ fs <> [] /\
    (sl = false -> exists o d n r, fs = (o, d, n) :: r /\ d <> [] /\ o <= y /\ forall z, z < o -> k_acked sp h z \/ k_flight sp h z).
Proof.
  intros ops c h sp y R F G Hy. pose proof (reach_cinv _ _ _ R F) as V. pose proof max_small as MS. destruct (c_get sp c) as [x|] eqn:G'; [|congruence].
  destruct (V _ _ G') as [A B C D E W]. destruct (state_of (tb_rt (cs_tx x)) y) as [[|]|] eqn:Sy; [left; apply D; exact Sy|right; left; auto|].
  right. right. intros sl lim room spl Hl [Hr1 Hr2]. cbn [k_step k_space]. rewrite G'. cbn [k_local].
  destruct (loop_spec (supplied sp h) sl lim spl Hl ltac:(lia) (S (N.to_nat room)) room (cs_tx x) B Hr2 ltac:(lia)) as (b' & fs' & Ew & B' & S' & G1 & G2 & G3 & G4 & G5).
  rewrite Ew. eexists _, _. split; [reflexivity|]. destruct (G5 y Hy Sy Hr1) as (P1 & P2). split; [exact P1|]. intros Hs.
  destruct (P2 Hs) as (o & d & n & r & -> & Q1 & Q2 & Q3). exists o, d, n, r. splits; auto. intros z Hz. specialize (Q3 z Hz).
  destruct (state_of (tb_rt (cs_tx x)) z) as [[|]|] eqn:Sz; [left; apply D; exact Sz|right; auto|congruence].
Qed.
Print Assumptions handshake_data_not_forgotten.
(** Lost data, and unacknowledged data when the connection asks for resending, is not in flight, so
    by the theorem above it is sent again. *)
Theorem lost_handshake_data_is_resent : forall ops c h sp o y c' out, k_run cstreams_new ops = Some (c, h) -> fair h -> k_fair h o -> k_step c o = Some (c', out) -> loses sp y (o, out) ->
  ~ k_flight sp (h ++ [(o, out)]) y.
Proof.
  intros ops c h sp o y c' out _ _ _ _ L (h1 & e & h2 & E & Wr & NL).
  destruct h2 as [|e2 h2] using rev_ind.
  - apply app_inj_tail in E as [_ <-]. unfold loses, writes in *. cbn [fst] in L. destruct o; tauto.
  - clear IHh2. change (h1 ++ e :: h2 ++ [e2]) with (h1 ++ (e :: h2) ++ [e2]) in E. rewrite app_assoc in E. apply app_inj_tail in E as [_ <-]. apply (NL (o, out)); [apply in_or_app; right; now left|exact L].
Qed.
Print Assumptions lost_handshake_data_is_resent.

(** Once its keys are discarded, a space stays closed: no frame is written or accepted in it, nothing is
    read from or sent to it, and [is_empty] says so. *)
Theorem discarded_space_is_closed : forall ops c c' h sp, c_get sp c = None -> k_run c ops = Some (c', h) ->
  c_get sp c' = None /\ forall o out, In (o, out) h -> k_space o = sp ->
    match o with KSend _ _ | KRead _ => out = OErr EViolation | KFrame _ _ _ => out = OErr EInternal | KWrite _ _ _ _ _ => out = OFrames [] | KEmpty _ => out = OBool true | KReady _ => out = OBool false | _ => out = OOk end.
Proof.
  induction ops as [|o ops IH]; intros c c' h sp G R; cbn [k_run] in R.
  - inv R. split; [exact G|]. intros ? ? [].
  - destruct (k_step c o) as [[c1 out]|] eqn:St; [|discriminate]. destruct (k_run c1 ops) as [[c2 h2]|] eqn:R2; [|discriminate]. inv R.
    assert (Q : (exists s, o = KDiscard s) \/ forall s, o <> KDiscard s) by (destruct o; eauto; right; discriminate).
    assert (H1 : c_get sp c1 = None /\ (k_space o = sp -> out = k_gone o)).
    { destruct Q as [[s ->]|Nd].
      - cbn in St. destruct (c_discard s c) as [c3|] eqn:Ec; [|discriminate]. inv St. split; [|reflexivity]. rewrite (discard_get _ _ _ _ Ec), G. destruct (space_eqb sp s); reflexivity.
      - assert (E : k_step c o = match c_get (k_space o) c with None => Some (c, k_gone o) | Some x => match k_local o x with None => None | Some (x', out) => Some (c_put (k_space o) x' c, out) end end) by (destruct o; try reflexivity; destruct (Nd sp0 eq_refl)).
        rewrite E in St. destruct (c_get (k_space o) c) as [x|] eqn:Gx.
        + destruct (k_local o x) as [[x' out']|]; [|discriminate]. inv St. split; [|congruence]. rewrite get_put_other; [exact G|congruence].
        + inv St. auto. }
    destruct H1 as [H1 H2]. destruct (IH _ _ _ _ H1 R2) as [H3 H4]. split; [exact H3|]. intros o' out' [X|X] Es; [|eapply H4; eassumption]. inv X. rewrite (H2 eq_refl). destruct o'; reflexivity.
Qed.
Print Assumptions discarded_space_is_closed.

(** A handshake in small: data is written in two packets, the second is lost and written again, the peer's
    frames arrive out of order, and Initial keys are discarded. *)
Definition crypto_story : list kop :=
  [KSend SpInitial [1;2;3;4;5;6;7;8]; KWrite SpInitial false 100 9 3; KWrite SpInitial false 100 11 99; KLost SpInitial 3 5; KAcked SpInitial 0 3;
   KWrite SpInitial false 100 50 99; KFrame SpInitial 2 [12;13]; KRead SpInitial; KFrame SpInitial 0 [10;11]; KRead SpInitial; KDiscard SpInitial; KWrite SpInitial false 100 50 0; KSend SpHandshake [9]; KWrite SpHandshake true 100 50 99].
Example crypto_story_runs : match k_run cstreams_new crypto_story with
  | Some (c, h) => map snd h = [OOk; OFrames [(0, [1;2;3], 6)]; OFrames [(3, [4;5;6;7;8], 8)]; OOk; OOk; OFrames [(3, [4;5;6;7;8], 8)]; OOk; OBytes []; OOk; OBytes [10;11;12;13]; OOk; OFrames []; OOk; OFrames [(0, [9], 4)]]
  | None => False end.
Proof. vm_compute. reflexivity. Qed.
