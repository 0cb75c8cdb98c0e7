(** Transport parameters (C35), 0-RTT tickets (C36), what a client checks about them (C79), resumption tokens (C80). *)
From Coq Require Import Lia.
From Verif Require Import Base Lib CodecModel CodecSpec CodecProofs Reader VerModel VerProps TpModel TpSpec TpProofs TpProofs2.

(** ** C35: encoding and decoding *)
Lemma tlvs_fun b ts : tlvs b ts -> forall us, tlvs b us -> us = ts.
Proof.
  intros T. induction T as [|l c r v r' ts R V T IH]; intros us Q; inv Q; try (cbn in *; congruence). rewrite R in H. apply some_inj in H. apply pair_equal_spec in H. destruct H as [<- <-].
  rewrite V in H0. apply some_inj in H0. apply pair_equal_spec in H0. destruct H0 as [<- <-]. f_equal. auto.
Qed.
(** The receiver accepts exactly the well-formed sequences of parameters in which no known parameter occurs twice, each known one
    has a valid content and none is the sender's role's to leave out; it then has exactly the values sent.  Unknown codes do not matter. *)
Theorem accepted_exactly : forall server b t, bytes_ok b ->
  ((exists t', tps_decode server b = inl t' /\ forall k, t' k = t k) <->
   exists ts, tlvs b ts /\ forall k, (times k ts <= 1)%nat /\
     (forall v, In (tp_code k, v) ts -> (server = true -> server_only k = false) /\ exists x, content k v x) /\
     (forall x, t k = Some x <-> exists v, In (tp_code k, v) ts /\ content k v x)).
Proof.
  intros server b t B. split.
  - intros (t' & D & E). destruct (decode_facts _ _ _ B D) as (ts & T & _ & F). exists ts. split; [exact T|]. intros k. rewrite <- E. apply F.
  - intros (ts & T & F). destruct (decode_exists server b ts B T) as (t' & D & V); [intros k; apply (F k)|intros k; apply (F k)|]. exists t'. split; [exact D|]. intros k. apply eq_opt. intros x. rewrite V.
    destruct (F k) as (_ & _ & Q). symmetry. apply Q.
Qed.
Print Assumptions accepted_exactly.
(** Nothing else is accepted: bytes that are not a sequence of parameters are refused, and each error is final. *)
Theorem repeated_rejected : forall server b ts k, bytes_ok b -> tlvs b ts -> (2 <= times k ts)%nat -> exists e, tps_decode server b = inr e.
Proof.
  intros server b ts k B T M. destruct (tps_decode server b) as [t|e] eqn:D; [|eauto]. destruct (decode_facts _ _ _ B D) as (ts' & T' & _ & F).
  assert (ts' = ts) as -> by (exact (tlvs_fun _ _ T _ T')).
  destruct (F k) as [L _]. lia.
Qed.
Print Assumptions repeated_rejected.
Theorem unknown_skipped : forall server b b' c v ts1 ts2, bytes_ok b -> bytes_ok b' -> tlvs b (ts1 ++ (c, v) :: ts2) -> tlvs b' (ts1 ++ ts2) -> (forall k, tp_code k <> c) ->
  match tps_decode server b with inl t => exists t', tps_decode server b' = inl t' /\ forall k, t' k = t k | inr _ => exists e, tps_decode server b' = inr e end.
Proof.
  intros server b b' c v ts1 ts2 B B' T T' U.
  assert (TI : forall k, times k (ts1 ++ (c, v) :: ts2) = times k (ts1 ++ ts2)).
  { intros k. unfold times. rewrite !filter_app. cbn [filter fst]. destruct (N.eqb_spec c (tp_code k)) as [E|]; [symmetry in E; destruct (U k E)|reflexivity]. }
  assert (II : forall k w, In (tp_code k, w) (ts1 ++ (c, v) :: ts2) <-> In (tp_code k, w) (ts1 ++ ts2)).
  { intros k w. rewrite !in_app_iff. cbn [In]. split; [|tauto]. intros [H|[H|H]]; auto. injection H as H _. symmetry in H. destruct (U k H). }
  destruct (tps_decode server b) as [t|e] eqn:D.
  - apply accepted_exactly; [exact B'|]. destruct (proj1 (accepted_exactly server b t B)) as (ts & Q & F); [eauto|].
    assert (ts = ts1 ++ (c, v) :: ts2) as -> by (exact (tlvs_fun _ _ T _ Q)).
    exists (ts1 ++ ts2). split; [exact T'|]. intros k. destruct (F k) as (F1 & F2 & F3). rewrite <- TI. splits; auto.
    + intros w W. apply F2. apply II. exact W.
    + intros x. rewrite F3. split; intros (w & W & C); exists w; (split; [apply II; exact W|exact C]).
  - destruct (tps_decode server b') as [t'|e'] eqn:D'; [|eauto]. exfalso. destruct (decode_facts _ _ _ B' D') as (ts & Q & _ & F).
    assert (ts = ts1 ++ ts2) as -> by (exact (tlvs_fun _ _ T' _ Q)).
    destruct (decode_exists server b _ B T) as (t & X & _); [intros k; rewrite TI; apply (F k)|intros k w W; apply (F k); apply II; exact W|]. congruence.
Qed.
Print Assumptions unknown_skipped.
(** What is sent arrives, whatever the set. *)
Theorem parameters_round_trip : forall server t, sendable_set server t ->
  exists b t', tps_encode t = Some b /\ tps_decode server b = inl t' /\ forall k, t' k = t k.
Proof.
  intros server t S. destruct (filtered_lemma (fun _ => true) server t) as (b & t' & E & _ & D & V); [intros k x _; apply S|]. exists b, t'. splits; auto.
Qed.
Print Assumptions parameters_round_trip.
(** The outer ClientHello of an encrypted one carries only the parameters the connection attempt needs, unchanged. *)
Theorem outer_hello_reveals_only : forall server t, sendable_set server t ->
  exists b t', tps_encode_filtered ch_outer t = Some b /\ tps_decode server b = inl t' /\ forall k,
    t' k = (if existsb (tpid_eqb k) [OriginalDestinationConnectionId; StatelessResetToken; InitialSourceConnectionId; RetrySourceConnectionId; VersionInformation; AckDelayExponent; MaxAckDelay; MaxUdpPayloadSize]
            then t k else None).
Proof.
  intros server t S. destruct (filtered_lemma ch_outer server t) as (b & t' & E & _ & D & V); [intros k x _; apply S|]. exists b, t'. splits; auto. intros k. rewrite V. destruct k; reflexivity.
Qed.
Print Assumptions outer_hello_reveals_only.
(** Reading accepted parameters never panics, whatever the peer sent, and gives the value sent or the default, within its range. *)
Theorem accepted_values : forall server b t, bytes_ok b -> tps_decode server b = inl t ->
  (forall k lo hi, int_range k = Some (lo, hi) -> get_integer k t = Some (in_force k t) /\ lo <= in_force k t <= hi) /\
  (forall k, is_bytes k = true -> get_bytes k t = Some (declared k t)) /\
  (forall k, is_empty k = true -> get_empty k t = Some (is_some (t k))) /\
  get_preferred t <> None.
Proof.
  intros server b t B D. pose proof (decoded_kind _ _ _ B D) as K. destruct (decode_facts _ _ _ B D) as (ts & T & BT & F). splits.
  - intros k lo hi R. destruct (t k) as [x|] eqn:X.
    + assert (int_default k <> None) by (destruct k; discriminate). destruct (K k x X) as (_ & _ & Q & _). destruct (Q H) as [n ->]. unfold get_integer, in_force. rewrite X.
      split; [destruct (int_default k); [reflexivity|congruence]|]. apply (F k) in X. destruct X as (v & _ & C). destruct k; try discriminate R; cbn [content] in C;
      destruct C as (m & lo0 & hi0 & E & _ & R0 & L); injection E as <-; rewrite R in R0; apply some_inj in R0; apply pair_equal_spec in R0; destruct R0 as [<- <-]; exact L.
    + unfold get_integer, in_force. rewrite X. destruct k; try discriminate R; cbn [int_default]; (split; [reflexivity|]); cbn [int_range] in R; apply some_inj in R; apply pair_equal_spec in R; destruct R as [<- <-]; lia.
  - intros k H. unfold get_bytes, declared. rewrite H. destruct (t k) as [x|] eqn:X; [|reflexivity]. destruct (K k x X) as (Q & _). destruct (Q H) as [l ->]. reflexivity.
  - intros k H. unfold get_empty. destruct (t k) as [x|] eqn:X; [|reflexivity]. destruct (K k x X) as (_ & Q & _). rewrite (Q H). reflexivity.
  - unfold get_preferred. destruct (t PreferredAddress) as [x|] eqn:X; [|discriminate]. apply (F PreferredAddress) in X. destruct X as (v & _ & C). cbn [content] in C.
    destruct C as (ip4 & p4 & ip6 & p6 & cid & srt & _ & (L4 & P4 & Z4) & (L6 & P6 & Z6) & Z & _ & _ & ->).
    assert (A4 : p4 <> 0 -> all_zero ip4 = false) by (intros H; destruct (all_zero ip4) eqn:A; [|reflexivity]; apply all_zero_eq in A; rewrite L4 in A; tauto).
    assert (A6 : p6 <> 0 -> all_zero ip6 = false) by (intros H; destruct (all_zero ip6) eqn:A; [|reflexivity]; apply all_zero_eq in A; rewrite L6 in A; tauto).
    destruct (N.eqb_spec p4 0) as [E4|E4], (N.eqb_spec p6 0) as [E6|E6]; try lia; cbn [is_some orb andb]; try rewrite A4 by assumption; try rewrite A6 by assumption;
    try (apply N.eqb_neq in E4; rewrite E4); try (apply N.eqb_neq in E6; rewrite E6); cbn; discriminate.
Qed.
Print Assumptions accepted_values.
(** Setting an integer parameter gives the peer that value, although defaults are not sent. *)
Theorem set_integer_arrives : forall server k v t t' lo hi, set_integer k v t = Some t' -> sendable_set server t -> int_range k = Some (lo, hi) -> lo <= v <= hi ->
  exists b r, tps_encode t' = Some b /\ tps_decode server b = inl r /\ get_integer k r = Some v /\ forall j, j <> k -> r j = t j.
Proof.
  intros server k v t t' lo hi S SS R L. unfold set_integer in S. destruct (int_default k) as [d|] eqn:Df; [|discriminate]. apply some_inj in S. subst t'.
  destruct (parameters_round_trip server (tps_put k (if d =? v then None else Some (PInt v)) t)) as (b & r & E & D & V).
  { intros j x. destruct (tpid_eqb j k) eqn:J.
    - apply tpid_eqb_eq in J. subst j. rewrite put_same. destruct (d =? v); intros H; [discriminate|]. apply some_inj in H. subst x. split; [exists lo, hi; auto|]. intros _. destruct k; try discriminate R; reflexivity.
    - assert (j <> k) by (intros ->; rewrite tpid_eqb_refl in J; discriminate). rewrite put_other by assumption. apply SS. }
  exists b, r. splits; auto.
  - unfold get_integer. rewrite Df, V, put_same. destruct (N.eqb_spec d v) as [->|]; reflexivity.
  - intros j J. rewrite V. apply put_other. exact J.
Qed.
Print Assumptions set_integer_arrives.
(** A server's parameters as neqo sends them, with a preferred address. *)
Definition server_set : tps :=
  tps_put InitialSourceConnectionId (Some (PBytes [1; 2; 3])) (tps_put OriginalDestinationConnectionId (Some (PBytes [9; 9; 9; 9; 9; 9; 9; 9])) (tps_put DisableMigration (Some PEmpty)
  (tps_put PreferredAddress (Some (PAddr (Some ([10; 0; 0; 1], 443)) None [7; 7] (repeat 5 16))) (tps_put VersionInformation (Some (PVersions 1 [1; 1798521807]))
  (tps_put InitialMaxData (Some (PInt 1048576)) (tps_put ActiveConnectionIdLimit (Some (PInt 8)) (tps_put MinAckDelay (Some (PInt 1000)) tps_new))))))).
Example server_set_sendable : sendable_set false server_set.
Proof.
  intros k x H. split; [|discriminate]. destruct k; cbv in H; try discriminate H; apply some_inj in H; subst x; cbn [sendable]; splits; auto; try reflexivity; try discriminate;
  try (repeat constructor; unfold byte_ok; lia); try (eexists; eexists; split; [reflexivity|]; lia); try (left; discriminate); try (unfold lenN; cbn; lia).
Qed.

(** ** C36: 0-RTT *)
(** A ticket made by the server is accepted later exactly if the application accepts and every compared promise is kept. *)
Lemma ok_spec old new : (forall k x, old k = Some x -> sendable k x) -> (ok_for_0rtt new old = true <-> forall k, In k not_compared \/ kept old new k).
Proof.
  intros S. unfold ok_for_0rtt. rewrite forallb_forall. split.
  - intros H k. specialize (H k (all_ids_in k)). unfold kept. destruct (old k) as [x|] eqn:X; [|right; exact Logic.I]. destruct (skipped_0rtt k) eqn:Q.
    { left. destruct k; try discriminate Q; cbn; tauto. }
    cbn [orb] in H. right. specialize (S k x X). destruct (new k) as [m|]; [|discriminate]. destruct x as [l|n| |v4 v6 cid srt|c o]; destruct m as [l'|n'| |v4' v6' cid' srt'|c' o']; cbn [ok_param] in H; try discriminate H.
    + exists n'. split; [reflexivity|]. destruct k; try (apply N.leb_le in H; exact H).
    + reflexivity.
    + apply N.eqb_eq in H. subst c'. eauto.
  - intros H k _. specialize (H k). unfold kept in H. destruct (old k) as [x|] eqn:X; [|reflexivity]. destruct H as [H|H].
    { assert (skipped_0rtt k = true) as ->; [|reflexivity]. cbn in H. intuition (subst; reflexivity). }
    apply orb_true_iff. right. destruct x as [l|n| |v4 v6 cid srt|c o]; try contradiction.
    + destruct H as (m & -> & L). cbn [ok_param]. destruct k; apply N.leb_le; exact L.
    + rewrite H. reflexivity.
    + destruct H as (o' & ->). cbn [ok_param]. apply N.eqb_refl.
Qed.
Theorem ticket_accepted_iff : forall old new app extra token, sendable_set false old -> ticket old extra = Some token ->
  zero_rtt_check new app token = ZAccept <-> app extra = ZAccept /\ forall k, In k not_compared \/ kept old new k.
Proof.
  intros old new app extra token S T. unfold ticket in T. destruct (parameters_round_trip false old S) as (b & t' & E & D & V). rewrite E in T.
  destruct (vvec b) as [v|] eqn:VV; [|discriminate]. apply some_inj in T. subst token. unfold zero_rtt_check. rewrite (vvec_rd _ _ _ VV), D.
  destruct (v ++ extra) as [|a r] eqn:NE.
  { exfalso. pose proof (vvec_rd _ _ extra VV) as Q. rewrite NE in Q. discriminate. }
  assert (OK : ok_for_0rtt new t' = true <-> forall k, In k not_compared \/ kept old new k).
  { rewrite ok_spec by (intros k x X; rewrite V in X; apply (S k x X)). split; intros H k; specialize (H k); unfold kept in *; rewrite V in *; exact H. }
  destruct (ok_for_0rtt new t').
  - split; [intros A; split; [exact A|apply OK; reflexivity]|tauto].
  - split; [discriminate|]. intros [_ H]. apply OK in H. discriminate.
Qed.
Print Assumptions ticket_accepted_iff.
(** In particular a server that changes nothing accepts its own tickets. *)
Theorem unchanged_server_accepts : forall t app extra token, sendable_set false t -> ticket t extra = Some token -> app extra = ZAccept -> zero_rtt_check t app token = ZAccept.
Proof.
  intros t app extra token S T A. apply (ticket_accepted_iff t t app extra token S T). split; [exact A|]. intros k. unfold kept. destruct (t k) as [x|] eqn:X; [|auto].
  destruct (S k x X) as [Q _]. destruct x as [l|n| |v4 v6 cid srt|c o]; cbn [sendable] in Q.
  - left. destruct Q as [Q _]. destruct k; try discriminate Q; cbn; tauto.
  - right. exists n. split; [reflexivity|]. destruct (tpid_eqb _ _); lia.
  - right. reflexivity.
  - left. destruct Q as [-> _]. cbn. tauto.
  - right. eauto.
Qed.
Print Assumptions unchanged_server_accepts.
(** Whatever ticket is presented: if it is accepted, the limits in it are not above those now in force, except two. *)
Theorem remembered_limits_hold_partial : forall new app token, bytes_ok token -> zero_rtt_check new app token = ZAccept ->
  exists b extra old, rd_vvec token = Some (b, extra) /\ tps_decode false b = inl old /\ app extra = ZAccept /\
    (forall k, In k limits_0rtt -> k <> ActiveConnectionIdLimit -> (k = MaxUdpPayloadSize -> old k <> None) -> in_force k old <= in_force k new) /\
    (forall k, In k [DisableMigration; GreaseQuicBit; ResetStreamAt] -> old k = Some PEmpty -> new k = Some PEmpty) /\
    (forall a, old MinAckDelay = Some (PInt a) -> exists c, new MinAckDelay = Some (PInt c) /\ c <= a) /\
    (forall c o, get_versions old = Some (c, o) -> exists o', get_versions new = Some (c, o')).
Proof.
  intros new app token B H. unfold zero_rtt_check in H. destruct token as [|a0 r0] eqn:TK; [discriminate|]. rewrite <- TK in *. clear TK a0 r0.
  destruct (rd_vvec token) as [[b extra]|] eqn:V; [|discriminate]. destruct (tps_decode false b) as [old|] eqn:D; [|discriminate]. destruct (ok_for_0rtt new old) eqn:O; [|discriminate].
  destruct (vvec_ok _ _ _ B V) as [Bb _]. pose proof (decoded_kind _ _ _ Bb D) as K.
  assert (OK : forall k x, old k = Some x -> skipped_0rtt k = false -> exists m, new k = Some m /\ ok_param k m x = true).
  { intros k x X Sk. unfold ok_for_0rtt in O. rewrite forallb_forall in O. specialize (O k (all_ids_in k)). rewrite X, Sk in O. cbn [orb] in O. destruct (new k); [eauto|discriminate]. }
  exists b, extra, old. splits; auto.
  - intros k L NA NM. unfold in_force. destruct (old k) as [x|] eqn:X.
    + assert (Q : int_default k <> None /\ skipped_0rtt k = false /\ k <> MinAckDelay) by (clear - L NA; cbn in L; repeat (destruct L as [<-|L]; [splits; (reflexivity || discriminate || congruence)|]); destruct L).
      destruct Q as (Q1 & Q2 & Q3). destruct (K k x X) as (_ & _ & Q & _). destruct (Q Q1) as [n ->]. destruct (OK k _ X Q2) as (m & M & P). rewrite M. destruct m; cbn [ok_param] in P; try discriminate P.
      destruct k; try (apply N.leb_le in P; exact P). congruence.
    + destruct k; try lia; try (destruct (NM eq_refl); exact X); try (cbn in L; exfalso; intuition discriminate); congruence.
  - intros k L E. destruct (OK k _ E) as (m & M & P); [cbn in L; intuition (subst; reflexivity)|]. rewrite M. destruct m; try discriminate P. reflexivity.
  - intros a E. destruct (OK MinAckDelay _ E eq_refl) as (m & M & P). destruct m; cbn [ok_param] in P; try discriminate P. apply N.leb_le in P. eauto.
  - intros c o E. unfold get_versions in *. destruct (old VersionInformation) as [x|] eqn:X; [|discriminate]. destruct x; try discriminate E. injection E as -> ->.
    destruct (OK VersionInformation _ X eq_refl) as (m & M & P). rewrite M. destruct m; cbn [ok_param] in P; try discriminate P. apply N.eqb_eq in P. subst. eauto.
Qed.
Print Assumptions remembered_limits_hold_partial.
(** The two exceptions: the connection ID limit is never compared, and a payload limit that was at its default when the ticket was made may
    be lowered.  Neither is set by neqo's own configuration to anything but a constant; an application can, through [set_local_tparam]. *)
Theorem remembered_limits_hold_refuted : exists old1 old2 new token1 token2 app,
  sendable_set false old1 /\ sendable_set false old2 /\ sendable_set false new /\ ticket old1 [] = Some token1 /\ ticket old2 [] = Some token2 /\
  zero_rtt_check new app token1 = ZAccept /\ in_force ActiveConnectionIdLimit new < in_force ActiveConnectionIdLimit old1 /\
  zero_rtt_check new app token2 = ZAccept /\ in_force MaxUdpPayloadSize new < in_force MaxUdpPayloadSize old2.
Proof.
  set (old1 := tps_put ActiveConnectionIdLimit (Some (PInt 8)) tps_new). set (new := tps_put MaxUdpPayloadSize (Some (PInt 1200)) tps_new).
  exists old1, tps_new, new, [3; 14; 1; 8], [0], (fun _ => ZAccept).
  splits; try reflexivity; intros k x H; (split; [|discriminate]); destruct k; cbv in H; try discriminate H; apply some_inj in H; subst x; eexists; eexists; (split; [reflexivity|]); lia.
Qed.
Print Assumptions remembered_limits_hold_refuted.
Example a_ticket : exists token, ticket server_set [42] = Some token /\ zero_rtt_check server_set (fun e => match e with [42] => ZAccept | _ => ZReject end) token = ZAccept /\
  zero_rtt_check (tps_put InitialMaxData (Some (PInt 1048575)) server_set) (fun _ => ZAccept) token = ZReject.
Proof. eexists. split; [vm_compute; reflexivity|]. split; vm_compute; reflexivity. Qed.

(** ** C79: the checks on the final parameters *)
Lemma opt_eqb_eq a b : opt_eqb a b = true <-> a = b.
Proof. destruct a as [a|], b as [b|]; cbn; try (split; congruence). destruct (list_eq_dec N.eq_dec a b); split; congruence. Qed.
(** Nothing the peer sends makes the check panic; it passes only if the connection IDs are those used on the wire, a server has sent no
    server-only parameter, a preferred address comes with a connection ID, and the acknowledgement delays are ordered; then the limits are the peer's. *)
Theorem parameters_authenticated : forall client b t iscid odcid rscid vok, bytes_ok b -> tps_decode (negb client) b = inl t ->
  (exists r, process_tps client iscid odcid rscid vok t = Some r) /\
  forall o, process_tps client iscid odcid rscid vok t = Some (inl o) ->
    vok = true /\ declared InitialSourceConnectionId t = iscid /\
    (client = true -> declared OriginalDestinationConnectionId t = odcid /\ declared RetrySourceConnectionId t = rscid) /\
    (client = false -> t PreferredAddress = None /\ declared StatelessResetToken t = None) /\
    (t PreferredAddress <> None -> exists c l, iscid = Some (c :: l)) /\
    o_reset o = declared StatelessResetToken t /\ (forall x, o_reset o = Some x -> length x = 16%nat) /\
    o_payload o = in_force MaxUdpPayloadSize t /\ o_max_ad o = 1000 * in_force MaxAckDelay t /\
    o_min_ad o = (match t MinAckDelay with Some _ => Some (in_force MinAckDelay t) | None => None end) /\ (forall m, o_min_ad o = Some m -> m <= o_max_ad o) /\
    o_cids o = in_force ActiveConnectionIdLimit t /\ o_idle o = in_force IdleTimeout t /\ o_datagram o = in_force MaxDatagramFrameSize t.
Proof.
  intros client b t iscid odcid rscid vok B D. destruct (accepted_values _ _ _ B D) as (VI & VB & _ & VP). pose proof (decoded_kind _ _ _ B D) as K.
  assert (SO : client = false -> forall k, server_only k = true -> t k = None).
  { intros -> k S. destruct (t k) as [x|] eqn:X; [|reflexivity]. destruct (decode_facts _ _ _ B D) as (ts & _ & _ & F). destruct (F k) as (_ & C & V). apply V in X. destruct X as (v & I & _). apply C in I. destruct I as [I _]. specialize (I eq_refl). congruence. }
  unfold process_tps, validate_cids. rewrite !VB by reflexivity. destruct (get_preferred t) as [pref|] eqn:P; [|congruence].
  assert (PT : t PreferredAddress <> None -> pref <> None).
  { unfold get_preferred in P. intros NP. destruct (t PreferredAddress) as [x|] eqn:X; [|congruence]. assert (exists a1 a2 a3 a4, x = PAddr a1 a2 a3 a4) as (a1 & a2 & a3 & a4 & ->).
    { destruct (decode_facts _ _ _ B D) as (ts & _ & _ & F). apply (F PreferredAddress) in X. destruct X as (v & _ & C). cbn [content] in C. destruct C as (? & ? & ? & ? & ? & ? & _ & _ & _ & _ & _ & _ & ->). eauto. }
    destruct (_ && _); [|discriminate]. apply some_inj in P. subst pref. discriminate. }
  assert (PN : client = false -> pref = None). { intros C. unfold get_preferred in P. rewrite (SO C PreferredAddress eq_refl) in P. congruence. }
  rewrite (proj1 (VI MaxUdpPayloadSize _ _ eq_refl)), (proj1 (VI MaxAckDelay _ _ eq_refl)), (proj1 (VI MinAckDelay _ _ eq_refl)), (proj1 (VI ActiveConnectionIdLimit _ _ eq_refl)), (proj1 (VI IdleTimeout _ _ eq_refl)), (proj1 (VI MaxDatagramFrameSize _ _ eq_refl)).
  assert (R16 : forall x, declared StatelessResetToken t = Some x -> lenN x = 16).
  { intros x X. unfold declared in X. destruct (t StatelessResetToken) as [y|] eqn:Y; [|discriminate]. destruct (K _ _ Y) as (_ & _ & _ & Q). destruct (Q eq_refl) as (l & -> & L). congruence. }
  set (pe := match pref with None => None | Some _ => if negb client then Some ETransportParameter else match iscid with None => Some EUnknownCid | Some [] => Some ETransportParameter | Some _ => None end end).
  set (rb := match declared StatelessResetToken t with Some x => negb (lenN x =? 16) | None => false end).
  assert (RB : rb = false) by (subst rb; destruct (declared StatelessResetToken t) as [x|]; [rewrite (R16 x eq_refl); reflexivity|reflexivity]). rewrite RB. clearbody rb.
  set (ma := is_some (t MinAckDelay) && (in_force MaxAckDelay t * 1000 <? in_force MinAckDelay t)).
  assert (TAIL : forall R : option (unit + terr), (exists u, R = Some u) -> exists r, match R with None => None | Some (inr e) => Some (inr e) | Some (inl _) => if negb vok then Some (inr ETransportParameter) else match pe with Some e => Some (inr e) | None =>
      if ma then Some (inr ETransportParameter) else Some (inl (mkTpOut (declared StatelessResetToken t) (in_force MaxUdpPayloadSize t) (in_force MaxAckDelay t * 1000) (if is_some (t MinAckDelay) then Some (in_force MinAckDelay t) else None) (in_force ActiveConnectionIdLimit t) (in_force IdleTimeout t) (in_force MaxDatagramFrameSize t))) end end = Some r).
  { intros R [[u|e] ->]; [|eauto]. destruct (negb vok); [eauto|]. destruct pe; [eauto|]. destruct ma; eauto. }
  split.
  - apply TAIL. destruct (negb (opt_eqb iscid _)); [eauto|]. destruct client; [|eauto]. destruct (negb (opt_eqb odcid _)); [eauto|]. destruct (opt_eqb rscid _); eauto.
  - intros o. destruct (opt_eqb iscid (declared InitialSourceConnectionId t)) eqn:E1; cbn [negb]; [|discriminate]. apply opt_eqb_eq in E1.
    assert (HC : forall T : option (tp_out + terr), (client = true -> declared OriginalDestinationConnectionId t = odcid /\ declared RetrySourceConnectionId t = rscid) ->
       (if negb vok then Some (inr ETransportParameter) else match pe with Some e => Some (inr e) | None =>
         if ma then Some (inr ETransportParameter) else Some (inl (mkTpOut (declared StatelessResetToken t) (in_force MaxUdpPayloadSize t) (in_force MaxAckDelay t * 1000) (if is_some (t MinAckDelay) then Some (in_force MinAckDelay t) else None) (in_force ActiveConnectionIdLimit t) (in_force IdleTimeout t) (in_force MaxDatagramFrameSize t))) end) = Some (inl o) ->
       vok = true /\ declared InitialSourceConnectionId t = iscid /\ (client = true -> declared OriginalDestinationConnectionId t = odcid /\ declared RetrySourceConnectionId t = rscid) /\
       (client = false -> t PreferredAddress = None /\ declared StatelessResetToken t = None) /\ (t PreferredAddress <> None -> exists c l, iscid = Some (c :: l)) /\
       o_reset o = declared StatelessResetToken t /\ (forall x, o_reset o = Some x -> length x = 16%nat) /\ o_payload o = in_force MaxUdpPayloadSize t /\ o_max_ad o = 1000 * in_force MaxAckDelay t /\
       o_min_ad o = (match t MinAckDelay with Some _ => Some (in_force MinAckDelay t) | None => None end) /\ (forall m, o_min_ad o = Some m -> m <= o_max_ad o) /\
       o_cids o = in_force ActiveConnectionIdLimit t /\ o_idle o = in_force IdleTimeout t /\ o_datagram o = in_force MaxDatagramFrameSize t).
    { intros _ HH Q. destruct vok; cbn [negb] in Q; [|discriminate]. destruct pe as [e|] eqn:PE; [discriminate|]. destruct ma eqn:MA; [discriminate|]. apply some_inj in Q. injection Q as <-. cbn [o_reset o_payload o_max_ad o_min_ad o_cids o_idle o_datagram].
      splits; auto; try lia.
      - intros C. split; [apply SO; auto|]. unfold declared. rewrite (SO C StatelessResetToken eq_refl). reflexivity.
      - intros NP. apply PT in NP. subst pe. destruct pref; [|congruence]. destruct client; [|discriminate PE]. cbn [negb] in PE. destruct iscid as [[|c l]|]; try discriminate PE. eauto.
      - intros x X. apply R16 in X. unfold lenN in X. lia.
      - destruct (t MinAckDelay); reflexivity.
      - intros m M. subst ma. destruct (is_some (t MinAckDelay)); [|discriminate]. apply some_inj in M. subst m. cbn [andb] in MA. apply N.ltb_ge in MA. exact MA. }
    destruct client.
    + destruct (opt_eqb odcid (declared OriginalDestinationConnectionId t)) eqn:E2; cbn [negb]; [|discriminate]. apply opt_eqb_eq in E2.
      destruct (opt_eqb rscid (declared RetrySourceConnectionId t)) eqn:E3; [|discriminate]. apply opt_eqb_eq in E3. apply (HC None). auto.
    + apply (HC None). discriminate.
Qed.
Print Assumptions parameters_authenticated.
Example parameters_checked : exists b t, tps_encode server_set = Some b /\ tps_decode false b = inl t /\
  match process_tps true (Some [1; 2; 3]) (Some (repeat 9 8)) None true t with Some (inl o) => o_max_ad o = 25000 /\ o_min_ad o = Some 1000 /\ o_cids o = 8 | _ => False end /\
  process_tps true (Some [1; 2; 4]) (Some (repeat 9 8)) None true t = Some (inr EProtocolViolationTp) /\
  process_tps true (Some [1; 2; 3]) (Some (repeat 9 8)) (Some [1]) true t = Some (inr EProtocolViolationTp).
Proof. eexists. eexists. split; [vm_compute; reflexivity|]. split; [vm_compute; reflexivity|]. vm_compute. auto. Qed.

(** ** C80: resumption tokens *)
(** What a client saves can be used by a later client that still has the version: it finds the version, the round-trip time, the server's
    parameters, the address validation token and the TLS ticket. *)
Theorem resumption_token_round_trip : forall b t v rtt nt tls token enabled, bytes_ok b -> lenN b < 2 ^ 60 -> tps_decode false b = inl t ->
  resumption_token v rtt t nt tls = Some token -> In v enabled ->
  exists t', read_resumption_token enabled token = inl (v, rtt, t', match nt with Some x => x | None => [] end, tls) /\ forall k, t' k = t k.
Proof.
  intros b t v rtt nt tls token enabled B L D R I. unfold resumption_token in R. destruct (varint_bytes rtt) as [r|] eqn:E1; [|discriminate].
  destruct (parameters_round_trip false t (decoded_sendable _ _ _ B L D)) as (eb & t' & E & D' & V). rewrite E in R.
  destruct (vvec eb) as [vb|] eqn:E2; [|discriminate]. destruct (vvec (match nt with Some x => x | None => [] end)) as [vt|] eqn:E3; [|discriminate]. apply some_inj in R. subst token.
  exists t'. split; [|exact V]. unfold read_resumption_token. rewrite rd_be by (destruct v; vm_compute; reflexivity).
  replace (version_of_wire (wire v)) with (Some v) by (destruct v; reflexivity). rewrite (proj2 (memv_in v enabled) I). cbn [negb].
  rewrite (rd_varint_encode _ _ _ E1), (vvec_rd _ _ _ E2), D', (vvec_rd _ _ _ E3). reflexivity.
Qed.
Print Assumptions resumption_token_round_trip.
(** A token for a version no longer enabled is refused, before anything in it is used. *)
Theorem disabled_version_refused : forall v rtt t nt tls token enabled, resumption_token v rtt t nt tls = Some token -> ~ In v enabled ->
  read_resumption_token enabled token = inr EDisabledVersion.
Proof.
  intros v rtt t nt tls token enabled R I. unfold resumption_token in R. destruct (varint_bytes rtt) as [r|]; [|discriminate]. destruct (tps_encode t) as [b|]; [|discriminate].
  destruct (vvec b) as [vb|]; [|discriminate]. destruct (vvec (match nt with Some x => x | None => [] end)) as [vt|]; [|discriminate]. apply some_inj in R. subst token.
  unfold read_resumption_token. rewrite rd_be by (destruct v; vm_compute; reflexivity). replace (version_of_wire (wire v)) with (Some v) by (destruct v; reflexivity).
  destruct (memv v enabled) eqn:M; [apply memv_in in M; contradiction|reflexivity].
Qed.
Print Assumptions disabled_version_refused.
Example a_resumption_token : exists b t token, tps_encode server_set = Some b /\ tps_decode false b = inl t /\ resumption_token Version1 35 t (Some [1; 2]) [3; 4; 5] = Some token /\
  match read_resumption_token [Version2; Version1] token with inl (v, rtt, t', nt, tls) => v = Version1 /\ rtt = 35 /\ nt = [1; 2] /\ tls = [3; 4; 5] /\ get_integer InitialMaxData t' = Some 1048576 | inr _ => False end.
Proof. eexists. eexists. eexists. split; [vm_compute; reflexivity|]. split; [vm_compute; reflexivity|]. split; [vm_compute; reflexivity|]. vm_compute. auto. Qed.
