(** Session datagrams and the end of a session, as bytes (C103). *)
From Coq Require Import NArith List Bool Lia.
From Verif Require Import Base Lib CodecModel CodecProofs Reader HfModel HfSpec HfProofs HfProofs2 XsModel XdModel.
Import ListNotations.
Open Scope N_scope.

Lemma varint_ok v : v < 2 ^ 62 -> exists l, varint_bytes v = Some l.
Proof.
  intros H. unfold varint_bytes. destruct (v <? 2 ^ 6); [eauto|]. destruct (v <? 2 ^ 14); [eauto|]. destruct (v <? 2 ^ 30); [eauto|].
  apply N.ltb_lt in H. rewrite H. eauto.
Qed.
Lemma rd_zero l : rd_varint (0 :: l) = Some (0, l).
Proof. exact (rd_varint_encode 0 [0] l eq_refl). Qed.
Lemma context_zero buf : x_context (0 :: buf) = Some buf.
Proof. unfold x_context. rewrite rd_zero. reflexivity. Qed.

(** *** Sending.  A datagram of an open session never panics; it leaves in a QUIC datagram, or, for CONNECT-UDP to a peer
    that takes none, in a capsule; it is dropped only in that case and only for want of space on the CONNECT stream. *)
Theorem session_datagram_sent : forall k remote space id buf, id < 2 ^ 64 -> lenN buf + 1 < 2 ^ 62 ->
  exists w, xd_send k remote space id buf = Some w /\
    match w with
    | WDatagram _ => k = XWebTransport \/ remote <> 0
    | WCapsule _ => k = XConnectUdp /\ remote = 0 /\ lenN buf + 1 <= space
    | WDropped => k = XConnectUdp /\ remote = 0 /\ space < lenN buf + 1
    end.
Proof.
  intros k remote space id buf Hi Hb. assert (Hq : id / 4 < 2 ^ 62) by (apply N.div_lt_upper_bound; [lia|]; change (4 * 2 ^ 62) with (2 ^ 64); exact Hi).
  destruct (varint_ok _ Hq) as (q & Q). assert (Ln : lenN (0 :: buf) = lenN buf + 1) by (unfold lenN; cbn [length]; lia).
  unfold xd_send, xd_prefix. destruct k; cbn [obind].
  - rewrite Q. cbn [obind]. eexists. split; [reflexivity|]. cbv beta iota. auto.
  - change (varint_bytes 0) with (Some [0]). cbn [obind app]. destruct (N.eqb_spec remote 0) as [->|Nr].
    + destruct (N.ltb_spec space (lenN (0 :: buf))) as [L|L]; [eexists; split; [reflexivity|]; cbv beta iota; splits; auto; lia|]. rewrite Ln in L.
      unfold capsule_encode, vvec. change (varint_bytes 0) with (Some [0]). destruct (varint_ok (lenN (0 :: buf)) ltac:(lia)) as (l & E). rewrite E. cbn [obind]. eexists. split; [reflexivity|]. cbv beta iota. auto.
    + rewrite Q. cbn [obind]. eexists. split; [reflexivity|]. cbv beta iota. auto.
Qed.
(** *** Receiving.  What was sent in a QUIC datagram comes out of the peer's connection once, unchanged, for the session it
    was sent on, if the peer has that session and it is active there, and otherwise not at all. *)
Theorem session_datagram_arrives : forall k remote space id buf d tbl, id mod 4 = 0 -> id < 2 ^ 64 ->
  xd_send k remote space id buf = Some (WDatagram d) ->
  (xd_find tbl id = Some (k, true) -> xd_in tbl d = [(id, buf)]) /\
  (xd_find tbl id = None \/ (exists k', xd_find tbl id = Some (k', false)) -> xd_in tbl d = []).
Proof.
  intros k remote space id buf d tbl Hm Hi E. assert (I4 : id / 4 * 4 = id) by (pose proof (N.div_mod id 4 ltac:(lia)); lia).
  assert (Ed : exists q, varint_bytes (id / 4) = Some q /\ d = q ++ (match k with XWebTransport => [] | XConnectUdp => [0] end) ++ buf).
  { unfold xd_send, xd_prefix in E. change (varint_bytes 0) with (Some [0]) in E.
    destruct k; cbn [obind app] in E; [|destruct (remote =? 0); [destruct (space <? _); [discriminate E|]; unfold capsule_encode in E; destruct (obind (varint_bytes 0) _); discriminate E|]].
    all: destruct (varint_bytes (id / 4)) as [q|]; cbn [obind] in E; [|discriminate E]; injection E as <-; exists q; auto. }
  destruct Ed as (q & Q & ->). unfold xd_in. rewrite (rd_varint_encode _ _ _ Q), I4. split.
  - intros ->. destruct k; cbn [app]; [reflexivity|]. rewrite context_zero. reflexivity.
  - intros [->|(k' & ->)]; [reflexivity|]. destruct k'; reflexivity.
Qed.
(** Any bytes: they reach one session at most, one that is there and active and that they name by a quarter of its
    identifier, and what is delivered is the rest of them; to a CONNECT-UDP session only with context identifier 0. *)
Theorem any_datagram_reaches_one_session : forall tbl d id p, In (id, p) (xd_in tbl d) ->
  xd_in tbl d = [(id, p)] /\ exists v r, rd_varint d = Some (v, r) /\ id = 4 * v /\
    ((xd_find tbl id = Some (XWebTransport, true) /\ p = r) \/ (xd_find tbl id = Some (XConnectUdp, true) /\ rd_varint r = Some (0, p))).
Proof.
  intros tbl d id p H. unfold xd_in in *. destruct (rd_varint d) as [[v r]|] eqn:Rd; [|destruct H].
  destruct (xd_find tbl (v * 4)) as [[k' [|]]|] eqn:F; [| |destruct H]; [|destruct k'; destruct H].
  destruct k'.
  - destruct H as [H|[]]. injection H as <- <-. split; [reflexivity|]. exists v, r. splits; auto. lia.
  - unfold x_context in *. destruct (rd_varint r) as [[c q]|] eqn:Rr; [|destruct H]. destruct (N.eqb_spec c 0) as [->|]; [|destruct H]. destruct H as [H|[]]. injection H as <- <-.
    split; [reflexivity|]. exists v, r. splits; auto. lia.
Qed.
(** A capsule is one frame of the CONNECT stream for the peer, whatever follows it, and is delivered unchanged; up to the
    size the peer's reader takes. *)
Theorem session_capsule_arrives_partial : forall space id buf b rest, xd_send XConnectUdp 0 space id buf = Some (WCapsule b) -> lenN buf + 1 <= 65535 ->
  exists p, next capsules (b ++ rest) (Frame p rest) /\ x_deliver p = [XDatagram buf].
Proof.
  intros space id buf b rest E L. unfold xd_send, xd_prefix in E. change (varint_bytes 0) with (Some [0]) in E. cbn [obind app N.eqb] in E.
  destruct (space <? _); [discriminate E|]. unfold capsule_encode in E. change (varint_bytes 0) with (Some [0]) in E. cbn [obind] in E. destruct (vvec (0 :: buf)) as [v|] eqn:V; [|discriminate E]. cbn [obind] in E. injection E as <-.
  destruct (vvec_some _ _ V) as (l & El & ->). exists (0 :: buf). split; [|unfold x_deliver; rewrite context_zero; reflexivity].
  cbn [app]. rewrite <- app_assoc. eapply n_whole with (parse := fun p => inl p) (data := 0 :: buf) (rest := rest) (lim := 65535).
  - apply rd_zero.
  - reflexivity.
  - exact (rd_varint_encode _ _ _ El).
  - unfold lenN in *. cbn [length]. lia.
  - reflexivity.
  - reflexivity.
Qed.
(** A larger one is sent as well, and the peer's reader fails on it: the session ends with an error. *)
Theorem session_capsule_arrives_refuted : forall space id buf b rest, xd_send XConnectUdp 0 space id buf = Some (WCapsule b) -> 65535 < lenN buf + 1 ->
  next capsules (b ++ rest) (Fail HttpExcessiveLoad).
Proof.
  intros space id buf b rest E L. unfold xd_send, xd_prefix in E. change (varint_bytes 0) with (Some [0]) in E. cbn [obind app N.eqb] in E.
  destruct (space <? _); [discriminate E|]. unfold capsule_encode in E. change (varint_bytes 0) with (Some [0]) in E. cbn [obind] in E. destruct (vvec (0 :: buf)) as [v|] eqn:V; [|discriminate E]. cbn [obind] in E. injection E as <-.
  destruct (vvec_some _ _ V) as (l & El & ->). cbn [app]. rewrite <- app_assoc. eapply n_long with (lim := 65535) (parse := fun p => inl p).
  - apply rd_zero.
  - reflexivity.
  - exact (rd_varint_encode _ _ _ El).
  - unfold lenN in *. cbn [length]. lia.
Qed.
(** *** The end.  An error of 32 bits and a text of up to 1024 bytes given to close a WebTransport session are what the peer
    reads; *)
Theorem session_close_arrives_partial : forall utf8 e m b rest, xd_close XWebTransport e m = Some (Some b) -> e < 2 ^ 32 -> lenN m <= 1024 -> utf8 m = true ->
  next (wt utf8) (b ++ rest) (Frame (e, m) rest).
Proof.
  intros utf8 e m b rest E He Hm U. cbn [xd_close] in E. unfold wt_encode in E. destruct (varint_bytes WT_CLOSE) as [t|] eqn:T; [|discriminate E]. cbn [obind] in E.
  destruct (varint_bytes (4 + lenN m)) as [l|] eqn:Lv; [|discriminate E]. cbn [obind] in E. injection E as <-. rewrite <- !app_assoc.
  assert (B4 : length (be_bytes 4 e) = 4%nat) by reflexivity.
  eapply n_whole with (t := 0x2843) (data := be_bytes 4 e ++ m) (lim := 1028).
  - exact (rd_varint_encode _ _ _ T).
  - reflexivity.
  - rewrite <- app_assoc. exact (rd_varint_encode _ _ _ Lv).
  - lia.
  - unfold lenN. rewrite app_length, B4. lia.
  - cbv beta. assert (lenN (be_bytes 4 e ++ m) <? 4 = false) as -> by (apply N.ltb_ge; unfold lenN; rewrite app_length, B4; lia).
    assert (skipn 4 (be_bytes 4 e ++ m) = m) as -> by reflexivity. rewrite U. cbn [orb negb].
    assert (firstn 4 (be_bytes 4 e ++ m) = be_bytes 4 e) as -> by reflexivity. rewrite be_val_be_bytes, N.mod_small by (change (256 ^ N.of_nat 4) with (2 ^ 32); exact He). reflexivity.
Qed.
(** a longer text is sent as well, and the peer's reader fails on it: its session ends with an error, without either. *)
Theorem session_close_arrives_refuted : forall utf8 e m b rest, xd_close XWebTransport e m = Some (Some b) -> 1024 < lenN m -> next (wt utf8) (b ++ rest) (Fail HttpExcessiveLoad).
Proof.
  intros utf8 e m b rest E Hm. cbn [xd_close] in E. unfold wt_encode in E. destruct (varint_bytes WT_CLOSE) as [t|] eqn:T; [|discriminate E]. cbn [obind] in E.
  destruct (varint_bytes (4 + lenN m)) as [l|] eqn:Lv; [|discriminate E]. cbn [obind] in E. injection E as <-. rewrite <- !app_assoc.
  eapply n_long with (t := 0x2843) (lim := 1028); [exact (rd_varint_encode _ _ _ T)|reflexivity|exact (rd_varint_encode _ _ _ Lv)|lia].
Qed.
Example session_bytes_met :
  xd_send XWebTransport 1200 0 400 [1; 2; 3] = Some (WDatagram [64; 100; 1; 2; 3]) /\
  xd_in [(0, (XWebTransport, true)); (400, (XWebTransport, true))] [64; 100; 1; 2; 3] = [(400, [1; 2; 3])] /\
  xd_in [(0, (XWebTransport, true)); (400, (XWebTransport, false))] [64; 100; 1; 2; 3] = [] /\
  xd_send XConnectUdp 1200 0 4 [9] = Some (WDatagram [1; 0; 9]) /\ xd_in [(4, (XConnectUdp, true))] [1; 0; 9] = [(4, [9])] /\ xd_in [(4, (XConnectUdp, true))] [1; 2; 9] = [] /\
  xd_send XConnectUdp 0 3 4 [8; 9] = Some (WCapsule [0; 3; 0; 8; 9]) /\ xd_send XConnectUdp 0 2 4 [8; 9] = Some WDropped /\
  xd_close XWebTransport 258 [104; 105] = Some (Some [104; 67; 6; 0; 0; 1; 2; 104; 105]).
Proof. vm_compute. splits; reflexivity. Qed.
(** Nothing keeps the long ones from being sent. *)
Example session_long_met : (exists b, xd_send XConnectUdp 0 70000 0 (repeat 7 (N.to_nat 65535)) = Some (WCapsule b)) /\ exists b, xd_close XWebTransport 0 (repeat 97 (N.to_nat 1025)) = Some (Some b).
Proof. split; [|eexists; vm_compute; reflexivity]. destruct (session_datagram_sent XConnectUdp 0 70000 0 (repeat 7 (N.to_nat 65535)) ltac:(lia)) as (w & E & H); [unfold lenN; rewrite repeat_length; lia|].
  assert (L : lenN (repeat 7 (N.to_nat 65535)) = 65535) by (unfold lenN; rewrite repeat_length; lia). rewrite L in H. destruct w as [d|d|]; [destruct H as [H|H]; [discriminate H|destruct (H eq_refl)]|eauto|lia]. Qed.
Print Assumptions session_datagram_sent.
Print Assumptions session_datagram_arrives.
Print Assumptions any_datagram_reaches_one_session.
Print Assumptions session_capsule_arrives_partial.
Print Assumptions session_capsule_arrives_refuted.
Print Assumptions session_close_arrives_partial.
Print Assumptions session_close_arrives_refuted.
