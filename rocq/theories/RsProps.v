From Verif Require Import Base Lib CodecModel FcModel FcSpec RxModel RxSpec RsModel RsSpec RsProofs.

(** A history with two streams, used to show that the hypotheses below can be met: stream 0
    gets a frame out of order and then the rest with its end, stream 1 gets data that is read. *)
Definition sample_ops : list cop :=
  [CNew 100; CNew 50; COn 0 (QFrame false 3 [4; 5]); COn 1 (QFrame false 0 [9; 8; 7]); COn 0 (QFrame true 0 [1; 2; 3; 4; 5; 6]); COn 1 (QRead 2)].
Definition sample_hist : list (cop * cout) :=
  match cruns (rconn_new 60) sample_ops with Some (_, h) => h | None => [] end.
Definition sample_conn : rconn := match cruns (rconn_new 60) sample_ops with Some (c, _) => c | None => rconn_new 60 end.
Example sample_reached : reached 60 sample_ops sample_conn sample_hist /\ c_closed sample_conn = false /\ n_streams sample_hist = 2%nat /\
  over (on_stream 0 sample_hist) = false /\ had is_acked (on_stream 0 sample_hist) = false /\
  s_finals (on_stream 0 sample_hist) = [6] /\ s_bytes (on_stream 1 sample_hist) = [9; 8] /\ conn_used sample_hist = 9.
Proof.
  split; [|vm_compute; tauto]. split; [unfold MAX_VARINT; lia|]. split; [repeat constructor; cbn; unfold MAX_VARINT; lia|]. split; [vm_compute; tauto|]. vm_compute. reflexivity.
Qed.

(** C12, C13.  On a live stream whose STOP_SENDING has not been acknowledged, a STREAM frame is
    refused as a final size error exactly if it contradicts what the peer has said before, and
    as a flow control error exactly if it passes the limits the peer has been told. *)
Theorem stream_frame_checked_partial : forall D ops c h i fin off d, reached D ops c h -> c_closed c = false -> (i < n_streams h)%nat ->
  over (on_stream i h) = false -> had is_acked (on_stream i h) = false -> off + lenN d <= MAX_VARINT ->
  exists c' out, cstep c (COn i (QFrame fin off d)) = Some (c', CStream out) /\
    (out = QErr EFinalSize <-> contradicts (on_stream i h) (off + lenN d) fin) /\
    (out = QErr EFlowControl <-> ~ contradicts (on_stream i h) (off + lenN d) fin /\
       (s_max (nth i (initial_maxes h) 0) (on_stream i h) < off + lenN d \/
        conn_max D h < conn_used h + (N.max (off + lenN d) (s_high (on_stream i h)) - s_high (on_stream i h)))).
Proof. exact frame_final_lemma. Qed.
Print Assumptions stream_frame_checked_partial.
(** The same for RESET_STREAM and RESET_STREAM_AT. *)
Theorem reset_checked_partial : forall D ops c h i err final rel, reached D ops c h -> c_closed c = false -> (i < n_streams h)%nat ->
  over (on_stream i h) = false -> had is_acked (on_stream i h) = false -> final <= MAX_VARINT -> rel <= final ->
  exists c' out, cstep c (COn i (QReset err final rel)) = Some (c', CStream out) /\
    (out = QErr EFinalSize <-> contradicts (on_stream i h) final true) /\
    (out = QErr EFlowControl <-> ~ contradicts (on_stream i h) final true /\
       (s_max (nth i (initial_maxes h) 0) (on_stream i h) < final \/
        conn_max D h < conn_used h + (N.max final (s_high (on_stream i h)) - s_high (on_stream i h)))).
Proof. exact reset_final_lemma. Qed.
Print Assumptions reset_checked_partial.

(** What is missing: once a STOP_SENDING was acknowledged, a FIN is forgotten and a later
    frame with another final size is accepted. *)
Theorem final_size_checked_refuted : exists D ops c h i fin off d, reached D ops c h /\ c_closed c = false /\ (i < n_streams h)%nat /\
  over (on_stream i h) = false /\ contradicts (on_stream i h) (off + lenN d) fin /\
  exists c' ev, cstep c (COn i (QFrame fin off d)) = Some (c', CStream (QDone ev false)).
Proof.
  exists 100, [CNew 100; COn 0 (QStop 7); COn 0 QStopAcked; COn 0 (QFrame true 0 [1; 2])].
  eexists _, _, O, true, 2, [3]. split.
  { split; [unfold MAX_VARINT; lia|]. split; [repeat constructor; cbn; unfold MAX_VARINT; lia|]. split; [vm_compute; tauto|]. vm_compute. reflexivity. }
  split; [reflexivity|]. split; [cbn; lia|]. split; [reflexivity|]. split.
  - left. exists 2. split; [vm_compute; tauto|]. left. cbn. lia.
  - eexists _, _. vm_compute. reflexivity.
Qed.
Print Assumptions final_size_checked_refuted.

(** C12.  The end of the stream is reported by a read exactly when everything up to the final
    size has been handed over; it is reported by the first read that can hand over the last
    byte; data that arrived is handed over; a reset is reported only once the part the peer
    still promised to deliver was read. *)
Theorem stream_end_reported_exactly : forall D ops c h i n, reached D ops c h -> c_closed c = false -> (i < n_streams h)%nat -> over (on_stream i h) = false ->
  exists c' out, cstep c (COn i (QRead n)) = Some (c', CStream out) /\
    let hi := on_stream i h in
    ((out = QErr ENoMoreData /\ had is_stop hi = true) \/ exists l fin ev, out = QBytes l fin ev /\ lenN l <= n /\
       (fin = true -> ev = [EvComplete] /\ s_finals hi <> [] /\ Forall (fun F => F = lenN (s_bytes hi ++ l)) (s_finals hi)) /\
       (fin = false -> ev = [] \/ exists x r, ev = [EvReset x] /\ In r (s_rels hi) /\ r <= lenN (s_bytes hi ++ l)) /\
       (lenN l < n -> arrived (s_frames hi) (lenN (s_bytes hi ++ l)) -> exists r, In r (s_rels hi) /\ r <= lenN (s_bytes hi ++ l)) /\
       (forall F, had is_reset hi = false -> In F (s_finals hi) -> (forall x, x < F -> arrived (s_frames hi) x) -> F <= lenN (s_bytes hi) + n -> fin = true)).
Proof. exact read_lemma. Qed.
Print Assumptions stream_end_reported_exactly.

Theorem reset_reported_after_reliable_part : forall D ops c h i o c' ev b x, reached D ops c h -> (i < n_streams h)%nat -> over (on_stream i h) = false -> op_ok (COn i o) -> may_raise c (COn i o) ->
  cstep c (COn i o) = Some (c', CStream (QDone ev b)) -> In (EvReset x) ev ->
  (exists e, o = QStop e) \/ had is_stop (on_stream i h) = true \/ exists r, In r (s_rels (on_stream i h) ++ rel_of (o, QDone ev b)) /\ r <= lenN (s_bytes (on_stream i h)).
Proof. exact reset_reported_lemma. Qed.
Print Assumptions reset_reported_after_reliable_part.
Example reset_reported_sample : match cruns (rconn_new 60) [CNew 50; COn 0 (QFrame false 0 [9; 8; 7]); COn 0 (QRead 3)] with
  | Some (c, h) => over (on_stream 0 h) = false /\ exists c', cstep c (COn 0 (QReset 5 10 2)) = Some (c', CStream (QDone [EvReset 5] true))
  | None => False end.
Proof. vm_compute. eauto. Qed.

(** C10 for a stream of a connection: if the frames accepted on a stream are pieces of one byte
    sequence, what was read is a prefix of it, whatever else happened. *)
Theorem stream_reads_are_prefix : forall D ops c h i g, reached D ops c h -> (i < n_streams h)%nat -> pieces_of g (s_frames (on_stream i h)) ->
  s_bytes (on_stream i h) = stream_slice g 0 (length (s_bytes (on_stream i h))).
Proof. exact stream_prefix_lemma. Qed.
Print Assumptions stream_reads_are_prefix.

(** C56.  No frame, read, reset, stop or acknowledgement panics, in any order. *)
Theorem receive_stream_never_panics : forall D ops c h o, reached D ops c h -> op_ok o -> window_op o = false -> exists c' out, cstep c o = Some (c', out).
Proof. exact no_panic_rs. Qed.
Print Assumptions receive_stream_never_panics.

(** C57.  Connection credit does not leak: of what the peer has used of the connection limit,
    all but the unread data of live streams has been given back, however streams ended. *)
Theorem connection_credit_returned : forall D ops c h, reached D ops c h -> rf_retired (c_sess c) <= conn_used h /\ conn_used h <= rf_retired (c_sess c) + owed h.
Proof. exact credit_lemma. Qed.
Print Assumptions connection_credit_returned.
(** So a MAX_DATA frame announces all of that. *)
Theorem max_data_covers_ended_streams : forall D ops c h now rtt fits c' v, reached D ops c h -> cstep c (CWrite now rtt fits) = Some (c', CMaxData v) ->
  N.min (conn_used h + rf_max_active (c_sess c)) MAX_VARINT <= v + owed h.
Proof. exact max_data_lemma. Qed.
Print Assumptions max_data_covers_ended_streams.
Example credit_sample : match cruns (rconn_new 60) [CNew 50; CNew 50; COn 0 (QFrame false 0 (repeat 1 45)); COn 0 (QReset 5 45 0); CWrite 0 0 true] with
  | Some (c, h) => conn_used h = 45 /\ owed h = 0 /\ conn_max 60 h = 105
  | None => False end.
Proof. vm_compute. tauto. Qed.

(** C12.  When the STOP_SENDING is acknowledged, the stream is over at once exactly if the peer
    has already stated its final size; otherwise a reset is awaited. *)
Theorem stop_sending_acked_ends_stream : forall D ops c h i, reached D ops c h -> c_closed c = false -> (i < n_streams h)%nat -> over (on_stream i h) = false ->
  had is_stop (on_stream i h) = true -> had is_acked (on_stream i h) = false ->
  exists c' b, cstep c (COn i QStopAcked) = Some (c', CStream (QDone [] b)) /\ (b = true <-> s_finals (on_stream i h) <> []).
Proof. exact stop_acked_lemma. Qed.
Print Assumptions stop_sending_acked_ends_stream.
Example stop_acked_sample : match cruns (rconn_new 60) [CNew 50; COn 0 (QFrame true 2 [9; 8; 7]); COn 0 (QStop 3)] with
  | Some (c, h) => over (on_stream 0 h) = false /\ had is_stop (on_stream 0 h) = true /\ exists c', cstep c (COn 0 QStopAcked) = Some (c', CStream (QDone [] true))
  | None => False end.
Proof. vm_compute. eauto. Qed.
