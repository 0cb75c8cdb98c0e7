(** Flow control and stream identifiers (C13 to C17, C53, C54). *)
From Coq Require Import Sorted.
From Verif Require Import Base CodecModel FcModel FcSpec FcProofs.

(** C14: a sender's use never exceeds the largest limit it was given, and it may use exactly
    up to that. *)
Theorem sender_within_limit : forall init ops s fs,
  sruns (sfc_new init) ops = Some (s, fs) ->
  sf_used s = s_used ops /\ sf_limit s = s_limit init ops /\ s_used ops <= s_limit init ops.
Proof. intros init ops s fs H. destruct (sender_lemma _ _ _ _ H) as (A & B & C & _). auto. Qed.
Print Assumptions sender_within_limit.

Theorem sender_may_use_iff_within_limit : forall init ops s fs n,
  sruns (sfc_new init) ops = Some (s, fs) ->
  (sstep s (SConsume n) <> None <-> s_used ops + n <= s_limit init ops).
Proof. exact sender_consume_iff. Qed.
Print Assumptions sender_may_use_iff_within_limit.

Definition sender_sample : list sop :=
  [SConsume 60; SUpdate 50; SBlocked; SWrite false; SWrite true; SBlocked; SWrite true; SLost 100; SWrite true;
   SUpdate 200; SLost 100; SWrite true; SConsume 140; SBlocked; SWrite true].
Example sender_sample_runs : sruns (sfc_new 100) sender_sample = Some (mkS 200 200 (Some 200) false, [100; 100; 200]).
Proof. reflexivity. Qed.

(** C16: being blocked is reported at most once per limit, plus once per loss of the report;
    what is reported is the limit in force. *)
Theorem blocked_reported_once_per_limit : forall init ops s fs l,
  sruns (sfc_new init) ops = Some (s, fs) -> (count_occ N.eq_dec fs l <= 1 + s_lost l ops)%nat.
Proof. intros init ops s fs l H. destruct (sender_lemma _ _ _ _ H) as (_ & _ & _ & D). apply D. Qed.
Print Assumptions blocked_reported_once_per_limit.

Theorem blocked_reports_current_limit : forall init ops s fs fits s' l,
  sruns (sfc_new init) ops = Some (s, fs) -> sstep s (SWrite fits) = Some (s', Some l) ->
  l = s_limit init ops /\ fits = true.
Proof. exact sender_frame_lemma. Qed.
Print Assumptions blocked_reports_current_limit.

(** C16: a sender that is blocked at a limit it has not reported does report it. *)
Theorem blocked_is_reported : forall init ops s fs,
  sruns (sfc_new init) ops = Some (s, fs) -> ~ In (s_limit init ops) fs ->
  exists s1 s2, sstep s SBlocked = Some (s1, None) /\ sstep s1 (SWrite true) = Some (s2, Some (s_limit init ops)).
Proof. exact sender_blocked_sent_lemma. Qed.
Print Assumptions blocked_is_reported.

Example blocked_is_reported_case : exists s fs,
  sruns (sfc_new 100) [SBlocked; SWrite true; SUpdate 150] = Some (s, fs) /\ ~ In (s_limit 100 [SBlocked; SWrite true; SUpdate 150]) fs.
Proof. eexists _, _. split; [reflexivity|]. cbn. intuition discriminate. Qed.

(** C13: the peer is refused exactly when it goes over the limit it was last told, whether
    for a stream (offsets) or the connection (sum of new bytes). *)
Theorem peer_held_to_advertised_limit : forall k init ops s outs n s' out,
  (k = RConn \/ k = RStream) -> init <= MAX_VARINT -> only_raises k (rfc_new init) ops ->
  rruns k (rfc_new init) ops = Some (s, outs) -> rstep k s (RConsume n) = Some (s', out) ->
  (out = RReject <-> last_limit init outs < match k with RStream => n | _ => used_by_peer k 0 ops outs + n end) /\
  (out <> RReject -> exists a, out = RAccept a).
Proof. exact credit_lemma. Qed.
Print Assumptions peer_held_to_advertised_limit.

Definition receiver_sample : list rop :=
  [RConsume 600; RConsume 1001; RRetire 500; RWrite 1000000 10000000 true; RConsume 1400; RRetire 900; RSetMax 3000;
   RWrite 2000000 10000000 true; RLost 1500; RLost 4400; RBlocked; RWrite 90000000 10000000 true].
Example receiver_sample_runs : exists s, rruns RStream (rfc_new 1000) receiver_sample =
    Some (s, [RAccept 600; RReject; RQuiet; RFrame 1500; RAccept 800; RQuiet; RQuiet; RFrame 15100; RQuiet; RQuiet; RQuiet; RQuiet]) /\
  only_raises RStream (rfc_new 1000) receiver_sample.
Proof. eexists. split; [vm_compute; reflexivity|]. vm_compute. intuition discriminate. Qed.

(** C15: advertised limits never shrink, never exceed what a varint can carry, always cover
    what was used, and never promise more than the window beyond what was read. *)
Theorem advertised_limits_sound_partial : forall k init ops s outs,
  (k = RConn \/ k = RStream) -> init <= MAX_VARINT -> only_raises k (rfc_new init) ops ->
  rruns k (rfc_new init) ops = Some (s, outs) ->
  StronglySorted N.le (init :: limits outs) /\ last_limit init outs <= MAX_VARINT /\
  retired_total ops <= used_by_peer k 0 ops outs <= last_limit init outs /\
  last_limit init outs <= retired_total ops + rf_max_active s.
Proof. exact limits_lemma. Qed.
Print Assumptions advertised_limits_sound_partial.

(** Without the hypothesis that the application only raises the window it is false: the
    limit of a stream goes from 1000 to 200, and a peer within 1000 is then refused. *)
Theorem advertised_limits_sound_refuted : exists init ops s outs,
  init <= MAX_VARINT /\ rruns RStream (rfc_new init) ops = Some (s, outs) /\
  limits outs = [200] /\ init = 1000 /\ rstep RStream s (RConsume 500) = Some (s, RReject).
Proof. exact shrink_refuted_lemma. Qed.
Print Assumptions advertised_limits_sound_refuted.

(** C15: a reader never leaves its peer without credit: at each chance to write, either three
    quarters of the window are still open (or the limit is the largest possible), or a new
    limit a full window beyond what was read goes out. *)
Theorem window_is_reopened : forall k init ops s outs now rtt s' out,
  (k = RConn \/ k = RStream) -> init <= MAX_VARINT -> only_raises k (rfc_new init) ops ->
  rruns k (rfc_new init) ops = Some (s, outs) -> rstep k s (RWrite now rtt true) = Some (s', out) ->
  (out = RQuiet /\ rf_max_active s - rf_max_active s / 4 <= last_limit init outs - retired_total ops) \/
  (out = RQuiet /\ last_limit init outs = MAX_VARINT) \/
  exists w, rf_max_active s <= w /\ out = RFrame (N.min (retired_total ops + w) MAX_VARINT).
Proof. exact reopen_lemma. Qed.
Print Assumptions window_is_reopened.

(** C15: the update carrying the current limit is sent again when lost. *)
Theorem lost_limit_is_resent : forall k init ops s outs now rtt s1 s2 o1 o2,
  (k = RConn \/ k = RStream) -> init <= MAX_VARINT -> only_raises k (rfc_new init) ops ->
  rruns k (rfc_new init) ops = Some (s, outs) -> rstep k s (RLost (last_limit init outs)) = Some (s1, o1) ->
  rstep k s1 (RWrite now rtt true) = Some (s2, o2) -> exists v, o2 = RFrame v /\ last_limit init outs <= v.
Proof. exact lost_resent_lemma. Qed.
Print Assumptions lost_limit_is_resent.

(** C53: the window bookkeeping never overflows or underflows, if windows are at most [w],
    [w] times the clock in microseconds fits in 64 bits, and windows are only raised. *)
Theorem window_arithmetic_never_panics_partial : forall k w init ops,
  (k = RConn \/ k = RStream) -> MAX_LOCAL_MAX_DATA <= w -> w <= 2 ^ 61 -> init <= w ->
  calls_ok w k (rfc_new init) ops -> rruns k (rfc_new init) ops <> None.
Proof. exact receiver_no_panic_lemma. Qed.
Print Assumptions window_arithmetic_never_panics_partial.

Example calls_ok_case : calls_ok (2 ^ 30) RStream (rfc_new 1000) receiver_sample.
Proof. vm_compute. intuition discriminate. Qed.

(** It is false for windows that transport parameters allow: a 1 TiB stream window and two
    updates 30 seconds apart overflow. *)
Theorem window_arithmetic_never_panics_refuted : exists init ops,
  init <= MAX_VARINT /\ only_raises RStream (rfc_new init) ops /\ rruns RStream (rfc_new init) ops = None /\
  (forall now rtt fits, In (RWrite now rtt fits) ops -> now <= 30 * 1000000000).
Proof. exact panic_refuted_lemma. Qed.
Print Assumptions window_arithmetic_never_panics_refuted.

(** C17: the identifiers of the streams opened locally are the first ones of the type and
    role, in order, without repetition, and no more than the peer allows. *)
Theorem local_stream_ids : forall t r ops, exists s l,
  lruns t r (sfc_new 0) ops = Some (s, l) /\
  opened l = ids t r (length (opened l)) /\ lenN (opened l) <= l_limit 0 ops.
Proof. exact local_ids_lemma. Qed.
Print Assumptions local_stream_ids.

Theorem local_stream_refused_iff_at_limit : forall t r ops s l s' id,
  lruns t r (sfc_new 0) ops = Some (s, l) -> take_local t r s = Some (s', id) ->
  (id = None <-> lenN (opened l) = l_limit 0 ops) /\
  (forall i, id = Some i -> i = 4 * lenN (opened l) + stype_num t + role_bit r).
Proof. exact local_refused_lemma. Qed.
Print Assumptions local_stream_refused_iff_at_limit.

Example local_ids_case : exists s, lruns UniDi Server (sfc_new 0) [LOpen; LMaxStreams 2; LOpen; LMaxStreams 1; LOpen; LOpen] =
  Some (s, [None; Some 3; Some 7; None]).
Proof. eexists. reflexivity. Qed.

(** The two low bits of an identifier give its type and initiator. *)
Theorem stream_id_bits : forall t r n,
  is_bidi (4 * n + stype_num t + role_bit r) = (match t with BiDi => true | UniDi => false end) /\
  is_client_initiated (4 * n + stype_num t + role_bit r) = (match r with Client => true | Server => false end).
Proof. exact id_shape_lemma. Qed.
Print Assumptions stream_id_bits.

(** C17: streams opened by the peer: no panic; they are created in order, each once; never
    more than the last advertised limit, which never exceeds what was initially allowed plus
    what was retired. *)
Theorem remote_streams_created_in_order : forall t r max ops,
  max <= MAX_VARINT -> m_ok (stype_num t + role_bit (remote_of r)) (rsl_new t max r) ops ->
  exists s outs, mruns (rsl_new t max r) ops = Some (s, outs) /\
    created outs = ids t (remote_of r) (length (created outs)) /\
    lenN (created outs) <= m_limit max outs /\ m_limit max outs <= m_retired ops + max /\ max <= m_limit max outs.
Proof.
  intros t r max ops H1 H2. destruct (remote_lemma t r max ops H1 H2) as (s & outs & A & B & C & D & E & _).
  exists s, outs. auto.
Qed.
Print Assumptions remote_streams_created_in_order.

(** C17: a frame for a stream is refused exactly when the stream is over the limit; if not,
    that stream and all below it exist afterwards. *)
Theorem remote_stream_refused_iff_over_limit : forall t r max ops s outs id,
  max <= MAX_VARINT -> m_ok (stype_num t + role_bit (remote_of r)) (rsl_new t max r) ops ->
  mruns (rsl_new t max r) ops = Some (s, outs) -> id mod 4 = stype_num t + role_bit (remote_of r) -> id < 2 ^ 62 ->
  exists s' out, mstep s (MFrame id) = Some (s', out) /\
    (if id / 4 <? m_limit max outs
     then exists l, out = MCreated l /\ In id (created outs ++ l) /\ (In id (created outs) -> l = [])
     else out = MLimit).
Proof. exact remote_frame_lemma. Qed.
Print Assumptions remote_stream_refused_iff_over_limit.

(** C17: every retired stream gives the peer a new one, at the next chance to write. *)
Theorem remote_stream_credit_returned : forall t r max ops s outs s' out,
  max <= MAX_VARINT -> m_ok (stype_num t + role_bit (remote_of r)) (rsl_new t max r) ops ->
  mruns (rsl_new t max r) ops = Some (s, outs) -> mstep s (MWrite true) = Some (s', out) ->
  m_limit (m_limit max outs) [out] = N.min (m_retired ops + max) MAX_VARINT.
Proof. exact remote_credit_lemma. Qed.
Print Assumptions remote_stream_credit_returned.

Definition remote_sample : list mop := [MFrame 9; MFrame 1; MFrame 17; MRetire 2; MWrite false; MWrite true; MLost 6; MFrame 21; MWrite true].
Example remote_sample_runs : exists s, mruns (rsl_new BiDi 4 Client) remote_sample =
    Some (s, [MCreated [1; 5; 9]; MCreated []; MLimit; MQuiet; MQuiet; MSent 6; MQuiet; MCreated [13; 17; 21]; MSent 6]) /\
  m_ok 1 (rsl_new BiDi 4 Client) remote_sample.
Proof. eexists. split; [vm_compute; reflexivity|]. vm_compute. intuition discriminate. Qed.

(** C54: every MAX_STREAMS frame sent carries a value a peer accepts (at most 2^60): true
    while the initial limit plus the streams retired stays within it ... *)
Theorem max_streams_valid_partial : forall t r max ops s outs s' v,
  max + m_retired ops <= 2 ^ 60 -> m_ok (stype_num t + role_bit (remote_of r)) (rsl_new t max r) ops ->
  mruns (rsl_new t max r) ops = Some (s, outs) -> mstep s (MWrite true) = Some (s', MSent v) -> v <= 2 ^ 60.
Proof. exact max_streams_partial_lemma. Qed.
Print Assumptions max_streams_valid_partial.

(** ... and false for the largest initial limit the parameters accept, after one stream. *)
Theorem max_streams_valid_refuted : exists ops s outs v,
  mruns (rsl_new BiDi (2 ^ 60) Client) ops = Some (s, outs) /\
  m_ok (stype_num BiDi + role_bit Server) (rsl_new BiDi (2 ^ 60) Client) ops /\ In (MSent v) outs /\ 2 ^ 60 < v.
Proof. exact max_streams_refuted_lemma. Qed.
Print Assumptions max_streams_valid_refuted.
