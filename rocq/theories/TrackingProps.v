(** Which packets are processed and acknowledged (C08, C09, C52). *)
From Verif Require Import Base CodecModel FrameModel FrameSpec TrackingModel TrackingSpec TrackingProofs.

(** No sequence of packets, ACKs and acknowledgments makes the tracker panic. *)
Theorem tracking_never_panics : forall app ops,
  Forall op_ok ops -> lenN ops < 2 ^ 62 -> trun app ops <> None.
Proof. exact no_panic_lemma. Qed.
Print Assumptions tracking_never_panics.

(** A run used by the examples below: packets in and out of order, a repeat, an ACK that is
    itself acknowledged. *)
Definition sample : list top :=
  [OPacket 1 0 true 1; OPacket 2 3 true 1; OPacket 3 3 true 1; OPacket 4 1 false 3;
   OWrite 5 100 1000; OPacket 6 2 true 0; OAcked 0; OFreq 1 5 7 true; OImmediate 8;
   OPacket 9 0 true 1; OWrite 10 100 1000; OPacket 11 7 true 2].
Example sample_ok : Forall op_ok sample /\ lenN sample < 2 ^ 62.
Proof. split; [repeat constructor|reflexivity]. Qed.
Example sample_runs : match trun true sample with
  | Some (s, toks, outs) => processed outs = [0; 3; 1; 2; 7] /\ acked_of [] sample outs = [(3, 3); (1, 0)]
  | None => False end.
Proof. vm_compute. split; reflexivity. Qed.

(** C08: no packet number is processed twice ... *)
Theorem no_packet_processed_twice : forall app ops s toks outs,
  Forall op_ok ops -> lenN ops < 2 ^ 62 -> trun app ops = Some (s, toks, outs) -> NoDup (processed outs).
Proof. exact processed_once_lemma. Qed.
Print Assumptions no_packet_processed_twice.

(** ... and a packet is only dropped if it was processed before, or is older than a bound
    below which the tracker has forgotten. *)
Theorem dropped_iff_seen_or_forgotten : forall app ops s toks outs pn,
  Forall op_ok ops -> lenN ops < 2 ^ 62 -> trun app ops = Some (s, toks, outs) ->
  (is_duplicate pn s = true <-> pn < t_min s \/ In pn (processed outs)).
Proof. exact duplicate_iff_lemma. Qed.
Print Assumptions dropped_iff_seen_or_forgotten.

(** The bound stays 0 until 33 ranges separated by gaps have been received. *)
Theorem forgets_only_beyond_32_ranges : forall now pn el mark s toks s' toks' out,
  tstep (s, toks) (OPacket now pn el mark) = Some (s', toks', out) -> t_min s' <> t_min s ->
  exists l, rp_add pn (t_ranges s) = Some l /\ length l = S (length (t_ranges s')) /\ (32 < length l)%nat /\
    forall r, last l (pr_new 0) = r -> t_min s' = pr_largest r + 1.
Proof. exact forget_lemma. Qed.
Print Assumptions forgets_only_beyond_32_ranges.

(** C09: what the tracker keeps: at most 32 ranges, descending, disjoint and not adjacent,
    and only numbers of processed packets. *)
Theorem tracked_ranges_bounded_and_true : forall app ops s toks outs,
  Forall op_ok ops -> lenN ops < 2 ^ 62 -> trun app ops = Some (s, toks, outs) ->
  (length (t_ranges s) <= 32)%nat /\ separated (2 ^ 62 + 1) (map pr_pair (t_ranges s)) /\
  (forall pn, holds s pn -> In pn (processed outs)).
Proof. exact bounded_lemma. Qed.
Print Assumptions tracked_ranges_bounded_and_true.

(** C09: every ACK frame written fits, covers only packets that were processed, and the
    peer's parser recovers exactly the ranges it covers. *)
Theorem ack_frames_only_cover_processed : forall app ops s toks outs now rtt rem s' toks' l rs,
  Forall op_ok ops -> lenN ops < 2 ^ 62 -> trun app ops = Some (s, toks, outs) ->
  tstep (s, toks) (OWrite now rtt rem) = Some (s', toks', Wrote l rs) ->
  lenN l <= rem /\ (forall pn, covers rs pn -> In pn (processed outs)) /\
  forall after, exists la delay first gaps ecn,
    frame_decode (l ++ after) = FOk (FAck la delay first gaps ecn) after /\
    decode_ack_frame la first gaps = Some (map (fun r => (snd r, fst r)) rs).
Proof. exact written_lemma. Qed.
Print Assumptions ack_frames_only_cover_processed.

Example sample_writes : match trun true sample with
  | Some (s, toks, outs) =>
      match tstep (s, toks) (OWrite 30000000 100 1000) with Some (_, _, Wrote l rs) => rs = [(7, 7); (3, 0)] | _ => False end
  | None => False end.
Proof. vm_compute. reflexivity. Qed.

(** C09: a processed packet is never silently left out: its number is still to be advertised,
    or an ACK frame covering it was acknowledged by the peer, or it was forgotten. *)
Theorem processed_stay_advertised : forall app ops s toks outs pn,
  Forall op_ok ops -> lenN ops < 2 ^ 62 -> trun app ops = Some (s, toks, outs) -> In pn (processed outs) ->
  pn < t_min s \/ advertised s pn \/ covers (acked_of [] ops outs) pn.
Proof. exact fate_lemma. Qed.
Print Assumptions processed_stay_advertised.

(** C09: and an ACK that is due is written if there is room for one; it covers the number,
    unless the frame is already full of higher ranges. *)
Theorem due_ack_covers_advertised : forall app ops s toks outs now rtt rem pn,
  Forall op_ok ops -> lenN ops < 2 ^ 62 -> trun app ops = Some (s, toks, outs) ->
  ack_now now rtt s = true -> 50 <= rem -> advertised s pn ->
  exists s' toks' l rs, tstep (s, toks) (OWrite now rtt rem) = Some (s', toks', Wrote l rs) /\
    t_ack_time s' = None /\
    (covers rs pn \/ lenN rs = N.min (1 + (rem - 50) / 16) 32 /\ forall r, In r rs -> pn < snd r).
Proof. exact due_written_lemma. Qed.
Print Assumptions due_ack_covers_advertised.

Example sample_due : match trun true sample with
  | Some (s, toks, outs) => ack_now 200 100 s = true /\ advertised s 7
  | None => False end.
Proof. vm_compute. split; [reflexivity|]. exists (mkPR 7 7 true). vm_compute. intuition discriminate. Qed.

(** C52: an ack-eliciting packet that is processed arms the ACK timer, at most the ack delay
    away; in the handshake spaces, or when more packets than tolerated wait, at once. *)
Theorem eliciting_arms_ack_timer : forall st now pn mark s' toks',
  tstep st (OPacket now pn true mark) = Some (s', toks', Processed pn) ->
  exists t, t_ack_time s' = Some t /\ (t_ack_time (fst st) = Some t \/ t <= now + t_delay (fst st)) /\
    (t_app (fst st) = false \/ t_tolerance (fst st) < t_unacked (fst st) + 1 -> t <= now).
Proof. exact timer_armed_lemma. Qed.
Print Assumptions eliciting_arms_ack_timer.

(** C52: once armed, it stays armed until an ACK frame is written. *)
Theorem ack_timer_stays_until_written : forall st o s' toks' out t,
  tstep st o = Some (s', toks', out) -> t_ack_time (fst st) = Some t ->
  (forall l rs, out <> Wrote l rs) -> exists t', t_ack_time s' = Some t'.
Proof. exact timer_persists_lemma. Qed.
Print Assumptions ack_timer_stays_until_written.

Example timer_sample : match tstep (tracker_new true, []) (OPacket 5 0 true 1) with
  | Some (s', toks', out) => out = Processed 0 /\ t_ack_time s' = Some 20000005
  | None => False end.
Proof. vm_compute. split; reflexivity. Qed.

(** C52, in full: when the timer is due and there is room, an ACK is written (so that the
    timer does not stay due).  True if some received packet awaits acknowledgment ... *)
Theorem due_timer_is_served_partial : forall app ops s toks outs now rtt rem pn,
  Forall op_ok ops -> lenN ops < 2 ^ 62 -> trun app ops = Some (s, toks, outs) ->
  ack_now now rtt s = true -> 50 <= rem -> advertised s pn ->
  exists s' toks' l rs, tstep (s, toks) (OWrite now rtt rem) = Some (s', toks', Wrote l rs) /\ t_ack_time s' = None.
Proof. exact due_served_lemma. Qed.
Print Assumptions due_timer_is_served_partial.

(** ... false in general: 32 separate ranges acknowledged and settled, then an older
    ack-eliciting packet: it is processed, forgotten at once, and the timer is due forever. *)
Theorem due_timer_is_served_refuted : exists ops s toks outs,
  Forall op_ok ops /\ trun true ops = Some (s, toks, outs) /\ ack_now 1000 10 s = true /\
  forall now rem, 1000 <= now -> tstep (s, toks) (OWrite now 10 rem) = Some (s, toks, Nothing).
Proof. exact due_refuted_lemma. Qed.
Print Assumptions due_timer_is_served_refuted.

(** C52: the ACK is written at the latest when the timer says so ... *)
Theorem ack_written_when_timer_expires : forall app ops s toks outs now rtt rem pn t,
  Forall op_ok ops -> lenN ops < 2 ^ 62 -> trun app ops = Some (s, toks, outs) ->
  t_ack_time s = Some t -> t <= now -> 50 <= rem -> advertised s pn ->
  exists s' toks' l rs, tstep (s, toks) (OWrite now rtt rem) = Some (s', toks', Wrote l rs) /\ t_ack_time s' = None.
Proof. exact by_time_lemma. Qed.
Print Assumptions ack_written_when_timer_expires.
Example sample_timer : match trun true sample with
  | Some (s, toks, outs) => t_ack_time s = Some 18 /\ advertised s 7
  | None => False end.
Proof. vm_compute. split; [reflexivity|]. exists (mkPR 7 7 true). vm_compute. intuition discriminate. Qed.
(** ... and not before, unless a round trip has passed since the last one. *)
Theorem no_ack_before_timer : forall st now rtt rem s' toks' l rs,
  tstep st (OWrite now rtt rem) = Some (s', toks', Wrote l rs) ->
  exists t, t_ack_time (fst st) = Some t /\ (t <= now \/ exists last, t_last_ack (fst st) = Some last /\ last + rtt <= now).
Proof. exact not_before_lemma. Qed.
Print Assumptions no_ack_before_timer.

(** C58: the ECN counts in an ACK frame are the numbers of packets processed with each mark. *)
Theorem ack_ecn_counts_exact : forall app ops s toks outs now rtt rem s' toks' l rs,
  Forall op_ok ops -> lenN ops < 2 ^ 62 -> trun app ops = Some (s, toks, outs) ->
  tstep (s, toks) (OWrite now rtt rem) = Some (s', toks', Wrote l rs) ->
  forall after, exists la delay first gaps,
    frame_decode (l ++ after) = FOk (FAck la delay first gaps
      (if marked 1 ops outs + marked 2 ops outs + marked 3 ops outs =? 0 then None
       else Some (marked 1 ops outs, marked 2 ops outs, marked 3 ops outs))) after.
Proof. exact ecn_lemma. Qed.
Print Assumptions ack_ecn_counts_exact.
Example sample_marked : match trun true sample with
  | Some (s, toks, outs) => (marked 1 sample outs, marked 2 sample outs, marked 3 sample outs) = (2, 1, 1)
  | None => False end.
Proof. vm_compute. reflexivity. Qed.

(** C59: the acknowledgment frequency asked for by the frame with the highest sequence
    number is in force, whatever the order of arrival. *)
Theorem ack_frequency_in_force : forall app ops s toks outs, trun app ops = Some (s, toks, outs) ->
  freq_in_force app ops (t_tolerance s) (t_delay s) (t_ignore_order s).
Proof. exact freq_lemma. Qed.
Print Assumptions ack_frequency_in_force.
