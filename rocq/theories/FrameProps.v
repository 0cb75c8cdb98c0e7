(** C06, C07, C41, C42: frames. *)
From Verif Require Import Base Lib CodecModel Reader CodecSpec FrameModel FrameSpec FrameProofs FrameProofs2 FrameProofs3.

(** ** C42 *)
(** Every frame, written as the RFCs say, is parsed back to itself, leaving what follows. *)
Theorem frame_round_trip : forall f, frame_ok f ->
  exists l, frame_wire f = Some l /\ forall rest, may_follow f rest -> frame_decode (l ++ rest) = FOk f rest.
Proof. exact frames_round_trip_lemma. Qed.
Print Assumptions frame_round_trip.

(** What is parsed is always within the limits on frames; the frame ends inside the packet and
    is not empty; and the type was encoded in the least number of bytes. *)
Theorem frame_decode_sound : forall l f rest, bytes_ok l -> frame_decode l = FOk f rest ->
  frame_ok f /\ (exists used, l = used ++ rest /\ used <> []) /\
  exists t r, rd_varint l = Some (t, r) /\ varint_len t = Some (lenN l - lenN r).
Proof. exact frame_decode_sound_lemma. Qed.
Print Assumptions frame_decode_sound.

(** A type encoded in more bytes than necessary is a protocol violation. *)
Theorem frame_type_nonminimal_refused : forall l t r,
  rd_varint l = Some (t, r) -> varint_len t <> Some (lenN l - lenN r) -> frame_decode l = FErr ProtocolViolation.
Proof. exact nonminimal_refused_lemma. Qed.
Print Assumptions frame_type_nonminimal_refused.

Example frame_ex :
  frame_ok (FStream 4 1000 [1;2;3] true false) /\
  frame_wire (FStream 4 1000 [1;2;3] true false) = Some [15; 4; 67; 232; 3; 1; 2; 3] /\
  frame_decode [15; 4; 67; 232; 3; 1; 2; 3; 1; 0] = FOk (FStream 4 1000 [1;2;3] true false) [1; 0] /\
  frame_decode [64; 1] = FErr ProtocolViolation /\ rd_varint [64; 1] = Some (1, []) /\
  frame_decode [0x2f] = FErr UnknownFrameType.
Proof. repeat split; vm_compute; reflexivity. Qed.

(** The writers whose frame has a fixed size: each writes precisely the frame it was asked to
    write, iff it fits (C41 too). *)
Theorem control_frames_written_iff_fit : forall rem w, frame_ok (wreq_frame w) ->
  exists l, frame_wire (wreq_frame w) = Some l /\
            run_wreq rem w = Some (if lenN l <=? rem then Some l else None) /\
            forall rest, frame_decode (l ++ rest) = FOk (wreq_frame w) rest.
Proof. exact control_frames. Qed.
Print Assumptions control_frames_written_iff_fit.

Example control_frames_ex :
  frame_ok (wreq_frame (WNewConnectionId 300 [1;2;3] (repeat 7 16))) /\
  run_wreq 25 (WNewConnectionId 300 [1;2;3] (repeat 7 16)) =
    Some (Some ([24; 65; 44; 0; 3; 1; 2; 3] ++ repeat 7 16)) /\
  run_wreq 23 (WNewConnectionId 300 [1;2;3] (repeat 7 16)) = Some None.
Proof. repeat split; vm_compute; try reflexivity; discriminate. Qed.

(** ** C41 *)
(** STREAM: nothing is written, or the frame fits, is the STREAM frame for the first [len]
    bytes at [offset], and [len] and [fin] are what is recorded; FIN is set precisely when the
    frame reaches the end of the stream; a frame that fills the packet is marked as such. *)
Theorem stream_frame_fits : forall rem id offset data fin_offset,
  id < 2 ^ 62 -> offset + lenN data < 2 ^ 62 ->
  exists r, wr_stream rem id offset data fin_offset = Some r /\
  forall l len fin fill, r = Some (l, len, fin, fill) ->
    frame_wire (FStream id offset (firstnN len data) fin fill) = Some l /\
    lenN l <= rem /\ len <= lenN data /\ (0 < len \/ fin = true) /\
    (fin = true <-> fin_offset = Some (offset + len)).
Proof. exact wr_stream_spec. Qed.
Print Assumptions stream_frame_fits.

Theorem crypto_frame_fits : forall rem offset data, offset + lenN data < 2 ^ 62 ->
  exists r, wr_crypto rem offset data = Some r /\
  forall l len, r = Some (l, len) ->
    frame_wire (FCrypto offset (firstnN len data)) = Some l /\ lenN l <= rem /\ len <= lenN data /\
    (0 < lenN data -> 0 < len).
Proof. exact wr_crypto_spec. Qed.
Print Assumptions crypto_frame_fits.

(** DATAGRAM: never split; dropped or deferred only if it cannot fit. *)
Theorem datagram_frame_fits : forall rem data, lenN data < 2 ^ 62 ->
  exists r, wr_datagram rem data = Some r /\
  (r = None <-> rem < lenN data + 1) /\
  forall l full, r = Some (l, full) -> frame_wire (FDatagram data full) = Some l /\ lenN l <= rem.
Proof. exact wr_datagram_spec. Qed.
Print Assumptions datagram_frame_fits.

(** ACK: the bound the writer of ACK frames relies on to choose how many ranges to send. *)
Theorem ack_frame_size : forall first rest delay ecn l, lenN rest < 64 ->
  ack_frame_bytes first rest delay ecn = Some l -> lenN l <= 50 + 16 * lenN rest.
Proof. exact ack_size. Qed.
Print Assumptions ack_frame_size.

(** CONNECTION_CLOSE: what is written is the close frame with a prefix of the reason phrase,
    but its size is only bounded by 17 + min(256, space). *)
Theorem close_frame_fits_partial : forall rem transport code ft reason,
  code < 2 ^ 62 -> ft < 2 ^ 62 -> lenN reason < 2 ^ 62 ->
  exists r, wr_close rem transport code ft reason = Some r /\
  (r = None <-> rem < 27) /\
  forall l, r = Some l -> exists n, n <= lenN reason /\
    frame_wire (FConnectionClose transport code (if transport then ft else 0) (firstnN n reason)) = Some l /\
    lenN l <= 17 + N.min 256 rem.
Proof. exact wr_close_spec. Qed.
Print Assumptions close_frame_fits_partial.

(** So it does not always fit. *)
Theorem close_frame_fits_refuted : exists rem code ft reason l,
  code < 2 ^ 62 /\ ft < 2 ^ 62 /\ bytes_ok reason /\
  wr_close rem true code ft reason = Some (Some l) /\ rem < lenN l.
Proof. exact close_too_long. Qed.
Print Assumptions close_frame_fits_refuted.

Example writers_ex :
  wr_stream 20 4 1000 (repeat 9 100) (Some 1100) = Some (Some ([12; 4; 67; 232] ++ repeat 9 16, 16, false, true)) /\
  wr_stream 20 4 1000 [1;2] (Some 1002) = Some (Some ([15; 4; 67; 232; 2; 1; 2], 2, true, false)) /\
  wr_crypto 70 0 (repeat 1 100) = Some (Some ([6; 0; 64; 66] ++ repeat 1 66, 66)) /\
  wr_datagram 5 [1;2;3] = Some (Some ([48; 1; 2; 3], true)) /\
  wr_datagram 7 [1;2;3] = Some (Some ([49; 3; 1; 2; 3], false)) /\ wr_datagram 3 [1;2;3] = Some None.
Proof. repeat split; vm_compute; reflexivity. Qed.

(** ** C06 *)
(** The ACK frame for descending ranges (largest, smallest), each separated from the one before
    by at least one number, is parsed and expanded by the peer to those ranges, in order. *)
Theorem ack_ranges_survive : forall lg sm rest delay ecn after,
  lg < 2 ^ 62 -> sm <= lg -> separated sm rest -> lenN rest < 32768 -> delay < 2 ^ 62 ->
  match ecn with Some (e0, e1, ce) => e0 < 2 ^ 62 /\ e1 < 2 ^ 62 /\ ce < 2 ^ 62 | None => True end ->
  exists l first gaps,
    ack_frame_bytes (lg, sm) rest delay ecn = Some l /\
    frame_decode (l ++ after) = FOk (FAck lg delay first gaps ecn) after /\
    decode_ack_frame lg first gaps = Some (map flip ((lg, sm) :: rest)).
Proof. exact ack_round_trip. Qed.
Print Assumptions ack_ranges_survive.

Example ack_ex :
  separated 90 [(88, 80); (5, 0)] /\
  ack_frame_bytes (100, 90) [(88, 80); (5, 0)] 3 (Some (7, 8, 9)) =
    Some [3; 64; 100; 3; 2; 10; 0; 8; 64; 73; 5; 7; 8; 9] /\
  frame_decode [3; 64; 100; 3; 2; 10; 0; 8; 64; 73; 5; 7; 8; 9; 1] =
    FOk (FAck 100 3 10 [(0, 8); (73, 5)] (Some (7, 8, 9))) [1] /\
  decode_ack_frame 100 10 [(0, 8); (73, 5)] = Some [(90, 100); (80, 88); (0, 5)].
Proof. repeat split; vm_compute; try reflexivity; discriminate. Qed.

(** ** C07 *)
(** Expansion gives strictly descending, disjoint ranges, none above the largest. *)
Theorem ack_expansion_descending : forall la fa rs out,
  decode_ack_frame la fa rs = Some out -> descending (la + 1) out.
Proof. exact ack_descending. Qed.
Print Assumptions ack_expansion_descending.

(** Every list the RFC allows is accepted and expanded as the RFC says. *)
Theorem ack_expansion_complete : forall la fa rs out,
  rfc_ack la fa rs out -> decode_ack_frame la fa rs = Some out.
Proof. exact decode_ack_frame_complete. Qed.
Print Assumptions ack_expansion_complete.

(** What the RFC does not allow is refused, except for one final (0, 0) after a range that
    reaches down to packet number 1. *)
Theorem ack_expansion_sound_partial : forall la fa rs out,
  decode_ack_frame la fa rs = Some out ->
  rfc_ack la fa rs out \/
  exists rs' out' e, rs = rs' ++ [(0, 0)] /\ out = out' ++ [(1, e); (0, 0)] /\ rfc_ack la fa rs' (out' ++ [(1, e)]).
Proof. exact decode_ack_frame_sound. Qed.
Print Assumptions ack_expansion_sound_partial.

(** That exception is real: here the second range would begin at -1. *)
Theorem ack_expansion_sound_refuted : exists la fa rs out,
  decode_ack_frame la fa rs = Some out /\ forall out', ~ rfc_ack la fa rs out'.
Proof. exact ack_minus_one. Qed.
Print Assumptions ack_expansion_sound_refuted.

(** ** C51 *)
(** The type reported for a frame is the type it has on the wire, DATAGRAM, ACK with ECN counts
    and runs of PADDING excepted (for the last the reported type is also right: 0). *)
Theorem reported_type_is_wire_type_partial : forall f l rest, frame_ok f ->
  match f with FDatagram _ _ | FAck _ _ _ _ (Some _) | FPadding _ => False | _ => True end ->
  frame_wire f = Some l -> exists r, rd_varint (l ++ rest) = Some (ftype_num (get_type f), r).
Proof. exact get_type_wire. Qed.
Print Assumptions reported_type_is_wire_type_partial.

(** A DATAGRAM frame is reported with the wrong type. *)
Theorem reported_type_is_wire_type_refuted : exists l f rest, frame_decode l = FOk f rest /\
  exists t r, rd_varint l = Some (t, r) /\ ftype_num (get_type f) <> t.
Proof. exact get_type_datagram. Qed.
Print Assumptions reported_type_is_wire_type_refuted.
