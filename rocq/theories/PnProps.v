(** C04, C05: truncated packet numbers. *)
From Verif Require Import Base Lib CodecModel PnModel PnProofs.

(** ** C04 *)
(** A number within half a window of the expected one is recovered exactly. *)
Theorem pn_recovered_exactly : forall expected pn w, (0 < w)%nat ->
  pn <= expected + 256 ^ N.of_nat w / 2 -> expected < pn + 256 ^ N.of_nat w / 2 ->
  decode_pn expected (pn mod 256 ^ N.of_nat w) w = pn.
Proof. exact decode_pn_exact. Qed.
Print Assumptions pn_recovered_exactly.

(** Whatever was expected, the result has the received low bytes ... *)
Theorem pn_recovered_low_bytes : forall expected t w, (0 < w)%nat -> t < 256 ^ N.of_nat w ->
  decode_pn expected t w mod 256 ^ N.of_nat w = t.
Proof. exact decode_pn_low_bits. Qed.
Print Assumptions pn_recovered_low_bytes.

(** ... and no other number with those low bytes is nearer to the expected one. *)
Theorem pn_recovered_nearest : forall expected t w p, (0 < w)%nat -> t < 256 ^ N.of_nat w ->
  p mod 256 ^ N.of_nat w = t -> dist (decode_pn expected t w) expected <= dist p expected.
Proof. exact decode_pn_nearest. Qed.
Print Assumptions pn_recovered_nearest.

Example pn_ex :
  (* RFC 9000, A.3 *)
  decode_pn (0xa82f30ea + 1) 0x9b32 2 = 0xa82f9b32 /\
  decode_pn 0 200 1 = 200 /\ decode_pn 300 255 1 = 255 /\ decode_pn 129 0 1 = 256.
Proof. repeat split; vm_compute; reflexivity. Qed.

(** ** C05 *)
(** [la] is the largest packet number the peer has acknowledged, so the receiver, which has
    received it and nothing after [pn], expects a number above [la] and at most [pn]. *)
Theorem sender_pn_length_decodable : forall pn la expected,
  pn < 2 ^ 62 ->
  match la with
  | Some l => l < pn /\ pn - l < 2 ^ 31 /\ l < expected
  | None => pn < 2 ^ 32 - 1
  end ->
  expected <= pn ->
  exists l, pn_wire pn la = Some l /\ (1 <= length l <= 4)%nat /\
    forall more, bytes_ok more -> length (l ++ more) = MAX_PACKET_NUMBER_LEN ->
      pn_read expected (l ++ more) (length l) = pn.
Proof. exact pn_roundtrip. Qed.
Print Assumptions sender_pn_length_decodable.

Example sender_pn_ex :
  pn_wire 0xac5c02 (Some 0xabe8b3) = Some [0x5c; 0x02] /\
  pn_read 0xabe8b4 [0x5c; 0x02; 77; 88] 2 = 0xac5c02 /\
  pn_wire 300 None = Some [1; 44] /\ pn_read 0 [1; 44; 0; 0] 2 = 300.
Proof. repeat split; vm_compute; reflexivity. Qed.
