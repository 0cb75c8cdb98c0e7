(** Packet number truncation and recovery. *)
From Verif Require Import Base CodecModel.

(** neqo-transport/src/packet/mod.rs:858-871 [Public::decode_pn(expected, pn, w)].
    [!(window - 1)] is the 64-bit complement; on values below 2^64 masking with it is
    [N.ldiff].  The additions do not overflow u64 for [expected < 2^63]. *)
Definition decode_pn (expected pn : N) (w : nat) : N :=
  let window := N.shiftl 1 (8 * N.of_nat w) in
  let candidate := N.lor (N.ldiff expected (window - 1)) pn in
  if candidate + window / 2 <=? expected then candidate + window
  else if expected + window / 2 <? candidate then
    (if candidate <? window then candidate else candidate - window)
  else candidate.

(** packet/mod.rs: MAX_PACKET_NUMBER_LEN *)
Definition MAX_PACKET_NUMBER_LEN : nat := 4.

(** [u64::leading_zeros]. *)
Definition leading_zeros64 (v : N) : nat := 64 - N.to_nat (N.size v).

(** neqo-transport/src/connection/mod.rs:2368-2376 (in [add_packet_number]/build): the
    number of bytes for packet number [pn] when [la] is the largest acknowledged.  [None]
    is the panic of the [assert!].  [(pn - la) << 1] is not wrapped (numbers stay below
    2^62); [pn - la] underflow is a panic too. *)
Definition pn_len (pn : N) (la : option N) : option nat :=
  match la with
  | Some l => if pn <? l then None
              else let unacked := N.shiftl (pn - l) 1 in
                   let n := (8 - leading_zeros64 unacked / 8)%nat in
                   if Nat.eqb n 0 then None else Some n
  | None => let unacked := pn + 1 in
            let n := (8 - leading_zeros64 unacked / 8)%nat in
            if Nat.eqb n 0 then None else Some n
  end.

(** packet/mod.rs:410-415 (in [Builder::pn]): the bytes put in the packet. *)
Definition pn_wire (pn : N) (la : option N) : option (list N) :=
  match pn_len pn la with
  | Some n => Some (be_bytes (Nat.min MAX_PACKET_NUMBER_LEN n) pn)
  | None => None
  end.

(** packet/mod.rs:903-922 (in [decrypt_header]): [four] are the four bytes after the
    header once unmasked, [w] is the length from the first byte. *)
Definition pn_read (expected : N) (four : list N) (w : nat) : N :=
  decode_pn expected (N.shiftr (be_val four) (8 * N.of_nat (MAX_PACKET_NUMBER_LEN - w))) w.

(** Specification vocabulary (not code): distance between two numbers. *)
Definition dist (a b : N) : N := if a <=? b then b - a else a - b.
