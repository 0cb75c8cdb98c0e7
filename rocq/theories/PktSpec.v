(** What packets have to do: the vocabulary of the C43 theorems. *)
From Verif Require Import Base VerModel PktModel.

(** Protection that works: the mask has 16 bytes, sealing never fails, adds [x_exp] bytes, and opening undoes it. *)
Definition good_keys (x : keys) : Prop :=
  (forall s, length (x_mask x s) = 16%nat /\ bytes_ok (x_mask x s)) /\
  (forall pn aad body, bytes_ok body ->
     exists t, x_seal x pn aad body = Some t /\ length t = (length body + x_exp x)%nat /\ bytes_ok t /\ x_open x pn aad t = Some body).

(** Packet types that carry a protected payload behind a long header. *)
Definition protected_long (t : pkt_type) : Prop := t = PInitial \/ t = PZeroRtt \/ t = PHandshake.

(** What the receiver of a packet must know for the truncated number to be recovered: the sender's largest
    acknowledged number [la] is below what the receiver expects next, [next]. *)
Definition pn_recoverable (pn : N) (la : option N) (next : N) : Prop :=
  pn < 2 ^ 62 /\ next <= pn /\
  match la with Some l => l < pn /\ pn - l < 2 ^ 31 /\ l < next | None => pn < 2 ^ 32 - 1 end.

(** A connection ID decoder that knows this connection ID. *)
Definition knows (cid : list N -> option (list N * list N)) (dcid : list N) : Prop := forall r, cid (dcid ++ r) = Some (dcid, r).
(** A connection ID decoder that takes a prefix. *)
Definition takes_prefix (cid : list N -> option (list N * list N)) : Prop := forall l a r, cid l = Some (a, r) -> l = a ++ r.

(** A SCONE packet, as other endpoints write it. *)
Definition scone_packet (first ver : N) (dcid scid : list N) : list N := first :: be_bytes 4 ver ++ vec1 dcid ++ vec1 scid.

(** The datagram loop: packets are parsed one after another (connection/mod.rs:1830-1850, without the processing).
    [None]: a packet does not parse. *)
Fixpoint parse_all (rexp : version -> nat) (cid : list N -> option (list N * list N)) (fuel : nat) (data : list N) : option (list public) :=
  match fuel with
  | O => None
  | S f => match data with
           | [] => Some []
           | _ => match decode_pkt rexp cid false data with
                  | Some (POk u rest) => match parse_all rexp cid f rest with Some us => Some (u :: us) | None => None end
                  | _ => None
                  end
           end
  end.
