(** Vocabulary of the transport parameter theorems, after RFC 9000 section 18, RFC 9221, RFC 9287, RFC 9368 and the drafts
    the parameters come from.  A parameter list is a sequence of pairs of a code and a content. *)
From Verif Require Import Base Reader TpModel.

(** [tlvs b ts]: the bytes [b] are exactly the sequence [ts], the code and the length of the content being variable-length
    integers (in any of their encodings). *)
Inductive tlvs : list N -> list (N * list N) -> Prop :=
| tl_nil : tlvs [] []
| tl_cons : forall b c r v r' ts, rd_varint b = Some (c, r) -> rd_vvec r = Some (v, r') -> tlvs r' ts -> tlvs b ((c, v) :: ts).
(** How often the parameter occurs. *)
Definition times (k : tpid) (ts : list (N * list N)) : nat := length (filter (fun p => fst p =? tp_code k) ts).

(** The values an integer parameter may have, where it has bounds. *)
Definition int_range (k : tpid) : option (N * N) :=
  match k with
  | IdleTimeout | InitialMaxData | InitialMaxStreamDataBidiLocal | InitialMaxStreamDataBidiRemote | InitialMaxStreamDataUni
  | MaxDatagramFrameSize => Some (0, 2 ^ 62 - 1)
  | MaxUdpPayloadSize => Some (1200, 2 ^ 62 - 1)
  | InitialMaxStreamsBidi | InitialMaxStreamsUni => Some (0, 2 ^ 60)
  | AckDelayExponent => Some (0, 20)
  | MaxAckDelay => Some (0, 2 ^ 14 - 1)
  | ActiveConnectionIdLimit => Some (2, 2 ^ 62 - 1)
  | MinAckDelay => Some (0, 2 ^ 24 - 1)
  | _ => None
  end.
(** Parameters only a server sends. *)
Definition server_only (k : tpid) : bool :=
  match k with OriginalDestinationConnectionId | RetrySourceConnectionId | StatelessResetToken | PreferredAddress => true | _ => false end.
(** An address of [n] zero octets together with port 0 stands for none; neither may be zero alone. *)
Definition socket (n : nat) (ip : list N) (port : N) : Prop := length ip = n /\ port < 65536 /\ (ip = repeat 0 n <-> port = 0).
(** [content k v x]: the bytes [v] are a valid content of parameter [k], with value [x]. *)
Definition content (k : tpid) (v : list N) (x : tparam) : Prop :=
  match k with
  | OriginalDestinationConnectionId | RetrySourceConnectionId | InitialSourceConnectionId => x = PBytes v
  | StatelessResetToken => x = PBytes v /\ length v = 16%nat
  | DisableMigration | GreaseQuicBit | Scone | ResetStreamAt => x = PEmpty /\ v = []
  | VersionInformation => exists c o, x = PVersions c o /\ v = be_bytes 4 c ++ flat_map (be_bytes 4) o /\ Forall (fun w => 0 < w < 2 ^ 32) (c :: o)
  | PreferredAddress => exists ip4 p4 ip6 p6 cid srt,
      v = ip4 ++ be_bytes 2 p4 ++ ip6 ++ be_bytes 2 p6 ++ lenN cid :: cid ++ srt /\
      socket 4 ip4 p4 /\ socket 16 ip6 p6 /\ (p4 <> 0 \/ p6 <> 0) /\ 1 <= lenN cid <= 20 /\ length srt = 16%nat /\
      x = PAddr (if p4 =? 0 then None else Some (ip4, p4)) (if p6 =? 0 then None else Some (ip6, p6, 0, 0)) cid srt
  | _ => exists n lo hi, x = PInt n /\ rd_varint v = Some (n, []) /\ int_range k = Some (lo, hi) /\ lo <= n <= hi
  end.

(** A value that may be sent as parameter [k]. *)
Definition sendable (k : tpid) (x : tparam) : Prop :=
  match x with
  | PBytes l => is_bytes k = true /\ bytes_ok l /\ lenN l < 2 ^ 62 /\ (k = StatelessResetToken -> length l = 16%nat)
  | PInt n => exists lo hi, int_range k = Some (lo, hi) /\ lo <= n <= hi
  | PEmpty => is_empty k = true
  | PVersions c o => k = VersionInformation /\ Forall (fun w => 0 < w < 2 ^ 32) (c :: o) /\ lenN o < 2 ^ 59
  | PAddr v4 v6 cid srt => k = PreferredAddress /\ (v4 <> None \/ v6 <> None) /\ bytes_ok cid /\ 1 <= lenN cid <= 20 /\ bytes_ok srt /\ length srt = 16%nat /\
      match v4 with Some (ip, p) => bytes_ok ip /\ length ip = 4%nat /\ ip <> repeat 0 4 /\ 0 < p < 65536 | None => True end /\
      match v6 with Some (ip, p, fl, sc) => bytes_ok ip /\ length ip = 16%nat /\ ip <> repeat 0 16 /\ 0 < p < 65536 /\ fl = 0 /\ sc = 0 | None => True end
  end.
(** Parameters an endpoint may send to a server ([server]) or to a client. *)
Definition sendable_set (server : bool) (t : tps) : Prop := forall k x, t k = Some x -> sendable k x /\ (server = true -> server_only k = false).

(** The value in force: the one given, or the default of RFC 9000. *)
Definition in_force (k : tpid) (t : tps) : N :=
  match t k with
  | Some (PInt n) => n
  | _ => match k with MaxUdpPayloadSize => 65527 | AckDelayExponent => 3 | MaxAckDelay => 25 | ActiveConnectionIdLimit => 2 | _ => 0 end
  end.
(** The limits that 0-RTT packets rely on (RFC 9000 section 7.4.1, RFC 9221 section 3). *)
Definition limits_0rtt : list tpid :=
  [InitialMaxData; InitialMaxStreamDataBidiLocal; InitialMaxStreamDataBidiRemote; InitialMaxStreamDataUni; InitialMaxStreamsBidi; InitialMaxStreamsUni;
   MaxDatagramFrameSize; MaxUdpPayloadSize; ActiveConnectionIdLimit].
(** The bytes given for a connection ID parameter or the reset token. *)
Definition declared (k : tpid) (t : tps) : option (list N) := match t k with Some (PBytes l) => Some l | _ => None end.
(** [kept old new k]: the server's promise [old] about parameter [k] is kept by [new]: limits do not shrink, the shortest
    acknowledgement delay does not grow, features are still there and the version is the same. *)
Definition kept (old new : tps) (k : tpid) : Prop :=
  match old k with
  | None => True
  | Some (PInt a) => exists b, new k = Some (PInt b) /\ if tpid_eqb k MinAckDelay then b <= a else a <= b
  | Some PEmpty => new k = Some PEmpty
  | Some (PVersions a _) => exists o, new k = Some (PVersions a o)
  | Some _ => False
  end.
(** Parameters the server does not compare. *)
Definition not_compared : list tpid :=
  [OriginalDestinationConnectionId; InitialSourceConnectionId; RetrySourceConnectionId; StatelessResetToken; IdleTimeout;
   AckDelayExponent; MaxAckDelay; ActiveConnectionIdLimit; PreferredAddress; Scone].
