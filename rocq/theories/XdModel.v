(** The bytes of session datagrams and of the end of a session: neqo-http3/src/features/extended_connect/session.rs,
    connect_udp_session.rs, webtransport_session.rs and connection.rs. *)
From Coq Require Import NArith List Bool.
From Verif Require Import Base CodecModel Reader HfModel XsModel.
Import ListNotations.
Open Scope N_scope.

(** webtransport_session.rs 254-256, connect_udp_session.rs 100-102 [write_datagram_prefix]. *)
Definition xd_prefix (k : xkind) : option (list N) := match k with XWebTransport => Some [] | XConnectUdp => varint_bytes 0 end.
(** What leaves: a QUIC datagram, a capsule on the CONNECT stream, or nothing. *)
Inductive xwire := WDatagram (d : list N) | WCapsule (d : list N) | WDropped.
(** session.rs 395-431 [send_datagram] of an active session, connect_udp_session.rs 125-150 [write_datagram_capsule]:
    [remote] is the largest QUIC datagram the peer takes, [space] what the CONNECT stream takes now.  None is a panic.
    Whether the transport then takes the datagram is in DgramModel; that the capsule is written whole or not at all
    ([send_data_atomic]) is in SbModel. *)
Definition xd_send (k : xkind) (remote space id : N) (buf : list N) : option xwire :=
  obind (xd_prefix k) (fun p =>
    match k with
    | XConnectUdp =>
        if remote =? 0 then
          if space <? lenN (p ++ buf) then Some WDropped else obind (capsule_encode (p ++ buf)) (fun b => Some (WCapsule b))
        else obind (varint_bytes (id / 4)) (fun q => Some (WDatagram (q ++ p ++ buf)))
    | XWebTransport => obind (varint_bytes (id / 4)) (fun q => Some (WDatagram (q ++ p ++ buf)))
    end).
(** connection.rs 672-692 [handle_datagram], session.rs 433-449 [datagram]: the table says of each session its kind and
    whether it is active.  A session that is not there, or not active, gets nothing. *)
Definition xd_find (tbl : list (N * (xkind * bool))) (id : N) : option (xkind * bool) :=
  match find (fun e => fst e =? id) tbl with Some e => Some (snd e) | None => None end.
Definition xd_in (tbl : list (N * (xkind * bool))) (d : list N) : list (N * list N) :=
  match rd_varint d with
  | None => []
  | Some (v, r) =>
      match xd_find tbl (v * 4) with
      | Some (XWebTransport, true) => [(v * 4, r)]
      | Some (XConnectUdp, true) => match x_context r with Some p => [(v * 4, p)] | None => [] end
      | _ => []
      end
  end.
(** webtransport_session.rs 221-226 [close_frame]; CONNECT-UDP has none (session.rs 600-605). *)
Definition xd_close (k : xkind) (error : N) (message : list N) : option (option (list N)) :=
  match k with XWebTransport => obind (wt_encode error message) (fun b => Some (Some b)) | XConnectUdp => Some None end.
