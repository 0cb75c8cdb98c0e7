(** WebTransport and CONNECT-UDP sessions: neqo-http3/src/features/extended_connect/session.rs,
    webtransport_session.rs, connect_udp_session.rs, webtransport_streams.rs and the parts of connection.rs that keep them. *)
From Coq Require Import NArith List Bool.
From Verif Require Import Base Reader.
Import ListNotations.
Open Scope N_scope.

(** mod.rs 60-66 [ExtendedConnectType]; session.rs 66-78 [State], [closing_state]; 31-36 [CloseReason]. *)
Inductive xkind := XWebTransport | XConnectUdp.
Inductive xphase := PNegotiating | PActive | PFinPending | PDone.
Definition x_closing (p : xphase) : bool := match p with PFinPending | PDone => true | _ => false end.
Definition x_is_active (p : xphase) : bool := match p with PActive => true | _ => false end.
Definition x_is_done (p : xphase) : bool := match p with PDone => true | _ => false end.
Inductive xreason := RError (code : N) | RStatus (status : N) | RClean (error : N) (message : list N).
(** What the application sees: mod.rs 28-57 [ExtendedConnectEvents] and, for the streams of the session,
    [recv_closed] and [send_closed] (webtransport_streams.rs 65-71, 177-181). *)
Inductive xevent :=
| XStart (status : N) | XEnd (r : xreason) | XNewStream (id : N) (readable : bool) | XDatagram (payload : list N)
| XRecvClosed (id : N) | XSendClosed (id : N).
(** What the reader of the CONNECT stream's body finds next: a CLOSE_SESSION frame, a DATAGRAM capsule, a frame of
    another type (which the reader skips), or bytes it rejects.  The reader itself is modelled in HfModel. *)
Inductive xitem := IClose (error : N) (message : list N) | IDatagram (payload : list N) | IOther | IBad.
(** The response headers as [HeaderListener] holds them (mod.rs 156-207): interim headers only if the stream ended with
    them; [h_status] is None if no :status can be parsed. *)
Record xheaders := mkXH { h_interim : bool; h_fin : bool; h_status : option N }.

(** session.rs 46-64 and webtransport_session.rs 28-44 [Session].  The CONNECT stream is the items received and not
    read ([x_items]), whether its end has been received ([x_fin]) and reported ([x_over]), and whether the
    application has closed its sending side ([x_closed]).  Statistics and the negotiated protocol name are left out. *)
Record xsess := mkXS { x_phase : xphase; x_items : list xitem; x_fin : bool; x_over : bool; x_closed : bool;
  x_send : list N; x_recv : list N; x_pending : list N; x_groups : list N; x_draining : bool }.
(** The connection's tables (connection.rs 341-346), as far as this session goes: the session is in both or in neither
    (connection.rs 1886-1922); [k_recv] and [k_send] are the handlers of its streams. *)
Record xconn := mkXC { k_kind : xkind; k_server : bool; k_sess : option xsess; k_recv : list N; k_send : list N }.

Definition xmem (x : N) (l : list N) : bool := existsb (N.eqb x) l.
(** [HashSet::insert] and [remove]. *)
Definition xadd (x : N) (l : list N) : list N := if xmem x l then l else l ++ [x].
Definition xdel (x : N) (l : list N) : list N := filter (fun y => negb (y =? x)) l.
(** neqo-transport/src/stream_id.rs 34-75: bit 1 is the direction, bit 0 the initiator. *)
Definition id_bidi (id : N) : bool := negb (N.testbit id 1).
Definition id_mine (server : bool) (id : N) : bool := Bool.eqb (N.testbit id 0) server.

Definition x_set (s : xsess) (p : xphase) : xsess :=
  mkXS p (x_items s) (x_fin s) (x_over s) (x_closed s) (x_send s) (x_recv s) (x_pending s) (x_groups s) (x_draining s).
Definition x_src (s : xsess) (its : list xitem) (fin over : bool) : xsess :=
  mkXS (x_phase s) its fin over (x_closed s) (x_send s) (x_recv s) (x_pending s) (x_groups s) (x_draining s).
Definition x_sets (s : xsess) (snd rcv pend : list N) : xsess :=
  mkXS (x_phase s) (x_items s) (x_fin s) (x_over s) (x_closed s) snd rcv pend (x_groups s) (x_draining s).

(** webtransport_session.rs 88-106 [session_start]; CONNECT-UDP has no streams. *)
Definition x_announce (s : xsess) : xsess * list xevent :=
  (x_sets s (x_send s) (x_recv s) [], map (fun id => XNewStream id true) (x_pending s)).
(** session.rs 248-322 [maybe_check_headers]; the last component is an internal error. *)
Definition x_headers (s : xsess) (h : option xheaders) : xsess * list xevent * bool :=
  match x_phase s with
  | PNegotiating =>
      match h with
      | None => (s, [], false)
      | Some h =>
          if h_interim h then if h_fin h then (x_set s PDone, [XEnd (RClean 0 [])], false) else (s, [], false)
          else match h_status h with
               | None => (s, [], true)
               | Some st =>
                   if (200 <=? st) && (st <? 300) then
                     if h_fin h then (x_set s PDone, [XEnd (RClean 0 [])], false)
                     else let '(s', ev) := x_announce s in (x_set s' PActive, XStart st :: ev, false)
                   else (x_set s PDone, [XEnd (RStatus st)], false)
               end
      end
  | _ => (s, [], false)
  end.
(** One call of the frame reader on the body: frames/reader.rs 185-224 over recv_message.rs 412-455.  Skips what it does
    not know; the end is reported with the last item or alone, once, and after it there is nothing. *)
Inductive xread := DFrame (i : xitem) (fin : bool) (s : xsess) | DNothing (fin : bool) (s : xsess) | DError (s : xsess).
Definition x_none (l : list xitem) : bool := match l with [] => true | _ => false end.
Fixpoint x_read (k : xkind) (s : xsess) (its : list xitem) : xread :=
  match its with
  | [] => let f := x_fin s && negb (x_over s) in DNothing f (x_src s [] (x_fin s) (x_over s || f))
  | i :: r =>
      let f := x_fin s && x_none r in
      match i, k with
      | IBad, _ => DError (x_src s r (x_fin s) (x_over s))
      | IClose _ _, XWebTransport | IDatagram _, XConnectUdp => DFrame i f (x_src s r (x_fin s) (x_over s || f))
      | _, _ => if f then DNothing true (x_src s [] true true) else x_read k s r
      end
  end.
(** webtransport_session.rs 118-159 [read_control_stream]: one frame for each call. *)
Definition x_read_wt (s : xsess) : option xsess * list xevent :=
  match x_read XWebTransport s (x_items s) with
  | DError _ => (None, [])
  | DFrame (IClose e m) fin s' => (Some (x_set s' (if fin then PDone else PFinPending)), [XEnd (RClean e m)])
  | DFrame _ fin s' | DNothing fin s' => if fin then (Some (x_set s' PDone), [XEnd (RClean 0 [])]) else (Some s', [])
  end.
(** connect_udp_session.rs 104-119 [dgram_context_id], with the varint as codec.rs 135-144 reads it: a payload whose
    context identifier is 0, without it. *)
Definition x_context (d : list N) : option (list N) :=
  match Reader.rd_varint d with Some (c, r) => if c =? 0 then Some r else None | None => None end.
Definition x_deliver (d : list N) : list xevent := match x_context d with Some p => [XDatagram p] | None => [] end.
(** connect_udp_session.rs 51-98 [read_control_stream]: until there is nothing left; [fuel] is the number of items. *)
Fixpoint x_read_udp (fuel : nat) (s : xsess) : option xsess * list xevent :=
  match fuel with
  | O => (Some s, [])
  | S fuel' =>
      match x_read XConnectUdp s (x_items s) with
      | DError _ => (None, [])
      | DFrame (IDatagram d) fin s' =>
          if fin then (Some (x_set s' PDone), x_deliver d ++ [XEnd (RClean 0 [])])
          else let '(o, ev) := x_read_udp fuel' s' in (o, x_deliver d ++ ev)
      | DFrame _ fin s' => if fin then (Some (x_set s' PDone), [XEnd (RClean 0 [])]) else x_read_udp fuel' s'
      | DNothing fin s' => if fin then (Some (x_set s' PDone), [XEnd (RClean 0 [])]) else (Some s', [])
      end
  end.
Definition x_read_control (k : xkind) (s : xsess) : option xsess * list xevent :=
  match k with XWebTransport => x_read_wt s | XConnectUdp => x_read_udp (S (length (x_items s))) s end.
(** lib.rs 666-689 [CloseType] and session.rs 232-246 [close]: only [ResetApp] is the application's own doing. *)
Inductive xclose := CResetApp (code : N) | CResetRemote (code : N) | CLocalError (code : N).
Definition x_close (s : xsess) (c : xclose) : list xevent :=
  if x_closing (x_phase s) then []
  else match c with CResetApp _ => [] | CResetRemote e | CLocalError e => [XEnd (RError e)] end.

(** webtransport_session.rs 161-211 [add_stream]. *)
Definition x_add_stream (server : bool) (s : xsess) (id : N) : xsess * list xevent :=
  if x_closing (x_phase s) then (s, [])
  else
    let snd := if id_bidi id || id_mine server id then xadd id (x_send s) else x_send s in
    let rcv := if id_bidi id || negb (id_mine server id) then xadd id (x_recv s) else x_recv s in
    match x_phase s with
    | PNegotiating => (x_sets s snd rcv (xadd id (x_pending s)), [])
    | _ => (x_sets s snd rcv (x_pending s), if id_mine server id then [] else [XNewStream id false])
    end.

(** connection.rs 1853-1888 [remove_extended_connect]: each stream registered with the session and still in the table
    is reported closed (webtransport_streams.rs 65-71, 177-181); the order in which the sets are walked is not modelled. *)
Definition x_cancel (c : xconn) (s : xsess) : xconn * list xevent :=
  (mkXC (k_kind c) (k_server c) None (filter (fun i => negb (xmem i (x_recv s))) (k_recv c)) (filter (fun i => negb (xmem i (x_send s))) (k_send c)),
   map XRecvClosed (filter (fun i => xmem i (k_recv c)) (x_recv s)) ++ map XSendClosed (filter (fun i => xmem i (k_send c)) (x_send s))).
Definition k_put (c : xconn) (s : xsess) : xconn := mkXC (k_kind c) (k_server c) (Some s) (k_recv c) (k_send c).

(** What happens to a session, from the network and from the application. *)
Inductive xop :=
| OReceive (h : option xheaders) (its : list xitem) (fin : bool) (* the CONNECT stream becomes readable, or is unblocked *)
| OReset (code : N) | OStopSending (code : N)                   (* by the peer, on the CONNECT stream *)
| OCancel (code : N)                                            (* cancel_fetch by the application *)
| OClose (error : N) (message : list N) (ok done : bool)        (* session close by the application; what the sending side answers *)
| OSent (done : bool)                                           (* the sending side is served *)
| ODatagramIn (d : list N)                                      (* a QUIC datagram for this session, after the session identifier *)
| OSendDatagram
| ORemote (id : N)                                              (* a stream of this session opened by the peer *)
| OLocal (id : N)                                               (* the application opens a stream; the transport names it *)
| ORecvGone (id : N) | OSendGone (id : N)                       (* a stream of this session ends by itself *)
| ODrain                                                        (* GOAWAY arrives *)
| OGroup (id : N) | OUseGroup (id : N).                         (* register a send group, ask whether it is registered *)
(** What the caller is told. *)
Inductive xout := ANone | AOk | AInvalidStream | AInvalid | AFatal | AFlag (b : bool).

(** errors.rs: H3_GENERAL_PROTOCOL_ERROR (lib.rs 275-330 [code]). *)
Definition GENERAL_PROTOCOL_ERROR := 0x101.

(** connection.rs 1841-1851 [close_recv], 1835-1839 [close_send]: the streams go first, then the session is told. *)
Definition x_drop (c : xconn) (s : xsess) (t : xclose) : xconn * list xevent :=
  let '(c', ev) := x_cancel c s in (c', ev ++ x_close s t).

(** session.rs 179-202 [receive], [header_unblocked] with connection.rs 811-834 [handle_stream_manipulation_output].  A body
    is there only once the final headers are; an end before them is an error (recv_message.rs 216-243).  Nothing comes
    after the end, and no headers after the final ones (trailers are skipped, recv_message.rs 119-139). *)
Definition x_receive (c : xconn) (s : xsess) (h : option xheaders) (its : list xitem) (fin : bool) : xconn * list xevent * xout :=
  let hf := match x_phase s, h with PNegotiating, Some h => h_fin h | _, _ => false end in
  let body := match x_phase s, h with PNegotiating, None => false | PNegotiating, Some h => negb (h_interim h) | _, _ => true end in
  let s0 := if x_fin s then s else x_src s (if hf || negb body then x_items s else x_items s ++ its) (fin || hf) hf in
  let '(s1, ev1, fatal) := x_headers s0 (if x_fin s then None else h) in
  if negb body && fin && negb hf then let '(c', ev) := x_drop c s (CLocalError GENERAL_PROTOCOL_ERROR) in (c', ev, ANone)
  else if fatal then (k_put c s1, ev1, AFatal)
  else match x_read_control (k_kind c) s1 with
       | (None, ev2) => let '(c', ev3) := x_drop c s1 (CLocalError GENERAL_PROTOCOL_ERROR) in (c', ev1 ++ ev2 ++ ev3, ANone)
       | (Some s2, ev2) =>
           if x_is_done (x_phase s2) then let '(c', ev3) := x_cancel c s2 in (c', ev1 ++ ev2 ++ ev3, ANone)
           else (k_put c s2, ev1 ++ ev2, ANone)
       end.
(** session.rs 366-388 [close_session] with connection.rs 1457-1487 [extended_connect_close_session]; [ok] is whether the
    close frame and the end of the stream were accepted below, [done] whether they are all sent. *)
Definition x_close_session (c : xconn) (s : xsess) (ok done : bool) : xconn * list xevent * xout :=
  let s' := mkXS (if ok && negb done then PFinPending else PDone) (x_items s) (x_fin s) (x_over s) true (x_send s) (x_recv s) (x_pending s) (x_groups s) (x_draining s) in
  if negb ok then (k_put c s', [], AInvalid)
  else if done then let '(c', ev) := x_cancel c s' in (c', ev, AOk)
  else (k_put c s', [], AOk).

Definition x_step (c : xconn) (o : xop) : xconn * list xevent * xout :=
  match k_sess c with
  | None =>
      match o with
      (* connection.rs 1489-1510: the session is looked up in [recv_streams] *)
      | OClose _ _ _ _ | OSendDatagram | OLocal _ | OCancel _ | OGroup _ | OUseGroup _ => (c, [], AInvalidStream)
      (* connection.rs 751-760: refused with STOP_SENDING *)
      | ORemote _ => (c, [], AFlag false)
      | ORecvGone id => (mkXC (k_kind c) (k_server c) None (xdel id (k_recv c)) (k_send c), [], ANone)
      | OSendGone id => (mkXC (k_kind c) (k_server c) None (k_recv c) (xdel id (k_send c)), [], ANone)
      | _ => (c, [], ANone)
      end
  | Some s =>
      match o with
      | OReceive h its fin => x_receive c s h its fin
      | OReset e => let '(c', ev) := x_drop c s (CResetRemote e) in (c', ev, ANone)
      | OStopSending e => let '(c', ev) := x_drop c s (CResetRemote e) in (c', ev, ANone)
      | OCancel e => let '(c', ev) := x_drop c s (CResetApp e) in (c', ev, AOk)
      | OClose _ _ ok done => x_close_session c s ok done
      (* session.rs 224-230 [send], connection.rs 407-428: the sending side is done only once it has been closed *)
      | OSent done => if (x_closed s && done) || x_is_done (x_phase s) then let '(c', ev) := x_cancel c s in (c', ev, ANone) else (c, [], ANone)
      (* session.rs 433-449 [datagram]; webtransport_session.rs 262-265 *)
      | ODatagramIn d =>
          if x_is_active (x_phase s) then (c, match k_kind c with XWebTransport => [XDatagram d] | XConnectUdp => x_deliver d end, ANone)
          else (c, [], ANone)
      (* connection.rs 1500-1510 [validate_extended_connect_session], 1654-1665 *)
      | OSendDatagram => (c, [], if x_is_active (x_phase s) then AOk else AInvalidStream)
      (* connection.rs 751-767, 1572-1652 *)
      | ORemote id =>
          match k_kind c with
          | XConnectUdp => (c, [], AFatal)
          | XWebTransport =>
              let '(s', ev) := x_add_stream (k_server c) s id in
              (mkXC (k_kind c) (k_server c) (Some s') (xadd id (k_recv c)) (if id_bidi id then xadd id (k_send c) else k_send c), ev, AFlag true)
          end
      (* connection.rs 1530-1570: checked before the stream is created *)
      | OLocal id =>
          if negb (x_is_active (x_phase s)) then (c, [], AInvalidStream)
          else match k_kind c with
               | XConnectUdp => (c, [], AInvalidStream)
               | XWebTransport =>
                   let '(s', ev) := x_add_stream (k_server c) s id in
                   (mkXC (k_kind c) (k_server c) (Some s') (if id_bidi id then xadd id (k_recv c) else k_recv c) (xadd id (k_send c)), ev, AOk)
               end
      (* webtransport_streams.rs 65-87, 177-181; webtransport_session.rs 213-219 *)
      | ORecvGone id => (mkXC (k_kind c) (k_server c) (Some (x_sets s (x_send s) (xdel id (x_recv s)) (x_pending s))) (xdel id (k_recv c)) (k_send c), [], ANone)
      | OSendGone id => (mkXC (k_kind c) (k_server c) (Some (x_sets s (xdel id (x_send s)) (x_recv s) (x_pending s))) (k_recv c) (xdel id (k_send c)), [], ANone)
      (* session.rs 162-166 [set_draining]; connection.rs 1366-1373 asks WebTransport sessions only *)
      | ODrain =>
          match k_kind c with
          | XConnectUdp => (c, [], ANone)
          | XWebTransport =>
              (k_put c (mkXS (x_phase s) (x_items s) (x_fin s) (x_over s) (x_closed s) (x_send s) (x_recv s) (x_pending s) (x_groups s) true), [], AFlag (negb (x_draining s)))
          end
      (* webtransport_session.rs 70-80; session.rs 639-645 for the other protocol *)
      | OGroup g =>
          match k_kind c with
          | XConnectUdp => (c, [], AInvalidStream)
          | XWebTransport =>
              if xmem g (x_groups s) then (c, [], AInvalid)
              else (k_put c (mkXS (x_phase s) (x_items s) (x_fin s) (x_over s) (x_closed s) (x_send s) (x_recv s) (x_pending s) (x_groups s ++ [g]) (x_draining s)), [], AOk)
          end
      | OUseGroup g => (c, [], AFlag (match k_kind c with XWebTransport => xmem g (x_groups s) | XConnectUdp => false end))
      end
  end.
(** session.rs 88-125 [new]: a client's request; 127-155 [new_with_http_streams]: a server that accepted. *)
Definition x_client (k : xkind) : xconn := mkXC k false (Some (mkXS PNegotiating [] false false false [] [] [] [] false)) [] [].
Definition x_server (k : xkind) : xconn := mkXC k true (Some (mkXS PActive [] false false false [] [] [] [] false)) [] [].
Definition x_init (server : bool) (k : xkind) : xconn := if server then x_server k else x_client k.
(** A history: what was asked, the events it raised and what the caller was told. *)
Record xlog := mkXL { l_op : xop; l_events : list xevent; l_out : xout }.
Fixpoint x_run (c : xconn) (os : list xop) : xconn * list xlog :=
  match os with
  | [] => (c, [])
  | o :: os' => let '(c', ev, a) := x_step c o in let '(c'', log) := x_run c' os' in (c'', mkXL o ev a :: log)
  end.
