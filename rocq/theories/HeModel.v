(** The event queue of an HTTP/3 client connection: what is told to the application, and in which order
    (/repo/neqo-http3/src/client_events.rs). *)
From Coq Require Import NArith List Bool.
Import ListNotations.
Open Scope N_scope.

(** connection.rs 92-105 [Http3State]; an error is a number. *)
Inductive hstate := SInit | SZeroRtt | SConn | SGoing (id : N) | SClosing (e : N) | SClosed (e : N).
(** lib.rs 667-673 [CloseType]. *)
Inductive hclose := ResetApp (e : N) | ResetRemote (e : N) | LocalError (e : N) | DoneWith.
(** features/extended_connect/mod.rs [ExtendedConnectType]. *)
Inductive hext := Wt | Udp.
(** client_events.rs 22-134 [WebTransportEvent], [ConnectUdpEvent] and [Http3ClientEvent]. Headers, names, tokens and reasons are opaque: numbers.
    The two kinds of session events are one constructor with the kind as its argument. *)
Inductive hevent :=
  | EHeader (id h : N) (interim fin : bool) | EWritable (id : N) | EReadable (id : N) | EReset (id e : N) (local : bool) | EStop (id e : N)
  | EPromise (pid id h : N) | EPushHeader (pid h : N) (interim fin : bool) | EPushReadable (pid : N) | ECanceled (pid : N) | EPushReset (pid e : N)
  | ECreatable | EAuth | EEch (n : N) | EToken (t : N) | ERejected | EGoaway | EState (s : hstate)
  | ENegotiated (k : hext) (b : bool) | ESession (k : hext) (id status h : N) | ESessionEnd (k : hext) (id reason : N) (h : option N)
  | EDraining (id : N) | EStream (id session : N) | EDatagram (k : hext) (session : N) (d : list N).
(** client_events.rs 136-139 [Http3ClientEvents]: a queue, oldest first. *)
Definition hqueue := list hevent.

(** client_events.rs 365-367 [insert]. *)
Definition h_insert (e : hevent) (q : hqueue) : hqueue := q ++ [e].
(** client_events.rs 369-374 [remove]. *)
Definition h_remove (f : hevent -> bool) (q : hqueue) : hqueue := filter (fun e => negb (f e)) q.
(** client_events.rs 401-417 [remove_recv_stream_events]. *)
Definition remove_recv (id : N) (keep : bool) (q : hqueue) : hqueue :=
  h_remove (fun e => match e with
    | EHeader x _ _ _ => if x =? id then negb keep else false
    | EPromise _ x _ => if x =? id then negb keep else false
    | EReadable x => x =? id
    | EReset x _ _ => x =? id
    | _ => false end) q.
(** client_events.rs 419-425 [remove_send_stream_events]. *)
Definition remove_send (id : N) (q : hqueue) : hqueue :=
  h_remove (fun e => match e with EWritable x => x =? id | EStop x _ => x =? id | _ => false end) q.
(** client_events.rs 427-434 [has_push]. *)
Definition has_push (pid : N) (q : hqueue) : bool := existsb (fun e => match e with EPromise x _ _ => x =? pid | _ => false end) q.
(** client_events.rs 436-444 [remove_events_for_push_id]. *)
Definition remove_push (pid : N) (q : hqueue) : hqueue :=
  h_remove (fun e => match e with EPromise x _ _ => x =? pid | EPushHeader x _ _ _ => x =? pid | EPushReadable x => x =? pid | ECanceled x => x =? pid | _ => false end) q.
(** client_events.rs 150-176 [recv_closed]. *)
Definition recv_closed (id : N) (ct : hclose) (q : hqueue) : hqueue :=
  match ct with
  | ResetApp _ => remove_recv id false q
  | DoneWith => q
  | ResetRemote e => h_insert (EReset id e false) (remove_recv id true q)
  | LocalError e => h_insert (EReset id e true) (remove_recv id false q)
  end.
(** client_events.rs 205-211 [send_closed]. *)
Definition send_closed (id : N) (ct : hclose) (q : hqueue) : hqueue :=
  let q := remove_send id q in match ct with ResetRemote e => h_insert (EStop id e) q | _ => q end.
(** client_events.rs 262-281 [extended_connect_new_stream]; a stream of no session is an internal error and nothing is said. *)
Definition new_stream (id : N) (session : option N) (emit : bool) (q : hqueue) : hqueue :=
  match session with
  | None => q
  | Some s => let q := h_insert (EStream id s) q in if emit then h_insert (EReadable id) q else q
  end.
(** client_events.rs 320-328 [push_canceled], [push_reset]. *)
Definition push_canceled (pid : N) (q : hqueue) : hqueue := h_insert (ECanceled pid) (remove_push pid q).
Definition push_reset (pid e : N) (q : hqueue) : hqueue := h_insert (EPushReset pid e) (remove_push pid q).
(** client_events.rs 331-335 [new_requests_creatable]; the argument says whether the streams go both ways. *)
Definition creatable (bidi : bool) (q : hqueue) : hqueue := if bidi then h_insert ECreatable q else q.
(** client_events.rs 358-363 [goaway_received]. *)
Definition goaway (q : hqueue) : hqueue := h_insert EGoaway (h_remove (fun e => match e with ECreatable => true | _ => false end) q).
(** client_events.rs 376-390 [connection_state_change]. *)
Definition state_change (s : hstate) (q : hqueue) : hqueue :=
  let q := match s with
    | SClosing _ | SClosed _ => []
    | SConn => h_remove (fun e => match e with EState SZeroRtt => true | _ => false end) q
    | _ => q end in
  h_insert (EState s) q.

(** The calls, and the application's poll. [KPushHeader], [KPushReadable] are push_controller.rs's uses of [insert], [KDraining] that of
    connection_client.rs 1128-1141, [KForget] a bare [remove_events_for_push_id]. *)
Inductive hop :=
  | KHeader (id h : N) (interim fin : bool) | KReadable (id : N) | KRecvClosed (id : N) (ct : hclose) | KWritable (id : N) | KSendClosed (id : N) (ct : hclose)
  | KStart (k : hext) (id status h : N) | KEnd (k : hext) (id reason : N) (h : option N) | KStream (id : N) (session : option N) (emit : bool)
  | KDatagram (k : hext) (session : N) (d : list N) | KPromise (pid id h : N) | KPushHeader (pid h : N) (interim fin : bool) | KPushReadable (pid : N)
  | KCanceled (pid : N) | KPushReset (pid e : N) | KForget (pid : N) | KCreatable (bidi : bool) | KAuth | KEch (n : N) | KToken (t : N) | KRejected
  | KGoaway | KState (s : hstate) | KNegotiated (k : hext) (b : bool) | KDraining (id : N) | KPoll.

(** client_events.rs 142-468: one call; the result is what a poll returns (467-469 [next_event]). *)
Definition h_step (q : hqueue) (o : hop) : option hevent * hqueue :=
  match o with
  | KHeader id h i f => (None, h_insert (EHeader id h i f) q)
  | KReadable id => (None, h_insert (EReadable id) q)
  | KRecvClosed id ct => (None, recv_closed id ct q)
  | KWritable id => (None, h_insert (EWritable id) q)
  | KSendClosed id ct => (None, send_closed id ct q)
  | KStart k id s h => (None, h_insert (ESession k id s h) q)
  | KEnd k id r h => (None, h_insert (ESessionEnd k id r h) q)
  | KStream id s e => (None, new_stream id s e q)
  | KDatagram k s d => (None, h_insert (EDatagram k s d) q)
  | KPromise pid id h => (None, h_insert (EPromise pid id h) q)
  | KPushHeader pid h i f => (None, h_insert (EPushHeader pid h i f) q)
  | KPushReadable pid => (None, h_insert (EPushReadable pid) q)
  | KCanceled pid => (None, push_canceled pid q)
  | KPushReset pid e => (None, push_reset pid e q)
  | KForget pid => (None, remove_push pid q)
  | KCreatable b => (None, creatable b q)
  | KAuth => (None, h_insert EAuth q)
  | KEch n => (None, h_insert (EEch n) q)
  | KToken t => (None, h_insert (EToken t) q)
  | KRejected => (None, h_insert ERejected q)
  | KGoaway => (None, goaway q)
  | KState s => (None, state_change s q)
  | KNegotiated k b => (None, h_insert (ENegotiated k b) q)
  | KDraining id => (None, h_insert (EDraining id) q)
  | KPoll => match q with [] => (None, []) | e :: q' => (Some e, q') end
  end.
(** A history: the calls and what each returned. *)
Fixpoint h_run (q : hqueue) (ops : list hop) : list (hop * option hevent) * hqueue :=
  match ops with
  | [] => ([], q)
  | o :: ops => let (x, q) := h_step q o in let (t, q) := h_run q ops in ((o, x) :: t, q)
  end.
