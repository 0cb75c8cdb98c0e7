(** Receive streams: neqo-transport/src/recv_stream.rs, [RecvStream], with the connection
    window shared by all streams of a connection. *)
From Verif Require Import Base CodecModel FcModel RxModel.

(** recv_stream.rs:567-616 [RecvStreamState].  Flow control and buffer are kept beside the
    state; in states that have dropped them they are frozen, which gives [final_received] and
    [final_read] (the values [received()] and [retired()] had).  [keep_alive] is left out. *)
Inductive rstate :=
| StRecv | StSizeKnown
| StSizeKnownAt (err final reliable : N)
| StDataRecvd | StDataRead
| StAbort (reached needed : bool) (err : N)
| StWaitForReset | StResetRecvd.
Record rs := mkRs { rs_fc : rfc; rs_buf : rx; rs_st : rstate }.
(** recv_stream.rs:619-629, 713-726 [new]. *)
Definition rs_new (max : N) : rs := mkRs (rfc_new max) rx_new StRecv.

Inductive rerr := EFinalSize | EFlowControl | EProtocolViolation | EStreamState | EFrameEncoding | ENoMoreData.
Inductive revent := EvReadable | EvReset (err : N) | EvComplete.

Definition with_st (st : rstate) (s : rs) : rs := mkRs (rs_fc s) (rs_buf s) st.
Definition with_fc (fc : rfc) (s : rs) : rs := mkRs fc (rs_buf s) (rs_st s).
Definition with_buf (b : rx) (s : rs) : rs := mkRs (rs_fc s) b (rs_st s).

(** recv_stream.rs:1038-1047 [flow_control_retire_data]. *)
Definition retire_data (n : N) (sess fc : rfc) : option (rfc * rfc) :=
  if 0 <? n then
    match rfc_retire RStream n fc, rfc_retire RConn n sess with
    | Some fc', Some sess' => Some (sess', fc')
    | _, _ => None
    end
  else Some (sess, fc).

(** recv_stream.rs:667-686: the part of [flow_control_consume_data] after the match on the
    state; [reached]: the final size is known, [retire]: the data is not wanted. *)
Definition consume_with (reached retire : bool) (st' : rstate) (consumed : N) (fin : bool) (sess : rfc) (s : rs) : option ((rfc * rs) + rerr) :=
  let ok := match fin, reached with
            | true, true => consumed =? rf_consumed (rs_fc s)
            | false, true => consumed <=? rf_consumed (rs_fc s)
            | true, false => rf_consumed (rs_fc s) <=? consumed
            | false, false => true
            end in
  if negb ok then Some (inr EFinalSize)
  else
    match rfc_consume RStream consumed (rs_fc s) with
    | None => None
    | Some (_, None) => Some (inr EFlowControl)
    | Some (fc1, Some n) =>
        match rfc_consume RConn n sess with
        | None => None
        | Some (_, None) => Some (inr EFlowControl)
        | Some (sess1, Some _) =>
            if retire then
              match csub (rf_consumed fc1) (rf_retired fc1) with
              | None => None
              | Some d => match retire_data d sess1 fc1 with
                          | None => None
                          | Some (sess2, fc2) => Some (inl (sess2, mkRs fc2 (rs_buf s) st'))
                          end
              end
            else Some (inl (sess1, mkRs fc1 (rs_buf s) st'))
        end
    end.
(** recv_stream.rs:645-687 [flow_control_consume_data].  Outer [None]: a panic. *)
Definition rs_consume (consumed : N) (fin : bool) (sess : rfc) (s : rs) : option ((rfc * rs) + rerr) :=
  match rs_st s with
  | StRecv => consume_with false false StRecv consumed fin sess s
  | StWaitForReset => consume_with false true StWaitForReset consumed fin sess s
  | StSizeKnown => consume_with true false StSizeKnown consumed fin sess s
  | StSizeKnownAt err final reliable => consume_with true false (StSizeKnownAt err final reliable) consumed fin sess s
  | StDataRecvd => consume_with true false StDataRecvd consumed fin sess s
  | StAbort reached needed err => consume_with reached true (StAbort (reached || fin) needed err) consumed fin sess s
  | StDataRead | StResetRecvd => Some (inl (sess, s))
  end.

(** recv_stream.rs:631-642, 1093-1103 [recv_buf], [needs_to_inform_app_about_fin], [data_ready]. *)
Definition has_buf (s : rs) : bool :=
  match rs_st s with StRecv | StSizeKnown | StSizeKnownAt _ _ _ | StDataRecvd => true | _ => false end.
Definition rs_data_ready (s : rs) : bool := has_buf s && rx_ready (rs_buf s).
Definition inform_fin (s : rs) : bool := match rs_st s with StDataRecvd => true | _ => false end.

(** [fc.consumed() == recv_buf.retired() + recv_buf.bytes_ready()]. *)
Definition all_received (fc : rfc) (b : rx) : option bool :=
  match rx_bytes_ready b with
  | None => None
  | Some n => match chk (rx_retired b + n) with None => None | Some x => Some (rf_consumed fc =? x) end
  end.

(** recv_stream.rs:790-867 [inbound_stream_frame]. *)
Definition rs_frame (fin : bool) (off : N) (d : list N) (sess : rfc) (s : rs) : option ((rfc * rs * list revent) + rerr) :=
  let already := rs_data_ready s in
  let finish (sess' : rfc) (s' : rs) :=
    Some (inl (sess', s', if negb already && (rs_data_ready s' || inform_fin s') then [EvReadable] else [])) in
  match chk (off + lenN d) with
  | None => None
  | Some new_end =>
      match rs_consume new_end fin sess s with
      | None => None
      | Some (inr e) => Some (inr e)
      | Some (inl (sess1, s1)) =>
          match rs_st s1 with
          | StRecv =>
              match rx_inbound off d (rs_buf s1) with
              | None => None
              | Some (_, false) => Some (inr EProtocolViolation)
              | Some (b, true) =>
                  if fin then
                    match all_received (rs_fc s1) b with
                    | None => None
                    | Some all => finish sess1 (mkRs (rs_fc s1) b (if all then StDataRecvd else StSizeKnown))
                    end
                  else finish sess1 (with_buf b s1)
              end
          | StSizeKnown =>
              match rx_inbound off d (rs_buf s1) with
              | None => None
              | Some (_, false) => Some (inr EProtocolViolation)
              | Some (b, true) =>
                  match all_received (rs_fc s1) b with
                  | None => None
                  | Some all => finish sess1 (mkRs (rs_fc s1) b (if all then StDataRecvd else StSizeKnown))
                  end
              end
          | StSizeKnownAt err final reliable =>
              let keep := reliable - off in
              if 0 <? keep then
                match rx_inbound off (firstnN (N.min (lenN d) keep) d) (rs_buf s1) with
                | None => None
                | Some (_, false) => Some (inr EProtocolViolation)
                | Some (b, true) => finish sess1 (with_buf b s1)
                end
              else finish sess1 s1
          | _ => finish sess1 s1
          end
      end
  end.

(** recv_stream.rs:980-1004 [finish_reset].  The boolean is the value returned: the stream ended. *)
Definition finish_reset (final err : N) (sess : rfc) (s : rs) : option (rfc * rs * list revent * bool) :=
  match rs_st s with
  | StSizeKnownAt _ _ _ | StAbort _ _ _ | StWaitForReset =>
      match csub final (rf_retired (rs_fc s)) with
      | None => None
      | Some d =>
          match retire_data d sess (rs_fc s) with
          | None => None
          | Some (sess', fc') => Some (sess', mkRs fc' (rs_buf s) StResetRecvd, [EvReset err], true)
          end
      end
  | _ => Some (sess, with_st StResetRecvd s, [EvReset err], true)
  end.
(** recv_stream.rs:1009-1036 [complete_reliable_reset_if_drained]. *)
Definition complete_reset (sess : rfc) (s : rs) : option (rfc * rs * list revent * bool) :=
  match rs_st s with
  | StSizeKnownAt err final reliable =>
      if rx_retired (rs_buf s) <? reliable then Some (sess, s, [], false) else finish_reset final err sess s
  | _ => Some (sess, s, [], false)
  end.
(** recv_stream.rs:1057-1067 [retire_undeliverable]. *)
Definition retire_undeliverable (final reliable read : N) (sess fc : rfc) : option (rfc * rfc) :=
  let still_needed := reliable - read in
  match csub final still_needed with
  | None => None
  | Some target => retire_data (target - rf_retired fc) sess fc
  end.

(** recv_stream.rs:882-972 [reset]. *)
Definition rs_reset (err final reliable : N) (sess : rfc) (s : rs) : option ((rfc * rs * list revent * bool) + rerr) :=
  let inl' r := match r with None => None | Some x => Some (inl x) end in
  if final <? reliable then Some (inr EFrameEncoding)
  else
    match rs_consume final true sess s with
    | None => None
    | Some (inr e) => Some (inr e)
    | Some (inl (sess1, s1)) =>
        match rs_st s1 with
        | StRecv | StSizeKnown =>
            match rx_discard_after reliable (rs_buf s1) with
            | None => None
            | Some b =>
                match retire_undeliverable final reliable (rx_retired b) sess1 (rs_fc s1) with
                | None => None
                | Some (sess2, fc2) => inl' (complete_reset sess2 (mkRs fc2 b (StSizeKnownAt err final reliable)))
                end
            end
        | StSizeKnownAt err0 final0 stored =>
            if negb (err =? err0) then Some (inr EStreamState)
            else if reliable <? stored then
              match rx_discard_after reliable (rs_buf s1) with
              | None => None
              | Some b =>
                  match retire_undeliverable final0 reliable (rx_retired b) sess1 (rs_fc s1) with
                  | None => None
                  | Some (sess2, fc2) => inl' (complete_reset sess2 (mkRs fc2 b (StSizeKnownAt err0 final0 reliable)))
                  end
              end
            else Some (inl (sess1, s1, [], false))
        | StAbort _ _ _ | StWaitForReset => inl' (finish_reset final err sess1 s1)
        | _ => Some (inl (sess1, s1, [], false))
        end
    end.

(** recv_stream.rs:1107-1164 [read] into a buffer of [n] bytes. *)
Definition rs_read (n : N) (sess : rfc) (s : rs) : option ((rfc * rs * list N * bool * list revent) + rerr) :=
  match rs_st s with
  | StRecv | StSizeKnown | StDataRecvd =>
      match rx_read n (rs_buf s) with
      | None => None
      | Some (b, l) =>
          match retire_data (lenN l) sess (rs_fc s) with
          | None => None
          | Some (sess1, fc1) =>
              match rs_st s with
              | StDataRecvd =>
                  match rx_buffered b with
                  | None => None
                  | Some left_over =>
                      if left_over =? 0
                      then Some (inl (sess1, mkRs fc1 b StDataRead, l, true, [EvComplete]))
                      else Some (inl (sess1, mkRs fc1 b StDataRecvd, l, false, []))
                  end
              | st => Some (inl (sess1, mkRs fc1 b st, l, false, []))
              end
          end
      end
  | StSizeKnownAt err final reliable =>
      match rx_read n (rs_buf s) with
      | None => None
      | Some (b, l) =>
          match retire_data (lenN l) sess (rs_fc s) with
          | None => None
          | Some (sess1, fc1) =>
              match complete_reset sess1 (mkRs fc1 b (rs_st s)) with
              | None => None
              | Some (sess2, s2, ev, _) => Some (inl (sess2, s2, l, false, ev))
              end
          end
      end
  | _ => Some (inr ENoMoreData)
  end.

(** recv_stream.rs:1171-1233 [stop_sending]. *)
Definition rs_stop (err : N) (sess : rfc) (s : rs) : option (rfc * rs * list revent * bool) :=
  let drop (st' : rstate) (ev : list revent) (ended : bool) :=
    match csub (rf_consumed (rs_fc s)) (rf_retired (rs_fc s)) with
    | None => None
    | Some d => match retire_data d sess (rs_fc s) with
                | None => None
                | Some (sess', fc') => Some (sess', mkRs fc' (rs_buf s) st', ev, ended)
                end
    end in
  match rs_st s with
  | StRecv => drop (StAbort false true err) [] false
  | StSizeKnown => drop (StAbort true true err) [] false
  | StDataRecvd => drop StDataRead [EvComplete] true
  | StSizeKnownAt err0 final _ => finish_reset final err0 sess s
  | _ => Some (sess, s, [], false)
  end.

(** recv_stream.rs:1284-1320 [stop_sending_acked]. *)
Definition rs_stop_acked (s : rs) : rs * bool :=
  match rs_st s with
  | StAbort true _ _ => (with_st StResetRecvd s, true)
  | StAbort false _ _ => (with_st StWaitForReset s, false)
  | _ => (s, false)
  end.
(** recv_stream.rs:1275-1279 [stop_sending_lost]. *)
Definition rs_stop_lost (s : rs) : rs :=
  match rs_st s with StAbort r _ err => with_st (StAbort r true err) s | _ => s end.

Inductive rsop :=
| QFrame (fin : bool) (off : N) (d : list N)
| QReset (err final reliable : N)
| QRead (n : N)
| QStop (err : N) | QStopAcked | QStopLost
| QWrite (now rtt : N) (fits : bool) | QBlocked | QSetMax (m : N) | QMaxLost (v : N).
Inductive rsout :=
| QErr (e : rerr)
| QDone (ev : list revent) (ended : bool)
| QBytes (l : list N) (fin : bool) (ev : list revent)
| QMaxStreamData (v : N) | QStopSending (err : N) | QNothing.

(** The window operations act in [Recv] only: recv_stream.rs:1070-1083 [send_flowc_update],
    [set_stream_max_data], 1236-1265 [write_frame], 1267-1273 [max_stream_data_lost]. *)
Definition rs_step (sess : rfc) (s : rs) (o : rsop) : option (rfc * rs * rsout) :=
  match o with
  | QFrame fin off d =>
      match rs_frame fin off d sess s with
      | None => None
      | Some (inr e) => Some (sess, s, QErr e)
      | Some (inl (sess', s', ev)) => Some (sess', s', QDone ev false)
      end
  | QReset err final reliable =>
      match rs_reset err final reliable sess s with
      | None => None
      | Some (inr e) => Some (sess, s, QErr e)
      | Some (inl (sess', s', ev, ended)) => Some (sess', s', QDone ev ended)
      end
  | QRead n =>
      match rs_read n sess s with
      | None => None
      | Some (inr e) => Some (sess, s, QErr e)
      | Some (inl (sess', s', l, fin, ev)) => Some (sess', s', QBytes l fin ev)
      end
  | QStop err =>
      match rs_stop err sess s with
      | None => None
      | Some (sess', s', ev, ended) => Some (sess', s', QDone ev ended)
      end
  | QStopAcked => let '(s', ended) := rs_stop_acked s in Some (sess, s', QDone [] ended)
  | QStopLost => Some (sess, rs_stop_lost s, QNothing)
  | QWrite now rtt fits =>
      match rs_st s with
      | StRecv =>
          match rfc_write RStream now rtt fits (rs_fc s) with
          | None => None
          | Some (fc', Some v) => Some (sess, with_fc fc' s, QMaxStreamData v)
          | Some (fc', None) => Some (sess, with_fc fc' s, QNothing)
          end
      | StAbort r true err =>
          if fits then Some (sess, with_st (StAbort r false err) s, QStopSending err) else Some (sess, s, QNothing)
      | _ => Some (sess, s, QNothing)
      end
  | QBlocked =>
      match rs_st s with
      | StRecv => match rfc_flowc_update (rs_fc s) with Some fc' => Some (sess, with_fc fc' s, QNothing) | None => None end
      | _ => Some (sess, s, QNothing)
      end
  | QSetMax m => match rs_st s with StRecv => Some (sess, with_fc (rfc_set_max m (rs_fc s)) s, QNothing) | _ => Some (sess, s, QNothing) end
  | QMaxLost v => match rs_st s with StRecv => Some (sess, with_fc (rfc_lost v (rs_fc s)) s, QNothing) | _ => Some (sess, s, QNothing) end
  end.

(** All receive streams of a connection share one window: streams.rs [Streams::recv],
    [receiver_fc].  A stream is named by its position here.  Any error but [NoMoreData] closes
    the connection (connection/mod.rs:1818-1850), after which nothing is processed. *)
Record rconn := mkC { c_sess : rfc; c_streams : list rs; c_closed : bool }.
Definition rconn_new (max_data : N) : rconn := mkC (rfc_new max_data) [] false.
Inductive cop := CNew (max : N) | COn (i : nat) (o : rsop) | CWrite (now rtt : N) (fits : bool) | CBlocked | CLost (v : N).
Inductive cout := CStream (o : rsout) | CMaxData (v : N) | CNone | CIgnored.

Fixpoint set_nth {A} (i : nat) (x : A) (l : list A) : list A :=
  match l, i with
  | [], _ => []
  | _ :: r, O => x :: r
  | a :: r, S i' => a :: set_nth i' x r
  end.

Definition fatal (o : rsout) : bool := match o with QErr ENoMoreData => false | QErr _ => true | _ => false end.
Definition cstep (c : rconn) (o : cop) : option (rconn * cout) :=
  if c_closed c then Some (c, CIgnored)
  else
    match o with
    | CNew max => Some (mkC (c_sess c) (c_streams c ++ [rs_new max]) false, CNone)
    | COn i op =>
        match nth_error (c_streams c) i with
        | None => Some (c, CIgnored)
        | Some s =>
            match rs_step (c_sess c) s op with
            | None => None
            | Some (sess', s', out) => Some (mkC sess' (set_nth i s' (c_streams c)) (fatal out), CStream out)
            end
        end
    | CWrite now rtt fits =>
        match rfc_write RConn now rtt fits (c_sess c) with
        | None => None
        | Some (f, Some v) => Some (mkC f (c_streams c) false, CMaxData v)
        | Some (f, None) => Some (mkC f (c_streams c) false, CNone)
        end
    | CBlocked => match rfc_flowc_update (c_sess c) with None => None | Some f => Some (mkC f (c_streams c) false, CNone) end
    | CLost v => Some (mkC (rfc_lost v (c_sess c)) (c_streams c) false, CNone)
    end.
Fixpoint cruns (c : rconn) (ops : list cop) : option (rconn * list (cop * cout)) :=
  match ops with
  | [] => Some (c, [])
  | o :: r =>
      match cstep c o with
      | None => None
      | Some (c', out) => match cruns c' r with None => None | Some (c'', h) => Some (c'', (o, out) :: h) end
      end
  end.
