(** The rules an HTTP/3 connection enforces on its control and QPACK streams, on SETTINGS and on GOAWAY:
    neqo-http3/src/connection.rs, connection_client.rs, connection_server.rs, control_stream_remote.rs. *)
From Coq Require Import NArith List Bool.
From Verif Require Import Base HfModel.
Import ListNotations.
Open Scope N_scope.

(** lib.rs [Error], the kinds raised here.  [CReader] stands for any error of the frame reader (modelled in HfModel). *)
Inductive cerr := CMissingSettings | CFrameUnexpected | CSettings | CQpackDecoder | CQpackEncoder | CId | CGoaway | CClosedCritical | CStreamCreation | CReader.
(** lib.rs [Error], the kinds an application call returns. *)
Inductive aerr := AInvalidStreamId | AAlreadyClosed | AUnavailable.

(** neqo-common/src/lib.rs [Role]; stream_id.rs 35-70: bit 0 is set on server-initiated streams, bit 1 on unidirectional ones. *)
Inductive role := Client | Server.
Definition is_uni (id : N) : bool := N.testbit id 1.
Definition is_server (id : N) : bool := N.testbit id 0.

(** lib.rs [Http3StreamType] and the stream head reader ([SNew]); [SWt s] is a WebTransport stream of session [s]. *)
Inductive skind := SNew | SControl | SEncoder | SDecoder | SHttp | SPush | SSession | SWt (s : N).
Definition critical (k : skind) : bool := match k with SControl | SEncoder | SDecoder => true | _ => false end.
Definition skind_eqb (a b : skind) : bool :=
  match a, b with
  | SNew, SNew | SControl, SControl | SEncoder, SEncoder | SDecoder, SDecoder | SHttp, SHttp | SPush, SPush | SSession, SSession => true
  | SWt a, SWt b => a =? b
  | _, _ => false
  end.

(** connection.rs [send_streams] and [recv_streams]: maps from stream id to the handler.  The order of a map's entries is not modelled. *)
Definition table := list (N * skind).
Definition t_get (id : N) (t : table) : option skind := match find (fun p => fst p =? id) t with Some p => Some (snd p) | None => None end.
Definition t_rm (id : N) (t : table) : table := filter (fun p => negb (fst p =? id)) t.
Definition t_put (id : N) (k : skind) (t : table) : table := (id, k) :: t_rm id t.
Definition t_has (id : N) (t : table) : bool := match t_get id t with Some _ => true | None => false end.
Definition t_drop_subs (s : N) (t : table) : table := filter (fun p => negb (skind_eqb (snd p) (SWt s))) t.

(** connection.rs 227-231 [Http3RemoteSettingsState]; lib.rs [Http3State]. *)
Inductive rsettings := RNone | RZeroRtt (s : settings) | RReceived (s : settings).
Inductive cstate := CInitializing | CZeroRtt | CConnected | CGoingAway (id : N) | CClosing.

(** What the application is told when a stream closes: direction, id and code. *)
Inductive dir := DSend | DRecv.
Definition note := (dir * N * N)%type.
Definition REQUEST_REJECTED : N := 0x10b.
Definition REQUEST_CANCELLED : N := 0x10c.

Record conn := mkC { c_role : role; c_settings : rsettings; c_state : cstate; c_send : table; c_recv : table; c_local : list N; c_notes : list note }.
Definition with_settings s c := mkC (c_role c) s (c_state c) (c_send c) (c_recv c) (c_local c) (c_notes c).
Definition with_state s c := mkC (c_role c) (c_settings c) s (c_send c) (c_recv c) (c_local c) (c_notes c).
Definition with_send t c := mkC (c_role c) (c_settings c) (c_state c) t (c_recv c) (c_local c) (c_notes c).
Definition with_recv t c := mkC (c_role c) (c_settings c) (c_state c) (c_send c) t (c_local c) (c_notes c).
Definition tell n c := mkC (c_role c) (c_settings c) (c_state c) (c_send c) (c_recv c) (c_local c) (c_notes c ++ [n]).

Inductive res (A : Type) := ROk (a : A) | RErr (e : cerr) | RPanic.
Arguments ROk {A}. Arguments RErr {A}. Arguments RPanic {A}.

(** connection.rs 1694-1699 [set_qpack_settings] with qpack/encoder.rs 95-98 and 122-125: the values the encoder refuses. *)
Definition qpack_ok (s : settings) : bool := (s_get s MaxTableCapacity <? 2 ^ 30) && (s_get s BlockedStreams <? 2 ^ 16).

(** 1717-1758 [handle_settings], the comparison with the remembered settings: [inr changed] or an error. *)
Fixpoint compare (old new : settings) (ts : list stype) (changed : bool) : cerr + bool :=
  match ts with
  | [] => inr changed
  | t :: r =>
      let o := s_get old t in let n := s_get new t in
      if o =? n then compare old new r changed
      else if n <? o then inl CSettings
      else match t with
           | MaxTableCapacity => if negb (o =? 0) then inl CQpackDecoder else compare old new r true
           | BlockedStreams => compare old new r true
           | _ => compare old new r changed
           end
  end.
Definition COMPARED : list stype := [MaxHeaderListSize; MaxTableCapacity; BlockedStreams; EnableWebTransport; EnableH3Datagram].

(** 1701-1767 [handle_settings].  What WebTransport and CONNECT-UDP learn from the settings is not modelled. *)
Definition handle_settings (c : conn) (s : settings) : res conn :=
  match c_settings c with
  | RNone => if qpack_ok s then ROk (with_settings (RReceived s) c) else RErr CQpackEncoder
  | RZeroRtt old =>
      match compare old s COMPARED false with
      | inl e => RErr e
      | inr changed => if changed && negb (qpack_ok s) then RErr CQpackEncoder else ROk (with_settings (RReceived s) c)
      end
  | RReceived _ => RErr CFrameUnexpected
  end.

(** 1670-1692 [handle_control_frame]: [ROk (c, Some f)] hands the frame to the client or server. *)
Definition handle_control_frame (c : conn) (f : hframe) : res (conn * option hframe) :=
  match f with
  | FSettings s => match handle_settings c s with ROk c' => ROk (c', None) | RErr e => RErr e | RPanic => RPanic end
  | _ =>
      match c_settings c with
      | RReceived _ =>
          match f with
          | FGoaway _ | FMaxPushId _ | FCancelPush _ | FPriorityRequest _ _ | FPriorityPush _ _ => ROk (c, Some f)
          | _ => RErr CFrameUnexpected
          end
      | _ => RErr CMissingSettings
      end
  end.

(** 541-550 [handle_stream_readable], the loop over a batch of control frames. *)
Fixpoint base_frames (c : conn) (fs : list hframe) : res (conn * list hframe) :=
  match fs with
  | [] => ROk (c, [])
  | f :: r =>
      match handle_control_frame c f with
      | ROk (c', o) =>
          match base_frames c' r with
          | ROk (c'', rest) => ROk (c'', match o with Some g => g :: rest | None => rest end)
          | e => e
          end
      | RErr e => RErr e
      | RPanic => RPanic
      end
  end.

(** 1853-1885 [remove_extended_connect]: the streams of a session are the ones its tables name. *)
Definition remove_subs (s : N) (c : conn) : conn :=
  let nr := map (fun p => (DRecv, fst p, REQUEST_CANCELLED)) (filter (fun p => skind_eqb (snd p) (SWt s)) (c_recv c)) in
  let ns := map (fun p => (DSend, fst p, REQUEST_CANCELLED)) (filter (fun p => skind_eqb (snd p) (SWt s)) (c_send c)) in
  mkC (c_role c) (c_settings c) (c_state c) (t_drop_subs s (c_send c)) (t_drop_subs s (c_recv c)) (c_local c) (c_notes c ++ nr ++ ns).
(** 1887-1902 [remove_recv_stream]: the kind of the stream removed, if the caller gets it. *)
Definition remove_recv (id : N) (c : conn) : conn * option skind :=
  match t_get id (c_recv c) with
  | None => (c, None)
  | Some SSession =>
      let c1 := with_recv (t_rm id (c_recv c)) c in
      if t_has id (c_send c) then (remove_subs id (with_send (t_rm id (c_send c)) c1), Some SSession) else (c1, None)
  | Some k => (with_recv (t_rm id (c_recv c)) c, Some k)
  end.
(** 1904-1921 [remove_send_stream]. *)
Definition remove_send (id : N) (c : conn) : conn * option skind :=
  match t_get id (c_send c) with
  | None => (c, None)
  | Some SSession =>
      let c1 := with_send (t_rm id (c_send c)) c in
      match t_get id (c_recv c) with
      | None => (c1, None)
      | Some SSession => (remove_subs id (with_recv (t_rm id (c_recv c)) c1), Some SSession)
      | Some _ => (with_recv (t_rm id (c_recv c)) c1, Some SSession)
      end
  | Some k => (with_send (t_rm id (c_send c)) c, Some k)
  end.
(** 1835-1839 [close_send]; 1841-1851 [close_recv].  A critical stream's [reset] is an error, the stream head reader's is silent. *)
Definition close_send (id code : N) (c : conn) : conn :=
  let (c', k) := remove_send id c in match k with Some _ => tell (DSend, id, code) c' | None => c' end.
Definition close_recv (id code : N) (c : conn) : conn * bool :=
  let (c', k) := remove_recv id c in
  match k with
  | Some SNew | None => (c', true)
  | Some k => if critical k then (c', false) else (tell (DRecv, id, code) c', true)
  end.
(** 1816-1833 [recv_stream_is_critical], [send_stream_is_critical]. *)
Definition recv_critical (id : N) (c : conn) : bool := match t_get id (c_recv c) with Some k => critical k | None => false end.
Definition send_critical (id : N) (c : conn) : bool := existsb (N.eqb id) (c_local c).

(** connection_client.rs 47-52 [id_gte]. *)
Definition id_gte (base : N) (p : N * skind) : bool := (base <=? fst p) && negb (xorb (negb (is_uni (fst p))) (negb (is_uni base))).
(** 580-594 [handle_stream_stop_sending], with its result dropped as in [handle_goaway]. *)
Definition stop_dropped (code : N) (c : conn) (id : N) : conn := if send_critical id c then c else close_send id code c.
Definition reset_dropped (code : N) (c : conn) (id : N) : conn := fst (close_recv id code c).
(** connection_client.rs 1102-1176 [handle_goaway].  The Draining event is not modelled. *)
Definition goaway_streams (g : N) (c : conn) : conn :=
  let c1 := fold_left (stop_dropped REQUEST_REJECTED) (map fst (filter (id_gte g) (c_send c))) c in
  fold_left (reset_dropped REQUEST_REJECTED) (map fst (filter (id_gte g) (c_recv c1))) c1.
Definition handle_goaway (c : conn) (g : N) : res conn :=
  if is_uni g || is_server g then RErr CId
  else match c_state c with
       | CConnected => ROk (goaway_streams g (with_state (CGoingAway g) c))
       | CGoingAway p => if p <? g then RErr CGoaway else ROk (goaway_streams g (with_state (CGoingAway g) c))
       | CClosing => ROk (goaway_streams g c)
       | _ => RPanic
       end.

(** What the rest of the connection answers: [e_allowed], transport/streams.rs 119 [is_stream_id_allowed]; [e_cancel],
    whether the push controller takes a CANCEL_PUSH of that id (HpModel). *)
Record env := mkE { e_allowed : N -> bool; e_cancel : N -> bool }.

(** connection_client.rs 1027-1050 and connection_server.rs 354-392: the frames only one side may receive. *)
Definition role_frame (e : env) (c : conn) (f : hframe) : res conn :=
  match c_role c with
  | Client =>
      match f with
      | FCancelPush id => if e_cancel e id then ROk c else RErr CId
      | FMaxPushId _ | FPriorityRequest _ _ | FPriorityPush _ _ => RErr CFrameUnexpected
      | FGoaway g => handle_goaway c g
      | _ => RPanic
      end
  | Server =>
      match f with
      | FMaxPushId _ => ROk c
      | FGoaway _ | FCancelPush _ => RErr CFrameUnexpected
      | FPriorityPush _ _ => ROk c
      | FPriorityRequest id _ => if is_uni id || is_server id || negb (e_allowed e id) then RErr CId else ROk c
      | _ => RPanic
      end
  end.
Fixpoint role_frames (e : env) (c : conn) (fs : list hframe) : res conn :=
  match fs with [] => ROk c | f :: r => match role_frame e c f with ROk c' => role_frames e c' r | x => x end end.

(** What the transport and the application do. *)
Inductive ntype := NControl | NEncoder | NDecoder | NHttp | NPush | NWt (s : N) | NUnknown.
Inductive op :=
  | ONew (id : N) (* ConnectionEvent::NewStream *)
  | OHead (id : N) (t : ntype) (* the stream's first bytes said what it is *)
  | OFrames (id : N) (e : env) (fs : list hframe) (* a stream is readable and, if it is the control stream, holds these frames *)
  | OBad (id : N) (e : cerr) (* a critical stream ended ([CClosedCritical]) or its bytes are wrong *)
  | ODone (id : N) (* a stream that is not critical has been read to its end *)
  | OReset (id code : N) | OStop (id code : N) (* RESET_STREAM, STOP_SENDING *)
  | OConnected
  | ORequest (id : N) (session : bool) (* the application; [id] is the stream the transport would open *)
  | OAppReset (id code : N) | OAppStop (id code : N).
Inductive out := Fine | Ignored | Heard | Created | Api (e : aerr) | Fatal (e : cerr) | Panicked.

(** connection.rs 704-775 [handle_new_stream] with connection_client.rs 1000-1020 and connection_server.rs 307-350. *)
Definition exists_kind (k : skind) (c : conn) : bool := existsb (fun p => skind_eqb (snd p) k) (c_recv c).
Definition new_critical (id : N) (k : skind) (c : conn) : out * conn :=
  if exists_kind k c then (Fatal CStreamCreation, c) else (Fine, with_recv (t_put id k (c_recv c)) c).
Definition new_stream (id : N) (t : ntype) (c : conn) : out * conn :=
  match t with
  | NControl => new_critical id SControl c
  | NEncoder => new_critical id SEncoder c
  | NDecoder => new_critical id SDecoder c
  | NPush => match c_role c with Server => (Fatal CStreamCreation, c) | Client => (Fine, with_recv (t_put id SPush (c_recv c)) c) end
  | NHttp => match c_role c with
             | Server => (Fine, with_recv (t_put id SHttp (c_recv c)) (with_send (t_put id SHttp (c_send c)) c))
             | Client => (Fatal CStreamCreation, c)
             end
  | NWt s => match t_get s (c_send c) with
             | Some SSession =>
                 let c1 := if is_uni id then c else with_send (t_put id (SWt s) (c_send c)) c in
                 (Fine, with_recv (t_put id (SWt s) (c_recv c1)) c1)
             | _ => (Fine, c)
             end
  | NUnknown => (Fine, c)
  end.

Definition step (c : conn) (o : op) : out * conn :=
  match o with
  | ONew id => (Fine, with_recv (t_put id SNew (c_recv c)) c) (* 466-476 [add_new_stream] *)
  | OHead id t => (* 478-492 [stream_receive]: the head reader is done and removed *)
      match t_get id (c_recv c) with
      | Some SNew => new_stream id t (with_recv (t_rm id (c_recv c)) c)
      | _ => (Ignored, c)
      end
  | OFrames id e fs => (* 522-565 and the client's and server's [handle_stream_readable] *)
      match t_get id (c_recv c) with
      | Some SControl =>
          match base_frames c fs with
          | ROk (c', rest) => match role_frames e c' rest with ROk c'' => (Heard, c'') | RErr x => (Fatal x, c') | RPanic => (Panicked, c') end
          | RErr x => (Fatal x, c)
          | RPanic => (Panicked, c)
          end
      | _ => (Ignored, c)
      end
  | OBad id e => if recv_critical id c then (Fatal e, c) else (Ignored, c) (* 806-833 [handle_stream_manipulation_output] *)
  | ODone id => if recv_critical id c then (Ignored, c) else (Fine, fst (remove_recv id c))
  | OReset id code => let (c', ok) := close_recv id code c in if ok then (Fine, c') else (Fatal CClosedCritical, c') (* 569-578 *)
  | OStop id code => if send_critical id c then (Fatal CClosedCritical, c) else (Fine, close_send id code c) (* 580-594 *)
  | OConnected => match c_state c with (* 617-626 [handle_state_change] *)
                  | CInitializing | CZeroRtt => (Fine, with_state CConnected c)
                  | _ => (Panicked, c)
                  end
  | ORequest id session => (* 921-938 [create_bidi_transport_stream], 940-1026 *)
      match c_state c with
      | CGoingAway _ | CClosing => (Api AAlreadyClosed, c)
      | CInitializing => (Api AUnavailable, c)
      | _ => let k := if session then SSession else SHttp in
             (Created, with_recv (t_put id k (c_recv c)) (with_send (t_put id k (c_send c)) c))
      end
  | OAppReset id code => if send_critical id c then (Api AInvalidStreamId, c) else (Fine, close_send id code c) (* 1028-1043 *)
  | OAppStop id code => if recv_critical id c then (Api AInvalidStreamId, c) else (Fine, fst (close_recv id code c)) (* 1067-1083 *)
  end.

(** A run stops at the first error: connection.rs 777-787 [close] then drops every stream. *)
Definition final (o : out) : bool := match o with Fatal _ | Panicked => true | _ => false end.
Fixpoint run (c : conn) (ops : list op) : list (op * out) * conn :=
  match ops with
  | [] => ([], c)
  | o :: r => let (x, c') := step c o in if final x then ([(o, x)], c') else let (t, c'') := run c' r in ((o, x) :: t, c'')
  end.

(** A new connection: no memory, or 448-461 [set_0rtt_settings] with remembered settings the QPACK encoder takes. *)
Definition init (r : role) (old : option settings) (local : list N) : option conn :=
  match old with
  | None => Some (mkC r RNone CInitializing [] [] local [])
  | Some s => if qpack_ok s then Some (mkC r (RZeroRtt s) CZeroRtt [] [] local []) else None
  end.
