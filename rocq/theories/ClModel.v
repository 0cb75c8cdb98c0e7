(** Connection states, CONNECTION_CLOSE and HANDSHAKE_DONE: neqo-transport/src/connection/state.rs and the parts of
    connection/mod.rs that change the state or what is signalled. *)
From Verif Require Import Base Lib FrameModel.
Open Scope N_scope.
Open Scope list_scope.
Import ListNotations.

(** lib.rs:96-200 [Error], in the order of the declaration (the order it derives).  The payload of [ECrypto], [EEch],
    [EKeysDiscarded] and [EKeysPending] is a number that orders as the payload does. *)
Inductive err :=
| ENone | EInternal | EConnectionRefused | EFlowControl | EStreamLimit | EStreamState | EFinalSize | EFrameEncoding | ETransportParameter
| EProtocolViolation | EInvalidToken | EApplication | ECryptoBufferExceeded | ECrypto (n : N) | EQlog | ECryptoAlert (a : N) | EEch (n : N)
| EAckedUnsent | ECidLimit | ECidsExhausted | EConnectionState | EDecrypt | EDisabledVersion | EIdleTimeout | EIntegerOverflow | EInvalidInput
| EInvalidMigration | EInvalidPacket | EInvalidResumption | EInvalidRetry | EInvalidStreamId | EKeysDiscarded (n : N) | EKeysExhausted
| EKeysPending (n : N) | EKeyUpdateBlocked | ENoAvailablePath | ENoMoreData | ENotAvailable | ENotConnected | EPacketNumberOverlap
| EPeerApplication (c : N) | EPeer (c : N) | EStatelessReset | ETooManyPtos | ETooMuchData | EUnexpectedMessage | EUnknownCid | EUnknownFrame
| EVersionNegotiation | EWrongRole | EUnknownTp.
(** The derived [Ord]: the variant, then the payload. *)
Definition err_rank (e : err) : N :=
  match e with
  | ENone => 0 | EInternal => 1 | EConnectionRefused => 2 | EFlowControl => 3 | EStreamLimit => 4 | EStreamState => 5 | EFinalSize => 6
  | EFrameEncoding => 7 | ETransportParameter => 8 | EProtocolViolation => 9 | EInvalidToken => 10 | EApplication => 11 | ECryptoBufferExceeded => 12
  | ECrypto _ => 13 | EQlog => 14 | ECryptoAlert _ => 15 | EEch _ => 16 | EAckedUnsent => 17 | ECidLimit => 18 | ECidsExhausted => 19
  | EConnectionState => 20 | EDecrypt => 21 | EDisabledVersion => 22 | EIdleTimeout => 23 | EIntegerOverflow => 24 | EInvalidInput => 25
  | EInvalidMigration => 26 | EInvalidPacket => 27 | EInvalidResumption => 28 | EInvalidRetry => 29 | EInvalidStreamId => 30
  | EKeysDiscarded _ => 31 | EKeysExhausted => 32 | EKeysPending _ => 33 | EKeyUpdateBlocked => 34 | ENoAvailablePath => 35 | ENoMoreData => 36
  | ENotAvailable => 37 | ENotConnected => 38 | EPacketNumberOverlap => 39 | EPeerApplication _ => 40 | EPeer _ => 41 | EStatelessReset => 42
  | ETooManyPtos => 43 | ETooMuchData => 44 | EUnexpectedMessage => 45 | EUnknownCid => 46 | EUnknownFrame => 47 | EVersionNegotiation => 48
  | EWrongRole => 49 | EUnknownTp => 50
  end.
Definition err_arg (e : err) : N :=
  match e with ECrypto n | ECryptoAlert n | EEch n | EKeysDiscarded n | EKeysPending n | EPeerApplication n | EPeer n => n | _ => 0 end.
(** lib.rs:204-236 [Error::code]. *)
Definition err_code (e : err) : N :=
  match e with
  | ENone | EIdleTimeout | EPeer _ | EPeerApplication _ => 0
  | EConnectionRefused => 2 | EFlowControl => 3 | EStreamLimit => 4 | EStreamState => 5 | EFinalSize => 6 | EFrameEncoding => 7
  | ETransportParameter => 8 | EProtocolViolation => 10 | EInvalidToken => 11 | EKeysExhausted => 15 | EApplication => 12
  | ENoAvailablePath | ETooManyPtos => 16 | ECryptoBufferExceeded => 13 | ECryptoAlert a => 256 + a | EEch _ => 256 + 121
  | EVersionNegotiation => 21496
  | _ => 1
  end.
(** lib.rs:262-268 [CloseReason]. *)
Inductive reason := RTransport (e : err) | RApp (code : N).
Definition lex (c d : comparison) : comparison := match c with Eq => d | _ => c end.
Definition err_cmp (a b : err) : comparison := lex (err_rank a ?= err_rank b) (err_arg a ?= err_arg b).
Definition reason_cmp (a b : reason) : comparison :=
  match a, b with
  | RTransport x, RTransport y => err_cmp x y
  | RTransport _, RApp _ => Lt
  | RApp _, RTransport _ => Gt
  | RApp x, RApp y => x ?= y
  end.
(** state.rs:19-45 [State]; times are microseconds. *)
Inductive state := SInit | SWaitInitial | SWaitVersion | SHandshaking | SConnected | SConfirmed
| SClosing (r : reason) (timeout : N) | SDraining (r : reason) (timeout : N) | SClosed (r : reason).
Definition st_rank (s : state) : N :=
  match s with
  | SInit => 0 | SWaitInitial => 1 | SWaitVersion => 2 | SHandshaking => 3 | SConnected => 4 | SConfirmed => 5
  | SClosing _ _ => 6 | SDraining _ _ => 7 | SClosed _ => 8
  end.
Definition st_cmp (a b : state) : comparison :=
  match a, b with
  | SClosing r t, SClosing r' t' | SDraining r t, SDraining r' t' => lex (reason_cmp r r') (t ?= t')
  | SClosed r, SClosed r' => reason_cmp r r'
  | _, _ => st_rank a ?= st_rank b
  end.
(** state.rs:48-59 [connected], [closed]; 72-74 [closing]. *)
Definition connected (s : state) : bool := match s with SConnected | SConfirmed => true | _ => false end.
Definition closed (s : state) : bool := match s with SClosing _ _ | SDraining _ _ | SClosed _ => true | _ => false end.
Definition is_closing (s : state) : bool := match s with SClosing _ _ | SDraining _ _ => true | _ => false end.

(** state.rs:77-83 [ClosingFrame]; a path is a number, frame types are their wire values, the reason is its bytes. *)
Record cframe := mkF { f_path : N; f_error : reason; f_type : N; f_reason : list N }.
(** state.rs:163-174 [StateSignaling]. *)
Inductive signal := GIdle | GDone | GClosing (f : cframe) | GDraining (f : cframe) | GSent (f : option cframe) | GReset.
(** state.rs:177-182 [handshake_done]. *)
Definition g_done (g : signal) : signal := match g with GIdle => GDone | _ => g end.
(** state.rs:195-206 [close], 208-219 [drain]. *)
Definition g_close (f : cframe) (g : signal) : signal := match g with GReset => GReset | _ => GClosing f end.
Definition g_drain (f : cframe) (g : signal) : signal := match g with GReset => GReset | _ => GDraining f end.
(** state.rs:222-238 [close_frame]. *)
Definition g_take (g : signal) : signal * option cframe :=
  match g with
  | GClosing f => (GSent (Some f), Some f)
  | GDraining f => (GSent None, Some f)
  | _ => (g, None)
  end.
(** state.rs:241-245 [send_close]. *)
Definition g_again (g : signal) : signal := match g with GSent (Some f) => GClosing f | _ => g end.

(** The connection ([c_flight]: HANDSHAKE_DONE frames sent and not known lost), and what a caller sees: a state reported by an event, a datagram with CONNECTION_CLOSE, ordinary
    datagrams, HANDSHAKE_DONE in one of them, a debug assertion that fails (release builds carry on),
    a start from the beginning with another version. *)
Record cl := mkCl { c_client : bool; c_state : state; c_sig : signal; c_flight : N }.
Inductive out := OState (s : state) | OClose (f : cframe) | OData | ODone | OAssert | ORestart.
Definition with_sig (g : signal) (c : cl) : cl := mkCl (c_client c) (c_state c) g (c_flight c).
Definition with_state (s : state) (c : cl) : cl := mkCl (c_client c) s (c_sig c) (c_flight c).
(** mod.rs:445-490 [Connection::new]. *)
Definition cl_new (client : bool) : cl := mkCl client SInit GIdle 0.

(** mod.rs:3782-3805 [set_state]; an event for each change (events.rs:152-159). *)
Definition set_state (s : state) (c : cl) : cl * list out :=
  match st_cmp s (c_state c) with
  | Gt => (with_state s c, [OState s])
  | _ =>
      if st_rank s =? st_rank (c_state c) then (c, [])
      else (c, if is_closing s && closed (c_state c) then [] else [OAssert])
  end.

(** mod.rs:3045-3048 [get_closing_period_time]. *)
Definition period (now pto : N) : N := now + 3 * pto.
Definition or_else {A} (a b : option A) : option A := match a with Some _ => a | None => b end.

(** What a call is given: the time, the PTO, the primary path. *)
Record env := mkEnv { v_now : N; v_pto : N; v_primary : option N }.

(** mod.rs:984-1037 [capture_error] of an error; the message is that of a debug build or empty. *)
Definition capture (v : env) (path : option N) (ft : N) (msg : list N) (e : err) (c : cl) : cl * list out :=
  let r := RTransport e in
  match c_state c with
  | SClosing _ _ | SDraining _ _ | SClosed _ => (c, [])
  | SInit => set_state (SClosed r) c
  | SWaitInitial | SWaitVersion =>
      let c1 := match or_else path (v_primary v) with Some p => with_sig (g_close (mkF p r ft msg) (c_sig c)) c | None => c end in
      set_state (SClosed r) c1
  | _ =>
      match or_else path (v_primary v) with
      | Some p =>
          let c1 := with_sig (g_close (mkF p r ft msg) (c_sig c)) c in
          match e with
          | EKeysExhausted => set_state (SClosed r) c1
          | _ => set_state (SClosing r (period (v_now v) (v_pto v))) c1
          end
      | None => set_state (SClosed r) c
      end
  end.

(** mod.rs:3050-3064 [close]. *)
Definition api_close (v : env) (code : N) (msg : list N) (c : cl) : cl * list out :=
  match v_primary v with
  | Some p => set_state (SClosing (RApp code) (period (v_now v) (v_pto v))) (with_sig (g_close (mkF p (RApp code) 0 msg) (c_sig c)) c)
  | None => set_state (SClosed (RApp code)) c
  end.

(** mod.rs:3769-3776, in [set_connected] (3715), when TLS is done and nothing fails; 3341 in [set_confirmed]. *)
Definition set_connected (c : cl) : cl * list out :=
  let '(c1, o1) := set_state SConnected c in
  if c_client c then (c1, o1)
  else let '(c2, o2) := set_state SConfirmed (with_sig (g_done (c_sig c1)) c1) in (c2, o1 ++ o2).
(** mod.rs:3312-3316 in [handshake]. *)
Definition tls_complete (c : cl) : cl * list out := if connected (c_state c) then (c, []) else set_connected c.

(** What a frame does: CONNECTION_CLOSE, a CRYPTO frame that completes TLS, HANDSHAKE_DONE, one that fails, another. *)
Inductive feff := FClose (app : bool) (code : N) | FTlsDone | FHandshakeDone | FFail (e : err) (ft : N) | FOther.
(** mod.rs:3508-3552 in [input_frame]: the error, if any. *)
Definition input_frame (v : env) (path : N) (f : feff) (c : cl) : cl * list out * option (err * N) :=
  match f with
  | FClose a code =>
      let r := RTransport (if a then EPeerApplication code else EPeer code) in
      let c1 := with_sig (g_drain (mkF path r (if a then 29 else 28) []) (c_sig c)) c in
      (set_state (SDraining r (period (v_now v) (v_pto v))) c1, None)
  | FTlsDone => (tls_complete c, None)
  | FHandshakeDone =>
      if negb (c_client c) || negb (connected (c_state c)) then (c, [], Some (EProtocolViolation, 30))
      else (set_state SConfirmed c, None)
  | FFail e ft => (c, [], Some (e, ft))
  | FOther => (c, [], None)
  end.
(** mod.rs:1975-1996 in [process_packet]: the frames of a packet, to the first error. *)
Fixpoint frames (v : env) (path : N) (fs : list feff) (c : cl) : cl * list out * option err :=
  match fs with
  | [] => (c, [], None)
  | f :: fs' =>
      let '(c1, o1, e) := input_frame v path f c in
      match e with
      | Some (e, ft) => let '(c2, o2) := capture v (Some path) ft [] e c1 in (c2, o1 ++ o2, Some e)
      | None => let '(c2, o2, r) := frames v path fs' c1 in (c2, o1 ++ o2, r)
      end
  end.

(** A packet in a datagram, as the checks before and the removal of protection find it:
    dropped (mod.rs:1562-1595, 1690-1698); Version Negotiation, with a version to try or none; opened, with its frames
    and whether the version is now settled; not opened: keys exhausted or a violation, keys gone, or just not valid.
    [init]: a valid Initial for a server's first packet. *)
Inductive popen := POpened (fs : list feff) (version : bool) | PFatal (e : err) | PDiscarded | PPending | PInvalid (token : bool).
Inductive packet := PDrop | PVersions (found : bool) | PPacket (init : bool) (o : popen).

(** mod.rs:1757-1768 in [postprocess_packet]. *)
Definition postprocess (version : bool) (c : cl) : cl * list out :=
  match c_state c with
  | SWaitInitial | SWaitVersion => set_state (if version then SHandshaking else SWaitVersion) c
  | _ => (c, [])
  end.
(** mod.rs:1434-1459 [check_stateless_reset], 1425-1432 [is_stateless_reset]; [token]: it ends with a token of the path. *)
Definition check_reset (v : env) (first token : bool) (c : cl) : cl * list out * option err :=
  if first && token && connected (c_state c) then
    (set_state (SDraining (RTransport EStatelessReset) (period (v_now v) (v_pto v))) (with_sig GReset c), Some EStatelessReset)
  else (c, [], None).
(** mod.rs:1506-1549 [version_negotiation]: a fresh client takes the place of this one, or it fails. *)
Definition versions (found : bool) (c : cl) : cl * list out * option err :=
  if found then (cl_new true, [ORestart], None)
  else (set_state (SClosed (RTransport EVersionNegotiation)) c, Some EVersionNegotiation).

(** mod.rs:1833-1937 [input_path]; [first]: no packet of it was identified yet, [token]: the datagram ends with a token. *)
Fixpoint packets (v : env) (path : N) (token first : bool) (ps : list packet) (c : cl) : cl * list out * option err :=
  match ps with
  | [] => check_reset v first token c
  | PDrop :: _ => check_reset v first token c
  | PVersions found :: _ =>
      match c_state c with
      | SWaitInitial => if c_client c then versions found c else check_reset v first token c
      | _ => check_reset v first token c
      end
  | PPacket init o :: ps' =>
      let '(c0, o0) := match c_state c with SInit => if negb (c_client c) && init then set_state SWaitInitial c else (c, []) | _ => (c, []) end in
      match c_state c0 with
      | SInit => let '(c1, o1, r) := check_reset v first token c0 in (c1, o0 ++ o1, r)
      | SClosing _ _ => let '(c1, o1, r) := check_reset v first token (with_sig (g_again (c_sig c0)) c0) in (c1, o0 ++ o1, r)
      | SDraining _ _ | SClosed _ => let '(c1, o1, r) := check_reset v first token c0 in (c1, o0 ++ o1, r)
      | _ =>
          match o with
          | PPending => (c0, o0, None)
          | PFatal e => (c0, o0, Some e)
          | PDiscarded | PInvalid _ =>
              let c1 := match o with
                        | PDiscarded => match c_state c0 with SConfirmed => if c_client c0 then c0 else with_sig (g_done (c_sig c0)) c0 | _ => c0 end
                        | _ => c0
                        end in
              let '(c2, o2, r) := check_reset v first (match o with PInvalid t => t | _ => false end) c1 in
              match r with
              | Some e => (c2, o0 ++ o2, Some e)
              | None => let '(c3, o3, r3) := packets v path token false ps' c2 in (c3, o0 ++ o2 ++ o3, r3)
              end
          | POpened fs version =>
              let '(c1, o1, r) := frames v path fs c0 in
              match r with
              | Some e => (c1, o0 ++ o1, Some e)
              | None =>
                  let '(c2, o2) := postprocess version c1 in
                  let '(c3, o3, r3) := packets v path token false ps' c2 in
                  (c3, o0 ++ o1 ++ o2 ++ o3, r3)
              end
          end
      end
  end.
(** mod.rs:1800-1816 [input]. *)
Definition input (v : env) (path : N) (token : bool) (ps : list packet) (c : cl) : cl * list out :=
  let '(c1, o1, r) := packets v path token true ps c in
  match r with
  | Some e => let '(c2, o2) := capture v (Some path) 0 [] e c1 in (c2, o1 ++ o2)
  | None => (c1, o1)
  end.

(** mod.rs:1048-1136 [process_timer]: whether the idle timeout has expired, the result of the key update timer, whether
    too many PTOs have passed, whether a path is left. *)
Definition timer (v : env) (idle : bool) (keys : option err) (ptos lost : bool) (c : cl) : cl * list out :=
  match c_state c with
  | SClosed _ => (c, [])
  | SClosing r t | SDraining r t =>
      if t <=? v_now v then set_state (SClosed r) c
      else if idle then set_state (SClosed (RTransport EIdleTimeout)) c
      else (c, [])
  | _ =>
      if idle then set_state (SClosed (RTransport EIdleTimeout)) c
      else
        let '(c1, o1) := match keys with Some e => capture v None 0 [] e c | None => (c, []) end in
        if ptos && connected (c_state c1) then
          let '(c2, o2) := set_state (SClosed (RTransport ETooManyPtos)) c1 in (c2, o1 ++ o2)
        else if lost then let '(c2, o2) := capture v None 0 [] ENoAvailablePath c1 in (c2, o1 ++ o2)
        else (c1, o1)
  end.

(** mod.rs:2283-2323 [output] and 2669-2761: [path] is that selected, if any; [res] the error of building packets;
    [done]: there is room for HANDSHAKE_DONE (state.rs:184-193); [temp]: the path of the closing frame is temporary;
    [more]: the batch has room for a second datagram, the first being as large as allowed: it takes no closing frame. *)
Definition output (v : env) (path : option N) (res : option err) (done temp more : bool) (c : cl) : cl * list out :=
  if closed (c_state c) then
    let (g, f) := g_take (c_sig c) in
    match f with
    | None => (c, [])
    | Some f =>
        let c1 := with_sig g c in
        if temp then capture v (Some (f_path f)) 0 [] EInternal c1
        else match res with
             | Some e => capture v (Some (f_path f)) 0 [] e c1
             | None => (c1, OClose f :: if more then [OData] else [])
             end
    end
  else match path with
       | None => (c, [])
       | Some p =>
           let '(c1, o1) := match c_sig c with GDone => if done then (mkCl (c_client c) (c_state c) GIdle (c_flight c + 1), [ODone]) else (c, []) | _ => (c, []) end in
           match res with
           | Some e => let '(c2, o2) := capture v (Some p) 0 [] e c1 in (c2, o1 ++ o2)
           | None => (c1, o1 ++ [OData])
           end
       end.

(** Calls of the connection: [close]; the client's start (mod.rs:2990-3037) and [authenticated] (939-945) or another
    call that drives TLS; a datagram; the timer; output; a lost HANDSHAKE_DONE (3591). *)
Inductive op :=
| KClose (v : env) (code : N) (msg : list N)
| KStart (v : env) (res : option err)
| KTls (v : env) (complete : bool) (res : option err)
| KInput (v : env) (path : N) (token : bool) (ps : list packet)
| KTimer (v : env) (idle : bool) (keys : option err) (ptos lost : bool)
| KOutput (v : env) (path : option N) (res : option err) (done temp more : bool)
| KLostDone.
Definition step (o : op) (c : cl) : cl * list out :=
  match o with
  | KClose v code msg => api_close v code msg c
  | KStart v res =>
      match c_state c with
      | SInit => if c_client c then match res with None => set_state SWaitInitial c | Some e => capture v None 0 [] e c end else (c, [])
      | _ => (c, [])
      end
  | KTls v complete res =>
      let '(c1, o1) := if complete then tls_complete c else (c, []) in
      match res with
      | Some e => let '(c2, o2) := capture v None 0 [] e c1 in (c2, o1 ++ o2)
      | None => (c1, o1)
      end
  | KInput v path token ps => input v path token ps c
  | KTimer v idle keys ptos lost => timer v idle keys ptos lost c
  | KOutput v path res done temp more => output v path res done temp more c
  | KLostDone =>
      if c_flight c =? 0 then (c, [])
      else (mkCl (c_client c) (c_state c) (g_done (c_sig c)) (c_flight c - 1), [])
  end.
Fixpoint run (os : list op) (c : cl) : cl * list out :=
  match os with
  | [] => (c, [])
  | o :: os' => let '(c1, o1) := step o c in let '(c2, o2) := run os' c1 in (c2, o1 ++ o2)
  end.

(** *** Writing the frame *)
(** state.rs:102-117 [sanitize]. *)
Definition sanitize (f : cframe) : option cframe :=
  match f_error f with
  | RApp _ => Some (mkF (f_path f) (RTransport EApplication) 0 [])
  | RTransport _ => None
  end.
(** state.rs:124-150 [write_frame]; FrameModel has the truncation and the encoding. *)
Definition write_frame (remaining : N) (f : cframe) : wres :=
  match f_error f with
  | RTransport e => wr_close remaining true (err_code e) (f_type f) (f_reason f)
  | RApp code => wr_close remaining false code 0 (f_reason f)
  end.
(** mod.rs:2657-2664 in [write_closing_frames], after the ACK frame; [app_space]: in a 0-RTT or 1-RTT packet. *)
Definition write_closing (app_space : bool) (remaining : N) (f : cframe) : wres :=
  write_frame remaining (if app_space then f else match sanitize f with Some g => g | None => f end).
