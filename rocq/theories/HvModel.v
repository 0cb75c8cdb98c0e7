(** The events of one connection of an HTTP/3 server, from the headers of a request to the queue
    (/repo/neqo-http3/src/server_connection_events.rs, recv_message.rs). *)
From Coq Require Import String NArith List Bool.
From Verif Require Import HhModel HeModel.
Import ListNotations.
Open Scope N_scope.
Open Scope list_scope.

(** lib.rs 514-517 [Http3StreamInfo]: the stream, and the session of a WebTransport stream. *)
Definition sinfo := (N * option N)%type.
Definition sinfo_eqb (a b : sinfo) : bool :=
  (fst a =? fst b) && match snd a, snd b with None, None => true | Some x, Some y => x =? y | _, _ => false end.
(** server_connection_events.rs 20-85 [Http3ServerConnEvent], [WebTransportEvent], [ConnectUdpEvent]. The two kinds of session events are one
    constructor with the kind as its argument; priorities and reasons are opaque. *)
Inductive sevent :=
  | VHeaders (si : sinfo) (hs : list header) (fin : bool) | VPriority (id p : N) | VReadable (si : sinfo) | VWritable (si : sinfo)
  | VReset (si : sinfo) (e : N) | VStop (si : sinfo) (e : N) | VState (s : hstate)
  | VSession (k : hext) (id : N) (hs : list header) | VSessionEnd (k : hext) (id reason : N) (hs : option (list header))
  | VStream (si : sinfo) | VDatagram (k : hext) (session : N) (d : list N).
Definition squeue := list sevent.

(** 245-247 [insert], 249-254 [remove]. *)
Definition v_insert (e : sevent) (q : squeue) : squeue := q ++ [e].
Definition v_remove (f : sevent -> bool) (q : squeue) : squeue := filter (fun e => negb (f e)) q.
(** 275-280 [remove_events_for_stream_id]. *)
Definition remove_stream (si : sinfo) (q : squeue) : squeue :=
  v_remove (fun e => match e with VHeaders x _ _ => sinfo_eqb x si | VReadable x => sinfo_eqb x si | _ => false end) q.
(** lib.rs 676-683 [CloseType::error]. *)
Definition close_error (ct : hclose) : option N := match ct with ResetApp e => Some e | ResetRemote e => Some e | LocalError e => Some e | DoneWith => None end.
(** 94-103 [send_closed]. *)
Definition v_send_closed (si : sinfo) (ct : hclose) (q : squeue) : squeue :=
  match ct with DoneWith => q | _ => match close_error ct with Some e => v_insert (VStop si e) q | None => q end end.
(** 120-130 [recv_closed]. *)
Definition v_recv_closed (si : sinfo) (ct : hclose) (q : squeue) : squeue :=
  match ct with
  | DoneWith => q
  | _ => let q := remove_stream si q in match close_error ct with Some e => v_insert (VReset si e) q | None => q end
  end.
(** neqo-common/src/header.rs 106-114 [find_header]: the first of that name, as its value. *)
Definition find_header (hs : list header) (n : string) : option (list N) := option_map snd (find (fun h => is (fst h) n) hs).
(** 149-170 [extended_connect_new_session]; None: [unimplemented!], a panic. *)
Definition new_session (id : N) (hs : list header) (q : squeue) : option squeue :=
  match find_header hs ":protocol" with
  | Some p => if is p "webtransport" then Some (v_insert (VSession Wt id hs) q) else if is p "connect-udp" then Some (v_insert (VSession Udp id hs) q) else None
  | None => None
  end.
(** recv_message.rs 170-194 [add_headers], on a server: a request's headers, decoded. Headers that are not accepted are an error of the stream,
    which is then closed ([JRecvClosed]). *)
Definition request (id : N) (hs : list header) (fin : bool) (q : squeue) : option squeue :=
  match accept Request hs with
  | None => Some q
  | Some (hs', _, true) => new_session id hs' q
  | Some (hs', _, false) => Some (v_insert (VHeaders (id, None) hs' fin) q)
  end.

Inductive sop :=
  | JRequest (id : N) (hs : list header) (fin : bool) | JReadable (si : sinfo) | JWritable (si : sinfo) | JRecvClosed (si : sinfo) (ct : hclose) | JSendClosed (si : sinfo) (ct : hclose)
  | JState (s : hstate) | JPriority (id p : N) | JStart | JEnd (k : hext) (id reason : N) (hs : option (list header)) | JStream (si : sinfo) | JDatagram (k : hext) (session : N) (d : list N) | JPoll.
(** 93-273: one call, or the server taking an event ([next_event] 260-262); None is a panic. *)
Definition v_step (q : squeue) (o : sop) : option (option sevent * squeue) :=
  match o with
  | JRequest id hs fin => option_map (fun q => (None, q)) (request id hs fin q)
  | JReadable si => Some (None, v_insert (VReadable si) q)
  | JWritable si => Some (None, v_insert (VWritable si) q)
  | JRecvClosed si ct => Some (None, v_recv_closed si ct q)
  | JSendClosed si ct => Some (None, v_send_closed si ct q)
  | JState s => Some (None, v_insert (VState s) q)
  | JPriority id p => Some (None, v_insert (VPriority id p) q)
  | JStart => Some (None, q)
  | JEnd k id r hs => Some (None, v_insert (VSessionEnd k id r hs) q)
  | JStream si => Some (None, v_insert (VStream si) q)
  | JDatagram k s d => Some (None, v_insert (VDatagram k s d) q)
  | JPoll => Some (match q with [] => (None, []) | e :: q' => (Some e, q') end)
  end.
Fixpoint v_run (q : squeue) (ops : list sop) : option (list (sop * option sevent) * squeue) :=
  match ops with
  | [] => Some ([], q)
  | o :: ops => match v_step q o with
      | None => None
      | Some (x, q) => match v_run q ops with None => None | Some (t, q) => Some ((o, x) :: t, q) end
      end
  end.
