(** What the application of an HTTP/3 server may expect of a connection's events. *)
From Coq Require Import String NArith List Bool.
From Verif Require Import HhModel HhSpec HeModel HeSpec HvModel.
Import ListNotations.
Open Scope N_scope.
Open Scope list_scope.

(** A request for a session of some protocol (RFC 8441, RFC 9220). *)
Definition asks (p : list N) (hs : list header) : Prop := In (str ":method", str "CONNECT") hs /\ In (str ":protocol", p) hs.
(** The news of a call: of a request, only if its headers are well-formed. *)
Inductive brings : sop -> list sevent -> Prop :=
  | br_malformed id hs fin : ~ wellformed Request hs -> brings (JRequest id hs fin) []
  | br_request id hs fin : wellformed Request hs -> (forall p, ~ asks p hs) -> brings (JRequest id hs fin) [VHeaders (id, None) hs fin]
  | br_webtransport id hs fin : wellformed Request hs -> asks (str "webtransport") hs -> brings (JRequest id hs fin) [VSession Wt id hs]
  | br_udp id hs fin : wellformed Request hs -> asks (str "connect-udp") hs -> brings (JRequest id hs fin) [VSession Udp id hs]
  | br_readable si : brings (JReadable si) [VReadable si]
  | br_writable si : brings (JWritable si) [VWritable si]
  | br_recv_app si e : brings (JRecvClosed si (ResetApp e)) [VReset si e]
  | br_recv_remote si e : brings (JRecvClosed si (ResetRemote e)) [VReset si e]
  | br_recv_error si e : brings (JRecvClosed si (LocalError e)) [VReset si e]
  | br_recv_done si : brings (JRecvClosed si DoneWith) []
  | br_send_app si e : brings (JSendClosed si (ResetApp e)) [VStop si e]
  | br_send_remote si e : brings (JSendClosed si (ResetRemote e)) [VStop si e]
  | br_send_error si e : brings (JSendClosed si (LocalError e)) [VStop si e]
  | br_send_done si : brings (JSendClosed si DoneWith) []
  | br_state s : brings (JState s) [VState s]
  | br_priority id p : brings (JPriority id p) [VPriority id p]
  | br_start : brings JStart []
  | br_end k id r hs : brings (JEnd k id r hs) [VSessionEnd k id r hs]
  | br_stream si : brings (JStream si) [VStream si]
  | br_datagram k s d : brings (JDatagram k s d) [VDatagram k s d]
  | br_poll : brings JPoll [].
(** What a stream received is stale once it is closed other than by its end. *)
Inductive vstale : sop -> sevent -> Prop :=
  | vs_headers si ct hs fin : ct <> DoneWith -> vstale (JRecvClosed si ct) (VHeaders si hs fin)
  | vs_readable si ct : ct <> DoneWith -> vstale (JRecvClosed si ct) (VReadable si).

Definition sevent_dec (a b : sevent) : {a = b} + {a <> b}.
Proof. repeat decide equality. Defined.
Definition vtimes (e : sevent) (l : list sevent) : nat := count_occ sevent_dec l e.
Definition vtold (t : list (sop * option sevent)) : list sevent := flat_map (fun p => match snd p with Some e => [e] | None => [] end) t.
(** What a history said. *)
Inductive vsaid : list (sop * option sevent) -> list sevent -> Prop :=
  | vsaid_nil : vsaid [] []
  | vsaid_cons o x t n l : brings o n -> vsaid t l -> vsaid ((o, x) :: t) (n ++ l).
Definition vnever (e : sevent) (t : list (sop * option sevent)) : Prop := forall o x, In (o, x) t -> ~ vstale o e.
Definition vsince (e : sevent) (t1 t2 : list (sop * option sevent)) : Prop :=
  (t1 = [] /\ vnever e t2) \/ (exists o x t, t2 = (o, x) :: t /\ vstale o e /\ vnever e t).
(** News that never becomes stale. *)
Definition vlasting (e : sevent) : bool := match e with VHeaders _ _ _ | VReadable _ => false | _ => true end.
