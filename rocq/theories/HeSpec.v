(** What the application of an HTTP/3 client may expect of events, from what happened on the connection. *)
From Coq Require Import NArith List Bool.
From Verif Require Import HeModel.
Import ListNotations.
Open Scope N_scope.

(** The news a call brings. *)
Definition hnews (o : hop) : list hevent :=
  match o with
  | KHeader id h i f => [EHeader id h i f] | KReadable id => [EReadable id] | KWritable id => [EWritable id]
  | KRecvClosed id (ResetRemote e) => [EReset id e false] | KRecvClosed id (LocalError e) => [EReset id e true] | KRecvClosed _ _ => []
  | KSendClosed id (ResetRemote e) => [EStop id e] | KSendClosed _ _ => []
  | KStart k id s h => [ESession k id s h] | KEnd k id r h => [ESessionEnd k id r h]
  | KStream id (Some s) emit => EStream id s :: (if emit then [EReadable id] else []) | KStream _ None _ => []
  | KDatagram k s d => [EDatagram k s d] | KPromise pid id h => [EPromise pid id h] | KPushHeader pid h i f => [EPushHeader pid h i f]
  | KPushReadable pid => [EPushReadable pid] | KCanceled pid => [ECanceled pid] | KPushReset pid e => [EPushReset pid e]
  | KCreatable b => if b then [ECreatable] else [] | KAuth => [EAuth] | KEch n => [EEch n] | KToken t => [EToken t] | KRejected => [ERejected]
  | KGoaway => [EGoaway] | KState s => [EState s] | KNegotiated k b => [ENegotiated k b] | KDraining id => [EDraining id]
  | KForget _ | KPoll => []
  end.
(** News of what a stream receives; news of what may be sent on it; news of a push. *)
Definition receives (id : N) (e : hevent) : Prop :=
  match e with EHeader x _ _ _ | EPromise _ x _ | EReadable x | EReset x _ _ => x = id | _ => False end.
Definition sends (id : N) (e : hevent) : Prop := match e with EWritable x | EStop x _ => x = id | _ => False end.
Definition pushes (pid : N) (e : hevent) : Prop :=
  match e with EPromise x _ _ | EPushHeader x _ _ _ | EPushReadable x | ECanceled x => x = pid | _ => False end.
(** News that carries headers. *)
Definition carries (e : hevent) : Prop := match e with EHeader _ _ _ _ | EPromise _ _ _ => True | _ => False end.
Definition closes (o : hop) : Prop := match o with KState (SClosing _) | KState (SClosed _) => True | _ => False end.

(** The news a call makes stale. *)
Inductive hstale : hop -> hevent -> Prop :=
  | st_abandoned id err e : receives id e -> hstale (KRecvClosed id (ResetApp err)) e
  | st_failed id err e : receives id e -> hstale (KRecvClosed id (LocalError err)) e
  | st_reset id err e : receives id e -> ~ carries e -> hstale (KRecvClosed id (ResetRemote err)) e
  | st_sent id ct e : sends id e -> hstale (KSendClosed id ct) e
  | st_canceled pid e : pushes pid e -> hstale (KCanceled pid) e
  | st_pushreset pid err e : pushes pid e -> hstale (KPushReset pid err) e
  | st_forget pid e : pushes pid e -> hstale (KForget pid) e
  | st_goaway : hstale KGoaway ECreatable
  | st_connected : hstale (KState SConn) (EState SZeroRtt)
  | st_closes o e : closes o -> hstale o e.

Definition hevent_dec (a b : hevent) : {a = b} + {a <> b}.
Proof. repeat decide equality. Defined.
(** How often something is in a list; what was told, and what was said, in a piece of history. *)
Definition times (e : hevent) (l : list hevent) : nat := count_occ hevent_dec l e.
Definition htold (t : list (hop * option hevent)) : list hevent := flat_map (fun p => match snd p with Some e => [e] | None => [] end) t.
Definition hsaid (t : list (hop * option hevent)) : list hevent := flat_map (fun p => hnews (fst p)) t.
Definition never_stale (e : hevent) (t : list (hop * option hevent)) : Prop := forall o x, In (o, x) t -> ~ hstale o e.
(** [t2] is the history since [e] was last made stale: all of it if it never was, else it begins with the call that did. *)
Definition since (e : hevent) (t1 t2 : list (hop * option hevent)) : Prop :=
  (t1 = [] /\ never_stale e t2) \/ (exists o x t, t2 = (o, x) :: t /\ hstale o e /\ never_stale e t).
(** [a] is [b] with some elements left out. *)
Inductive leaves_out {A} : list A -> list A -> Prop :=
  | lo_nil : leaves_out [] []
  | lo_keep x a b : leaves_out a b -> leaves_out (x :: a) (x :: b)
  | lo_drop x a b : leaves_out a b -> leaves_out a (x :: b).
(** News that only closing makes stale. *)
Definition lasting (e : hevent) : bool :=
  match e with
  | EHeader _ _ _ _ | EPromise _ _ _ | EReadable _ | EReset _ _ _ | EWritable _ | EStop _ _ | EPushHeader _ _ _ _ | EPushReadable _ | ECanceled _ | ECreatable
  | EState SZeroRtt => false
  | _ => true
  end.
