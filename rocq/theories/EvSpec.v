(** What an application may expect of events, from what happened on the connection. *)
From Coq Require Import NArith List Bool.
From Verif Require Import EvModel.
Import ListNotations.
Open Scope N_scope.

(** The news an operation brings. *)
Definition news (o : vop) : option event :=
  match o with
  | OAuth => Some EAuth | OEch n => Some (EEch n) | ONewStream id => Some (ENew id) | OReadable id => Some (EReadable id)
  | OReset id e => Some (EReset id e) | OWritable id => Some (EWritable id) | OStop id e => Some (EStop id e)
  | OSendComplete id => Some (EComplete id) | OCreatable b => Some (ECreatable b) | OState s => Some (EState s) | OToken t => Some (EToken t)
  | ORejected => Some ERejected | OScone r => Some (EScone r) | ODatagram d => Some (EDatagram d) | OOutcome (Some id) x => Some (EOutcome id x)
  | OPath l r => Some (EPath l r) | ORecvComplete _ | OOutcome None _ | OPoll => None
  end.
(** The news an operation makes stale: a reset or finished stream is no longer readable, a stopped one no longer writable, a
    completed one neither writable nor stopped; a rate replaces the rate before; closing, and the refusal of early data,
    replace everything. *)
Inductive stale : vop -> event -> Prop :=
  | st_reset id err : stale (OReset id err) (EReadable id)
  | st_done id : stale (ORecvComplete id) (EReadable id)
  | st_stop id err : stale (OStop id err) (EWritable id)
  | st_complete id : stale (OSendComplete id) (EWritable id)
  | st_complete' id err : stale (OSendComplete id) (EStop id err)
  | st_scone r r' : stale (OScone r) (EScone r')
  | st_closing c e : stale (OState (SClosing c)) e
  | st_closed c e : stale (OState (SClosed c)) e
  | st_rejected e : stale ORejected e.
(** Two events say the same: they are equal, or a reset (a stop) of the same stream. *)
Definition same (a b : event) : Prop :=
  a = b \/ (exists id x y, a = EReset id x /\ b = EReset id y) \/ (exists id x y, a = EStop id x /\ b = EStop id y).
(** Datagrams and their outcomes are each told, even if alike. *)
Definition each (e : event) : bool := match e with EDatagram _ | EOutcome _ _ => true | _ => false end.

(** An event is due: something said it, and since then it has been neither told nor made stale. *)
Definition due (e : event) (t : list (vop * option event)) : Prop :=
  exists t1 o x t2 e', t = t1 ++ (o, x) :: t2 /\ news o = Some e' /\ same e e' /\
    forall o' x', In (o', x') t2 -> ~ stale o' e /\ (forall e'', x' = Some e'' -> ~ same e e'').
Definition told_events (t : list (vop * option event)) : list event := flat_map (fun p => match snd p with Some e => [e] | None => [] end) t.
Definition said_events (ops : list vop) : list event := flat_map (fun o => match news o with Some e => [e] | None => [] end) ops.
Definition wipes (o : vop) : Prop := match o with OState (SClosing _) | OState (SClosed _) | ORejected => True | _ => False end.
