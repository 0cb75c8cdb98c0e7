(** The events an application polls: neqo-transport/src/events.rs 30-244. *)
From Coq Require Import NArith List Bool.
Import ListNotations.
Open Scope N_scope.

(** connection/state.rs [State]; a reason for closing is a number. *)
Inductive cstate := SInit | SWaitInitial | SWaitVersion | SHandshaking | SConnected | SConfirmed | SClosing (e : N) | SDraining (e : N) | SClosed (e : N).
(** 30-88 [ConnectionEvent]; names, tokens and datagrams are byte lists, an address is a number, the outcome of a datagram is a
    number, a SCONE rate is what [Option::from] (scone.rs 83-98, floating point) makes of the signal. *)
Inductive event :=
  | EAuth | EEch (name : list N) | ENew (id : N) | EWritable (id : N) | EReadable (id : N) | EReset (id err : N) | EStop (id err : N)
  | EComplete (id : N) | ECreatable (bidi : bool) | EState (s : cstate) | ERejected | EToken (t : list N) | EDatagram (d : list N)
  | EOutcome (id o : N) | EScone (rate : option N) | EPath (local remote : N).
Definition cstate_eq_dec (a b : cstate) : {a = b} + {a <> b}. Proof. decide equality; apply N.eq_dec. Defined.
Definition event_eq_dec (a b : event) : {a = b} + {a <> b}.
Proof.
  decide equality; try apply N.eq_dec; try apply bool_dec; try apply cstate_eq_dec; try (apply list_eq_dec; apply N.eq_dec).
  decide equality; apply N.eq_dec.
Defined.

(** 204-226 [insert]. *)
Definition already (e : event) (q : list event) : bool :=
  match e with
  | EStop id _ => existsb (fun x => match x with EStop i _ => i =? id | _ => false end) q
  | EReset id _ => existsb (fun x => match x with EReset i _ => i =? id | _ => false end) q
  | _ => if in_dec event_eq_dec e q then true else false
  end.
Definition insert (e : event) (q : list event) : list event := if already e q then q else q ++ [e].
(** 228-233 [remove]. *)
Definition remove (f : event -> bool) (q : list event) : list event := filter (fun x => negb (f x)) q.

(** 95-202: one operation for each method, and 243-245 [next_event]. *)
Inductive vop :=
  | OAuth | OEch (name : list N) | ONewStream (id : N) | OReadable (id : N) | OReset (id err : N) | OWritable (id : N) | OStop (id err : N)
  | OSendComplete (id : N) | OCreatable (bidi : bool) | OState (s : cstate) | OToken (t : list N) | ORejected | ORecvComplete (id : N)
  | OScone (rate : option N) | ODatagram (d : list N) | OOutcome (tracked : option N) (o : N) | OPath (local remote : N) | OPoll.

Definition v_step (q : list event) (o : vop) : option event * list event :=
  match o with
  | OAuth => (None, insert EAuth q)
  | OEch n => (None, insert (EEch n) q)
  | ONewStream id => (None, insert (ENew id) q)
  | OReadable id => (None, insert (EReadable id) q)
  | OReset id err => (* 113-121 *)
      (None, insert (EReset id err) (remove (fun x => match x with EReadable i => i =? id | _ => false end) q))
  | OWritable id => (None, insert (EWritable id) q)
  | OStop id err => (* 127-135 *)
      (None, insert (EStop id err) (remove (fun x => match x with EWritable i => i =? id | _ => false end) q))
  | OSendComplete id => (* 137-146 *)
      (None, insert (EComplete id) (remove (fun x => match x with EWritable i | EStop i _ => i =? id | _ => false end) q))
  | OCreatable b => (None, insert (ECreatable b) q)
  | OState s => (* 152-159 *)
      (None, insert (EState s) (match s with SClosing _ | SClosed _ => [] | _ => q end))
  | OToken t => (None, insert (EToken t) q)
  | ORejected => (None, insert ERejected []) (* 165-170 *)
  | ORecvComplete id => (None, remove (fun x => match x with EReadable i => i =? id | _ => false end) q) (* 172-175 *)
  | OScone r => (None, insert (EScone r) (remove (fun x => match x with EScone _ => true | _ => false end) q)) (* 177-180 *)
  | ODatagram d => (None, q ++ [EDatagram d]) (* 182-186 *)
  | OOutcome (Some id) o => (None, q ++ [EOutcome id o]) (* 188-198 *)
  | OOutcome None _ => (None, q)
  | OPath l r => (None, insert (EPath l r) q)
  | OPoll => match q with e :: r => (Some e, r) | [] => (None, []) end
  end.
Fixpoint v_run (q : list event) (ops : list vop) : list (vop * option event) * list event :=
  match ops with
  | [] => ([], q)
  | o :: r => let (x, q1) := v_step q o in let (t, q2) := v_run q1 r in ((o, x) :: t, q2)
  end.
