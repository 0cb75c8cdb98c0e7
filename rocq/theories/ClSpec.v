(** What C40, C81 and C82 say, over the calls made and what the caller sees. *)
From Verif Require Import Base Lib ClModel.
Open Scope N_scope.
Open Scope list_scope.
Import ListNotations.

(** How far closing has come: not at all, closing, draining, closed. *)
Definition stage (s : state) : N := match s with SClosing _ _ => 1 | SDraining _ _ => 2 | SClosed _ => 3 | _ => 0 end.
(** The progress of the handshake, then of closing. *)
Definition progress (s : state) : N :=
  match s with
  | SInit => 0 | SWaitInitial => 1 | SWaitVersion => 2 | SHandshaking => 3 | SConnected => 4 | SConfirmed => 5
  | _ => 5 + stage s
  end.
(** Why a connection closed. *)
Definition reason_of (s : state) : option reason := match s with SClosing r _ | SDraining r _ | SClosed r => Some r | _ => None end.
(** States reported, in order; CONNECTION_CLOSE frames sent, in order. *)
Definition reported (xs : list out) : list state := flat_map (fun x => match x with OState s => [s] | _ => [] end) xs.
Definition closes (xs : list out) : list cframe := flat_map (fun x => match x with OClose f => [f] | _ => [] end) xs.
(** Something is sent. *)
Definition sends (x : out) : bool := match x with OClose _ | OData | ODone => true | _ => false end.
(** Numbers that never decrease. *)
Fixpoint climbs (l : list N) : Prop :=
  match l with
  | a :: (b :: _) as r => a <= b /\ climbs r
  | _ => True
  end.
(** Kinds of calls. *)
Definition is_close (o : op) : bool := match o with KClose _ _ _ => true | _ => false end.
Definition is_input (o : op) : bool := match o with KInput _ _ _ _ => true | _ => false end.
Definition is_lost (o : op) : bool := match o with KLostDone => true | _ => false end.
Definition idle_timer (o : op) : bool := match o with KTimer _ true _ _ _ => true | _ => false end.
Definition counts {A} (f : A -> bool) (l : list A) : N := lenN (filter f l).
Definition is_done (x : out) : bool := match x with ODone => true | _ => false end.
(** Packets of a datagram for which the keys are gone. *)
Definition stale (p : packet) : bool := match p with PPacket _ PDiscarded => true | _ => false end.
Definition stale_in (os : list op) : N := counts stale (flat_map (fun o => match o with KInput _ _ _ ps => ps | _ => [] end) os).
(** No CRYPTO frame of a packet completes TLS after a CONNECTION_CLOSE of the same packet. *)
Fixpoint no_tls_after (closed : bool) (fs : list feff) : bool :=
  match fs with
  | [] => true
  | FClose _ _ :: r => no_tls_after true r
  | FTlsDone :: r => negb closed && no_tls_after closed r
  | _ :: r => no_tls_after closed r
  end.
Definition tidy_packet (p : packet) : bool := match p with PPacket _ (POpened fs _) => no_tls_after false fs | _ => true end.
Definition tidy (o : op) : bool :=
  match o with
  | KInput _ _ _ ps => forallb tidy_packet ps
  | KTls _ complete _ => negb complete
  | _ => true
  end.
