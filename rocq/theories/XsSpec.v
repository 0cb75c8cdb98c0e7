(** What an application is told about an extended CONNECT session, independent of how the session is kept. *)
From Coq Require Import NArith List Bool.
From Verif Require Import Base XsModel.
Import ListNotations.
Open Scope N_scope.

(** The events of a history in order, and all that happened: answers and requests. *)
Definition told (log : list xlog) : list xevent := concat (map l_events log).
Definition asked (log : list xlog) : list xop := map l_op log.
Definition is_end (e : xevent) : bool := match e with XEnd _ => true | _ => false end.
Definition is_start (e : xevent) : bool := match e with XStart _ => true | _ => false end.
Definition ends (evs : list xevent) : nat := length (filter is_end evs).
(** The session is over as far as the application knows: it was told so, or it closed the session itself. *)
Definition over (log : list xlog) : Prop := (exists r, In (XEnd r) (told log)) \/ (exists e m ok d, In (OClose e m ok d) (asked log)).
(** The application may use the session: a server that accepted it at once, a client from the report of its start. *)
Definition open_since (server : bool) (evs : list xevent) : Prop := server = true \/ exists st, In (XStart st) evs.
(** The streams of the session that the application was told of, and those the peer opened. *)
Fixpoint announced (evs : list xevent) : list N :=
  match evs with [] => [] | XNewStream id _ :: r => id :: announced r | _ :: r => announced r end.
Fixpoint opened (os : list xop) : list N := match os with [] => [] | ORemote id :: r => id :: opened r | _ :: r => opened r end.
(** Stream identifiers name who opens the stream. *)
Definition named (server : bool) (o : xop) : Prop :=
  match o with ORemote id => N.testbit id 0 = negb server | OLocal id => N.testbit id 0 = server | _ => True end.
(** A peer that ends a session in one piece: CLOSE_SESSION only together with the end of the stream, nothing of that
    kind in the body of a refusal; and an application that leaves the ending to the peer. *)
Definition no_close (its : list xitem) : Prop := forall e m, ~ In (IClose e m) its.
Definition refuses (h : option xheaders) : Prop := exists b st, h = Some (mkXH false b (Some st)) /\ (st < 200 \/ 300 <= st).
Definition tidy (o : xop) : Prop :=
  match o with
  | OReceive h its fin =>
      (no_close its \/ exists r e m, its = r ++ [IClose e m] /\ no_close r /\ fin = true) /\ (refuses h -> no_close its /\ fin = false) /\
      (forall h', h = Some h' -> h_status h' <> None)
  | OClose _ _ _ _ | OCancel _ => False
  | _ => True
  end.
(** No stream arrives for a session that is over. *)
Definition no_late (log : list xlog) : Prop := forall l1 id ev a l2, log = l1 ++ mkXL (ORemote id) ev a :: l2 -> ~ over l1.
(** Streams of the session with a receiving, with a sending part, as opened and accepted in a history. *)
Definition has_recv (log : list xlog) (id : N) : Prop :=
  (exists ev, In (mkXL (ORemote id) ev (AFlag true)) log) \/ (exists ev, In (mkXL (OLocal id) ev AOk) log /\ N.testbit id 1 = false).
Definition has_send (log : list xlog) (id : N) : Prop :=
  (exists ev, In (mkXL (OLocal id) ev AOk) log) \/ (exists ev, In (mkXL (ORemote id) ev (AFlag true)) log /\ N.testbit id 1 = false).
