(** Server push at a client: neqo-http3/src/push_controller.rs and the event queue it posts to (client_events.rs). *)
From Verif Require Import Base Lib.
Open Scope N_scope.
Open Scope list_scope.
Import ListNotations.

(** client_events.rs 96-115, the push events. Header lists are only compared and handed on: they are numbers here. *)
Inductive pev :=
| EvPromise (id req hs : N)
| EvHeaders (id hs : N) (interim fin : bool)
| EvData (id : N)
| EvCanceled (id : N)
| EvReset (id err : N).
(** push_controller.rs 36-50 [PushState]. *)
Inductive pst := PInit | PPromise (hs : N) | POnly (sid : N) (evs : list pev) | PActive (sid hs : N) | PClosed.
(** Frames queued on the control stream. *)
Inductive pframe := FMaxPush (id : N) | FCancel (id : N).
Inductive perr := EHttpId | EGeneral | EInvalidStream.
(** What a call returns. *)
Inductive pout := POk | PStream (taken : bool) | PReads (sid : option N) | PErr (e : perr).
(** 57-60 [ActivePushStreams] and 142-153 [PushController]; [c_posted] (every event ever inserted) and [c_frames] (every frame queued)
    are histories that the code does not keep. *)
Record ctl := mkC { c_max : N; c_cur : N; c_first : N; c_q : list pst; c_events : list pev; c_posted : list pev; c_frames : list pframe }.
(** 162-170 [new] *)
Definition c_new (max : N) : ctl := mkC max 0 0 [] [] [] [].
Definition with_q (c : ctl) (first : N) (q : list pst) : ctl := mkC (c_max c) (c_cur c) first q (c_events c) (c_posted c) (c_frames c).
Definition with_events (c : ctl) (es : list pev) : ctl := mkC (c_max c) (c_cur c) (c_first c) (c_q c) es (c_posted c) (c_frames c).
(** client_events.rs 363-365 [insert] *)
Definition post (c : ctl) (e : pev) : ctl := mkC (c_max c) (c_cur c) (c_first c) (c_q c) (c_events c ++ [e]) (c_posted c ++ [e]) (c_frames c).
Definition send_frame (c : ctl) (f : pframe) : ctl := mkC (c_max c) (c_cur c) (c_first c) (c_q c) (c_events c) (c_posted c) (c_frames c ++ [f]).
(** client_events.rs 432-440 [remove_events_for_push_id]: resets are not removed. *)
Definition ev_removed (id : N) (e : pev) : bool :=
  match e with EvPromise x _ _ | EvHeaders x _ _ _ | EvData x | EvCanceled x => x =? id | EvReset _ _ => false end.
Definition remove_events (c : ctl) (id : N) : ctl := with_events c (filter (fun e => negb (ev_removed id e)) (c_events c)).
(** client_events.rs 423-430 [has_push] *)
Definition has_push (c : ctl) (id : N) : bool := existsb (fun e => match e with EvPromise x _ _ => x =? id | _ => false end) (c_events c).
(** client_events.rs 320-328 *)
Definition push_canceled (c : ctl) (id : N) : ctl := post (remove_events c id) (EvCanceled id).
Definition push_reset (c : ctl) (id err : N) : ctl := post (remove_events c id) (EvReset id err).

Definition resize (q : list pst) (n : nat) : list pst := q ++ repeat PInit (n - length q).
Fixpoint set_nth (q : list pst) (i : nat) (v : pst) : list pst :=
  match q, i with [], _ => [] | _ :: q', O => v :: q' | x :: q', S i' => x :: set_nth q' i' v end.
Definition inx (c : ctl) (id : N) : nat := N.to_nat (id - c_first c).
(** 73-90 [get_mut]: extends the queue, and returns the state unless closed. *)
Definition touch (c : ctl) (id : N) : ctl := if id <? c_first c then c else with_q c (c_first c) (resize (c_q c) (S (inx c id))).
Definition p_get (c : ctl) (id : N) : option pst :=
  if id <? c_first c then None else match nth (inx c id) (c_q c) PInit with PClosed => None | v => Some v end.
Definition p_set (c : ctl) (id : N) (v : pst) : ctl := with_q c (c_first c) (set_nth (c_q c) (inx c id) v).
(** 98-110 [ActivePushStreams::close] *)
Fixpoint pop (first : N) (q : list pst) : N * list pst := match q with PClosed :: q' => pop (first + 1) q' | _ => (first, q) end.
Definition p_close (c : ctl) (id : N) : ctl := let c1 := p_set c id PClosed in let (f, q) := pop (c_first c1) (c_q c1) in with_q c1 f q.
(** 113-122 [number_done] *)
Definition is_closed (v : pst) : bool := match v with PClosed => true | _ => false end.
Definition number_done (c : ctl) : N := c_first c + lenN (filter is_closed (c_q c)).
(** 176-233 [new_push_promise]; 273-281 [check_push_id] *)
Definition new_push_promise (c : ctl) (id req hs : N) : ctl * pout :=
  if c_cur c <? id then (c, PErr EHttpId) else
  let c := touch c id in
  match p_get c id with
  | None => (c, POk)
  | Some PInit => (p_set (post c (EvPromise id req hs)) id (PPromise hs), POk)
  | Some (PPromise h) | Some (PActive _ h) => if negb (hs =? h) then (c, PErr EGeneral) else (post c (EvPromise id req hs), POk)
  | Some (POnly sid evs) => (p_set (fold_left post evs (post c (EvPromise id req hs))) id (PActive sid hs), POk)
  | Some PClosed => (c, POk)
  end.
(** 235-271 [add_new_push_stream], with connection_client.rs 1057-1059 [can_receive_push]. *)
Definition add_stream (c : ctl) (id sid : N) : ctl * pout :=
  if c_max c =? 0 then (c, PErr EHttpId) else
  if c_cur c <? id then (c, PErr EHttpId) else
  let c := touch c id in
  match p_get c id with
  | None => (c, PStream false)
  | Some PInit => (p_set c id (POnly sid []), PStream true)
  | Some (PPromise h) => (p_set c id (PActive sid h), PStream true)
  | Some _ => (c, PErr EHttpId)
  end.
(** 283-319 [handle_cancel_push] *)
Definition cancel_frame (c : ctl) (id : N) : ctl * pout :=
  if c_cur c <? id then (c, PErr EHttpId) else
  let c := touch c id in
  match p_get c id with
  | None => (c, POk)
  | Some PInit => (p_close c id, POk)
  | Some _ => (push_canceled (remove_events (p_close c id) id) id, POk)
  end.
(** 321-328 [close]; None is a failed debug assertion. *)
Definition stream_done (c : ctl) (id : N) : option (ctl * pout) :=
  let c := touch c id in
  match p_get c id with Some (PActive _ _) => Some (p_close c id, POk) | _ => None end.
(** 330-371 [cancel] *)
Definition app_cancel (c : ctl) (id : N) : ctl * pout :=
  if c_cur c <? id then (c, PErr EHttpId) else
  let c := touch c id in
  match p_get c id with
  | None => if has_push c id then (remove_events c id, POk) else (c, PErr EInvalidStream)
  | Some (PPromise _) => (p_close (send_frame (remove_events c id) (FCancel id)) id, POk)
  | Some (PActive _ _) => (p_close (remove_events c id) id, POk)
  | Some _ => (c, PErr EInvalidStream)
  end.
(** 373-396 [push_stream_reset]; the error is given if the reset is our own. *)
Definition stream_reset (c : ctl) (id : N) (own : option N) : option (ctl * pout) :=
  let c := touch c id in
  match p_get c id with
  | None => Some (c, POk)
  | Some (POnly _ _) => Some (p_close c id, POk)
  | Some (PActive _ _) =>
      let c := remove_events (p_close c id) id in
      Some (match own with Some e => push_reset c id e | None => push_canceled c id end, POk)
  | Some _ => None
  end.
(** 398-403 [get_active_stream_id] *)
Definition active_stream (c : ctl) (id : N) : ctl * pout :=
  let c := touch c id in (c, PReads (match p_get c id with Some (PActive sid _) => Some sid | _ => None end)).
(** 405-419 [maybe_send_max_push_id_frame]; None is an underflow, or an identifier that cannot be written. *)
Definition maybe_max_push (c : ctl) : option (ctl * pout) :=
  let done := number_done c in
  if c_max c =? 0 then Some (c, POk)
  else if c_cur c + 1 <? done then None
  else if c_cur c + 1 - done <=? c_max c / 2 then
    let v := done + c_max c - 1 in
    if 2 ^ 62 <=? v then None
    else Some (send_frame (mkC (c_max c) v (c_first c) (c_q c) (c_events c) (c_posted c) (c_frames c)) (FMaxPush v), POk)
  else Some (c, POk).
(** 433-449 [new_stream_event] *)
Definition stream_event (c : ctl) (id : N) (e : pev) : option (ctl * pout) :=
  let c := touch c id in
  match p_get c id with
  | Some (POnly sid evs) => Some (p_set c id (POnly sid (evs ++ [e])), POk)
  | Some (PActive _ _) => Some (post c e, POk)
  | _ => None
  end.
(** The calls. The last is the application taking the oldest event. [handle_zero_rtt_rejected] and [clear] (421-427) are not modelled. *)
Inductive pop_ :=
| OPromise (id req hs : N) | OStream (id sid : N) | OCancelFrame (id : N) | ODone (id : N) | OAppCancel (id : N) | OReset (id : N) (own : option N)
| ORead (id : N) | OMaxPush | OHeaders (id hs : N) (interim fin : bool) | OData (id : N) | OTake.
Definition p_step (c : ctl) (o : pop_) : option (ctl * pout) :=
  match o with
  | OPromise id req hs => Some (new_push_promise c id req hs)
  | OStream id sid => Some (add_stream c id sid)
  | OCancelFrame id => Some (cancel_frame c id)
  | ODone id => stream_done c id
  | OAppCancel id => Some (app_cancel c id)
  | OReset id own => stream_reset c id own
  | ORead id => Some (active_stream c id)
  | OMaxPush => maybe_max_push c
  | OHeaders id hs interim fin => stream_event c id (EvHeaders id hs interim fin)
  | OData id => stream_event c id (EvData id)
  | OTake => Some (with_events c (tl (c_events c)), POk)
  end.
Fixpoint p_run (c : ctl) (os : list pop_) : option ctl :=
  match os with [] => Some c | o :: os' => match p_step c o with Some (c', _) => p_run c' os' | None => None end end.
