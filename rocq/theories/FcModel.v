(** Flow control: neqo-transport/src/fc.rs, stream_id.rs, and the parts of streams.rs that
    allocate stream identifiers. *)
From Verif Require Import Base CodecModel.

(** u64 arithmetic that panics on overflow (debug builds and overflow-checks). *)
Definition chk (x : N) : option N := if x <? 2 ^ 64 then Some x else None.
Definition csub (a b : N) : option N := if b <=? a then Some (a - b) else None.

(** * SenderFlowControl *)

(** fc.rs:64-81 [SenderFlowControl]; the subject only selects the frame type. *)
Record sfc := mkS { sf_limit : N; sf_used : N; sf_blocked_at : option N; sf_frame : bool }.

(** fc.rs:88-96 [new]. *)
Definition sfc_new (initial : N) : sfc := mkS initial 0 None false.
(** fc.rs:116-119 [available]; usize is 64 bits. *)
Definition sfc_available (s : sfc) : N := N.min (sf_limit s - sf_used s) (2 ^ 64 - 1).
(** fc.rs:100-106 [update]. *)
Definition sfc_update (l : N) (s : sfc) : sfc * option N :=
  if sf_limit s <? l
  then let s' := mkS l (sf_used s) (sf_blocked_at s) false in (s', Some (sfc_available s'))
  else (s, None).
(** fc.rs:109-113 [consume]; [None]: the [debug_assert!]. *)
Definition sfc_consume (n : N) (s : sfc) : option sfc :=
  if sf_used s + n <=? sf_limit s then Some (mkS (sf_limit s) (sf_used s + n) (sf_blocked_at s) (sf_frame s)) else None.
(** fc.rs:128-136 [blocked]. *)
Definition sfc_blocked (s : sfc) : sfc :=
  let set := mkS (sf_limit s) (sf_used s) (Some (sf_limit s)) true in
  match sf_blocked_at s with
  | Some b => if sf_limit s <=? b then s else set
  | None => set
  end.
(** fc.rs:142-145 [blocked_needed]. *)
Definition sfc_blocked_needed (s : sfc) : option N :=
  match sf_blocked_at s with
  | Some l => if sf_frame s && (sf_limit s <=? l) then Some l else None
  | None => None
  end.
(** fc.rs:153-155 [blocked_sent]. *)
Definition sfc_sent (s : sfc) : sfc := mkS (sf_limit s) (sf_used s) (sf_blocked_at s) false.
(** fc.rs:160-166 [frame_lost]. *)
Definition sfc_lost (l : N) (s : sfc) : sfc :=
  match sf_blocked_at s with
  | Some b => if b =? l then mkS (sf_limit s) (sf_used s) (sf_blocked_at s) true else s
  | None => s
  end.
(** fc.rs:170-188, 190-214, 216-243 [write_frames]: [fits] is what [write_varint_frame]
    returned (see FrameProps.control_frames_written_iff_fit). *)
Definition sfc_write (fits : bool) (s : sfc) : sfc * option N :=
  match sfc_blocked_needed s with
  | Some l => if fits then (sfc_sent s, Some l) else (s, None)
  | None => (s, None)
  end.

Inductive sop := SUpdate (l : N) | SConsume (n : N) | SBlocked | SWrite (fits : bool) | SLost (l : N).
Definition sstep (s : sfc) (o : sop) : option (sfc * option N) :=
  match o with
  | SUpdate l => Some (fst (sfc_update l s), None)
  | SConsume n => match sfc_consume n s with Some s' => Some (s', None) | None => None end
  | SBlocked => Some (sfc_blocked s, None)
  | SWrite fits => Some (sfc_write fits s)
  | SLost l => Some (sfc_lost l s, None)
  end.
(** The frames written, in order. *)
Fixpoint sruns (s : sfc) (ops : list sop) : option (sfc * list N) :=
  match ops with
  | [] => Some (s, [])
  | o :: r =>
      match sstep s o with
      | None => None
      | Some (s', f) =>
          match sruns s' r with
          | None => None
          | Some (s'', fs) => Some (s'', (match f with Some l => [l] | None => [] end) ++ fs)
          end
      end
  end.

(** * ReceiverFlowControl *)

(** fc.rs:246-271 [ReceiverFlowControl]; times are in nanoseconds. *)
Record rfc := mkR { rf_max_active : N; rf_max_allowed : N; rf_last : option N; rf_consumed : N; rf_retired : N; rf_pending : bool }.
Inductive rkind := RConn | RStream | RTypes.

(** fc.rs:278-288 [new]. *)
Definition rfc_new (max : N) : rfc := mkR max max None 0 0 false.
Definition with_pending (p : bool) (s : rfc) : rfc :=
  mkR (rf_max_active s) (rf_max_allowed s) (rf_last s) (rf_consumed s) (rf_retired s) p.
Definition with_active (m : N) (s : rfc) : rfc :=
  mkR m (rf_max_allowed s) (rf_last s) (rf_consumed s) (rf_retired s) (rf_pending s).

(** fc.rs:305-309 [send_flowc_update]; [None]: overflow. *)
Definition rfc_flowc_update (s : rfc) : option rfc :=
  match chk (rf_retired s + rf_max_active s) with
  | None => None
  | Some x => Some (if rf_max_allowed s <? x then with_pending true s else s)
  end.
(** fc.rs:311-314 [should_send_update]; WINDOW_UPDATE_FRACTION = 4 (fc.rs:38). *)
Definition rfc_should_send (s : rfc) : option bool :=
  match csub (rf_max_allowed s) (rf_retired s) with
  | None => None
  | Some unused => Some (unused <? rf_max_active s - rf_max_active s / 4)
  end.
(** fc.rs:320-327 [next_limit]. *)
Definition rfc_next_limit (s : rfc) : option N :=
  match chk (rf_retired s + rf_max_active s) with None => None | Some x => Some (N.min x MAX_VARINT) end.
(** fc.rs:333-337 [frame_lost]. *)
Definition rfc_lost (v : N) (s : rfc) : rfc := if v =? rf_max_allowed s then with_pending true s else s.
(** fc.rs:344-348 [set_max_active]. *)
Definition rfc_set_max (m : N) (s : rfc) : rfc :=
  with_active m (with_pending (rf_pending s || (rf_max_active s <? m)) s).

(** connection/params.rs:82-87. *)
Definition MAX_LOCAL_MAX_STREAM_DATA : N := 10 * 1024 * 1024.
Definition MAX_LOCAL_MAX_DATA : N := MAX_LOCAL_MAX_STREAM_DATA * 2.

(** fc.rs:363-447 [auto_tune_inner]. *)
Definition auto_tune (now rtt max_window : N) (s : rfc) : option rfc :=
  match rf_last s with
  | None => Some s
  | Some last =>
      let elapsed := (now - last) / 1000 in
      let r := rtt / 1000 in
      if negb (elapsed <? 2 ^ 64) then Some s
      else if negb (r <? 2 ^ 64) || (r =? 0) then Some s
      else
        match chk (rf_max_active s * 3) with None => None | Some x =>
        match chk (x / 4 * elapsed) with None => None | Some y =>
        let expected := y / r in
        match csub (rf_max_allowed s) (rf_retired s) with None => None | Some unused =>
        match csub (rf_max_active s) unused with None => None | Some used =>
        if used <? expected then Some s
        else
          match chk ((used - expected) * 4) with None => None | Some z =>
          match chk (rf_max_active s + z) with None => None | Some w =>
          let m := N.min w max_window in
          if m <=? rf_max_active s then Some s else Some (with_active m s)
          end end end end end end
  end.

(** fc.rs:451-473, 510-537, 575-600 [write_frames]. *)
Definition rfc_write (k : rkind) (now rtt : N) (fits : bool) (s : rfc) : option (rfc * option N) :=
  if negb (rf_pending s) then Some (s, None)
  else
    match (match k with
           | RConn => auto_tune now rtt MAX_LOCAL_MAX_DATA s
           | RStream => auto_tune now rtt MAX_LOCAL_MAX_STREAM_DATA s
           | RTypes => Some s
           end) with
    | None => None
    | Some s1 =>
        match rfc_next_limit s1 with
        | None => None
        | Some v =>
            if fits
            then Some (mkR (rf_max_active s1) v (match k with RTypes => rf_last s1 | _ => Some now end)
                           (rf_consumed s1) (rf_retired s1) false, Some v)
            else Some (s1, None)
        end
    end.

(** fc.rs:488-494, 554-560, 610-615 [add_retired]. *)
Definition rfc_retire (k : rkind) (n : N) (s : rfc) : option rfc :=
  match k with
  | RTypes =>
      match chk (rf_retired s + n) with
      | None => None
      | Some x =>
          let s' := mkR (rf_max_active s) (rf_max_allowed s) (rf_last s) (rf_consumed s) x (rf_pending s) in
          if 0 <? n then rfc_flowc_update s' else Some s'
      end
  | _ =>
      if rf_consumed s <? rf_retired s + n then None
      else
        let s' := mkR (rf_max_active s) (rf_max_allowed s) (rf_last s) (rf_consumed s) (rf_retired s + n) (rf_pending s) in
        match rfc_should_send s' with
        | None => None
        | Some true => Some (with_pending true s')
        | Some false => Some s'
        end
  end.

(** fc.rs:496-507 [consume] (a count of new bytes) and 562-573 [set_consumed] (a new largest
    offset).  [Some (_, None)]: FLOW_CONTROL_ERROR. *)
Definition rfc_consume (k : rkind) (n : N) (s : rfc) : option (rfc * option N) :=
  match k with
  | RStream =>
      if n <=? rf_consumed s then Some (s, Some 0)
      else if rf_max_allowed s <? n then Some (s, None)
      else Some (mkR (rf_max_active s) (rf_max_allowed s) (rf_last s) n (rf_retired s) (rf_pending s), Some (n - rf_consumed s))
  | _ =>
      match chk (rf_consumed s + n) with
      | None => None
      | Some x =>
          if rf_max_allowed s <? x then Some (s, None)
          else Some (mkR (rf_max_active s) (rf_max_allowed s) (rf_last s) x (rf_retired s) (rf_pending s), Some n)
      end
  end.

Inductive rop :=
| RConsume (n : N) | RRetire (n : N) | RBlocked
| RWrite (now rtt : N) (fits : bool) | RLost (v : N) | RSetMax (m : N).
Inductive rout := RAccept (n : N) | RReject | RFrame (v : N) | RQuiet.

Definition rstep (k : rkind) (s : rfc) (o : rop) : option (rfc * rout) :=
  match o with
  | RConsume n =>
      match rfc_consume k n s with
      | None => None
      | Some (s', Some a) => Some (s', RAccept a)
      | Some (s', None) => Some (s', RReject)
      end
  | RRetire n => match rfc_retire k n s with Some s' => Some (s', RQuiet) | None => None end
  | RBlocked => match rfc_flowc_update s with Some s' => Some (s', RQuiet) | None => None end
  | RWrite now rtt fits =>
      match rfc_write k now rtt fits s with
      | None => None
      | Some (s', Some v) => Some (s', RFrame v)
      | Some (s', None) => Some (s', RQuiet)
      end
  | RLost v => Some (rfc_lost v s, RQuiet)
  | RSetMax m => Some (rfc_set_max m s, RQuiet)
  end.
Fixpoint rruns (k : rkind) (s : rfc) (ops : list rop) : option (rfc * list rout) :=
  match ops with
  | [] => Some (s, [])
  | o :: r =>
      match rstep k s o with
      | None => None
      | Some (s', out) =>
          match rruns k s' r with
          | None => None
          | Some (s'', outs) => Some (s'', out :: outs)
          end
      end
  end.

(** * Stream identifiers *)

(** stream_id.rs:17-20: the discriminant of [StreamType]; 113-118 [role_bit]. *)
Inductive stype := BiDi | UniDi.
Definition stype_num (t : stype) : N := match t with BiDi => 0 | UniDi => 2 end.
Inductive role := Client | Server.
Definition role_bit (r : role) : N := match r with Client => 0 | Server => 1 end.
Definition remote_of (r : role) : role := match r with Client => Server | Server => Client end.
(** stream_id.rs:41-43 [is_bidi], 60-62 [is_client_initiated], 79-85 [is_self_initiated]. *)
Definition is_bidi (id : N) : bool := N.land id 2 =? 0.
Definition is_client_initiated (id : N) : bool := N.land id 1 =? 0.
Definition is_self_initiated (r : role) (id : N) : bool :=
  match r with Client => is_client_initiated id | Server => negb (is_client_initiated id) end.
Definition stream_type (id : N) : stype := if is_bidi id then BiDi else UniDi.

(** fc.rs:701-714 [LocalStreamLimits::take_stream_id] for one type. *)
Definition take_local (t : stype) (r : role) (s : sfc) : option (sfc * option N) :=
  if 0 <? sfc_available s then
    match sfc_consume 1 s with
    | Some s' => Some (s', Some (N.shiftl (sf_used s) 2 + stype_num t + role_bit r))
    | None => None
    end
  else Some (sfc_blocked s, None).

(** Opening streams and MAX_STREAMS from the peer (streams.rs:583-592, 610-617). *)
Inductive lop := LOpen | LMaxStreams (l : N).
Fixpoint lruns (t : stype) (r : role) (s : sfc) (ops : list lop) : option (sfc * list (option N)) :=
  match ops with
  | [] => Some (s, [])
  | LOpen :: more =>
      match take_local t r s with
      | None => None
      | Some (s', id) =>
          match lruns t r s' more with
          | None => None
          | Some (s'', ids) => Some (s'', id :: ids)
          end
      end
  | LMaxStreams l :: more => lruns t r (fst (sfc_update l s)) more
  end.

(** fc.rs:618-652 [RemoteStreamLimit]. *)
Record rsl := mkL { rl_fc : rfc; rl_next : N }.
Definition rsl_new (t : stype) (max : N) (r : role) : rsl := mkL (rfc_new max) (stype_num t + role_bit (remote_of r)).
Definition rsl_allowed (id : N) (s : rsl) : bool := N.shiftr id 2 <? rf_max_allowed (rl_fc s).
Definition rsl_is_new (id : N) (s : rsl) : option bool := if rsl_allowed id s then Some (rl_next s <=? id) else None.
Definition rsl_take (s : rsl) : option (rsl * N) :=
  match chk (rl_next s + 4) with
  | None => None
  | Some n => if rsl_allowed (rl_next s) s then Some (mkL (rl_fc s) n, rl_next s) else None
  end.
Inductive ores := OCreated (ids : list N) | OStreamLimit.
(** streams.rs:417-476 [ensure_created_if_remote] for a remote-initiated identifier of the
    type of [s]: the identifiers of the streams created.  Outer [None]: panic. *)
Fixpoint rsl_create (fuel : nat) (id : N) (s : rsl) : option (rsl * ores) :=
  match fuel with
  | O => None
  | S f =>
      match rsl_is_new id s with
      | None => Some (s, OStreamLimit)
      | Some false => Some (s, OCreated [])
      | Some true =>
          match rsl_take s with
          | None => None
          | Some (s', n) =>
              match rsl_create f id s' with
              | Some (s'', OCreated l) => Some (s'', OCreated (n :: l))
              | x => x
              end
          end
      end
  end.
Definition rsl_obtain (id : N) (s : rsl) : option (rsl * ores) := rsl_create (S (N.to_nat (id + 4 - rl_next s))) id s.

Inductive mop := MFrame (id : N) | MRetire (n : N) | MWrite (fits : bool) | MLost (v : N).
Inductive mout := MCreated (ids : list N) | MLimit | MSent (v : N) | MQuiet.
Definition mstep (s : rsl) (o : mop) : option (rsl * mout) :=
  match o with
  | MFrame id =>
      match rsl_obtain id s with
      | None => None
      | Some (s', OCreated l) => Some (s', MCreated l)
      | Some (s', OStreamLimit) => Some (s', MLimit)
      end
  | MRetire n => match rfc_retire RTypes n (rl_fc s) with Some f => Some (mkL f (rl_next s), MQuiet) | None => None end
  | MWrite fits =>
      match rfc_write RTypes 0 0 fits (rl_fc s) with
      | None => None
      | Some (f, Some v) => Some (mkL f (rl_next s), MSent v)
      | Some (f, None) => Some (mkL f (rl_next s), MQuiet)
      end
  | MLost v => Some (mkL (rfc_lost v (rl_fc s)) (rl_next s), MQuiet)
  end.
Fixpoint mruns (s : rsl) (ops : list mop) : option (rsl * list mout) :=
  match ops with
  | [] => Some (s, [])
  | o :: r =>
      match mstep s o with
      | None => None
      | Some (s', out) =>
          match mruns s' r with
          | None => None
          | Some (s'', outs) => Some (s'', out :: outs)
          end
      end
  end.
