(** Sending part of a stream: neqo-transport/src/send_stream.rs, [TxBuffer] and [SendStream];
    streams.rs:566-577 for MAX_DATA. *)
From Verif Require Import Base CodecModel FrameModel FcModel RtModel.

(** send_stream.rs:43-104 [TransmissionPriority], [RetransmissionPriority] and their sum. *)
Inductive prio := PCritical | PImportant | PHigh | PNormal | PLow.
Inductive retx := XFixed (p : prio) | XSame | XHigher | XMuchHigher.
Definition prio_add (p : prio) (r : retx) : prio :=
  match r with
  | XFixed q => q
  | XSame => p
  | XHigher => match p with PCritical => PCritical | PImportant | PHigh => PImportant | PNormal => PHigh | PLow => PNormal end
  | XMuchHigher => match p with PCritical | PImportant => PCritical | PHigh | PNormal => PImportant | PLow => PHigh end
  end.
Definition prio_eqb (p q : prio) : bool :=
  match p, q with
  | PCritical, PCritical | PImportant, PImportant | PHigh, PHigh | PNormal, PNormal | PLow, PLow => true
  | _, _ => false
  end.
Definition oprio_eqb (p : option prio) (q : prio) : bool := match p with Some x => prio_eqb x q | None => false end.

(** * TxBuffer *)

(** send_stream.rs:463-469 [TxBuffer]; send_stream.rs:482: MAX_SIZE. *)
Record txb := mkTb { tb_buf : list N; tb_rt : rt }.
Definition MAX_SIZE : N := MAX_LOCAL_MAX_STREAM_DATA.
Definition tb_new : txb := mkTb [] rt_new.
(** send_stream.rs:576-591 [retired], [buffered], [avail], [used].  The truncated subtraction
    is exact: the buffer never has more than MAX_SIZE bytes (SsProps.stream_statistics). *)
Definition tb_retired (b : txb) : N := rt_acked (tb_rt b).
Definition tb_buffered (b : txb) : N := lenN (tb_buf b).
Definition tb_avail (b : txb) : N := MAX_SIZE - tb_buffered b.
Definition tb_used (b : txb) : N := tb_retired b + tb_buffered b.
(** send_stream.rs:490-497 [send]. *)
Definition tb_send (d : list N) (b : txb) : txb * N :=
  let can := N.min (MAX_SIZE - tb_buffered b) (lenN d) in
  (mkTb (tb_buf b ++ firstnN can d) (tb_rt b), can).
(** send_stream.rs:499-503 [first_unmarked_range]. *)
Definition tb_first (b : txb) : txb * option (N * option N) :=
  let '(r, (start, ml)) := rt_first_unmarked (tb_rt b) in
  (mkTb (tb_buf b) r, if start =? tb_retired b + tb_buffered b then None else Some (start, ml)).
(** send_stream.rs:505-517 [is_empty], [has_next_bytes], [has_next_bytes_before]. *)
Definition tb_has (b : txb) : txb * bool :=
  let '(b', x) := tb_first b in (b', match x with Some _ => true | None => false end).
Definition tb_has_before (limit : N) (b : txb) : txb * bool :=
  let '(b', x) := tb_first b in (b', match x with Some (start, _) => start <? limit | None => false end).
(** send_stream.rs:519-544 [next_bytes].  [sp] is where the VecDeque is split into two slices;
    it is arbitrary.  [None]: a subtraction or slice out of range, or a [debug_assert!]. *)
Definition tb_next (sp : N) (b : txb) : option (txb * option (N * list N)) :=
  match tb_first b with
  | (b', None) => Some (b', None)
  | (b', Some (start, ml)) =>
      match csub start (tb_retired b) with
      | None => None
      | Some off =>
          let n0 := N.min sp (tb_buffered b) in
          if tb_buffered b <? off then None
          else
            let slc := if off <? n0 then firstnN (n0 - off) (skipnN off (tb_buf b)) else skipnN off (tb_buf b) in
            let len := match ml with None => lenN slc | Some r => N.min r (lenN slc) end in
            if len =? 0 then None else Some (b', Some (start, firstnN len slc))
      end
  end.
(** send_stream.rs:546-548, 555-568 [mark_as_sent], [mark_as_acked], [mark_as_lost]. *)
Definition tb_sent (off len : N) (b : txb) : option txb :=
  match rt_mark_sent off len (tb_rt b) with Some r => Some (mkTb (tb_buf b) r) | None => None end.
Definition tb_acked (off len : N) (b : txb) : option txb :=
  let r := rt_mark_acked off len (tb_rt b) in
  match csub (rt_acked r) (tb_retired b) with
  | None => None
  | Some n => if n <=? tb_buffered b then Some (mkTb (skipnN n (tb_buf b)) r) else None
  end.
Definition tb_lost (off len : N) (b : txb) : option txb :=
  match rt_unmark off len (tb_rt b) with Some r => Some (mkTb (tb_buf b) r) | None => None end.

(** * SendStream *)

(** send_stream.rs:595-646 [State].  The connection-wide flow control is in the stream record. *)
Inductive sst :=
| StReady (fc : sfc)
| StSend (fc : sfc) (b : txb) (committed : N)
| StDataSent (b : txb) (fin_sent fin_acked : bool) (committed : N)
| StDataRecvd (retired written : N)
| StResetSent (err final reliable : N) (pr : option prio) (fretired fwritten : N)
| StResetRel (b : txb) (err final reliable : N) (pr : option prio) (racked : bool)
| StResetRecvd (fretired fwritten : N).

(** send_stream.rs:726-740 [SendStream]; send order, fairness and groups are in SchedModel. *)
Record ss := mkSs {
  ss_id : N; ss_st : sst; ss_conn : sfc; ss_pri : prio; ss_eff : prio;
  ss_retx : N; ss_bytes : N; ss_low : N }.
Definition with_st (st : sst) (s : ss) : ss :=
  mkSs (ss_id s) st (ss_conn s) (ss_pri s) (ss_eff s) (ss_retx s) (ss_bytes s) (ss_low s).
Definition with_conn (c : sfc) (s : ss) : ss :=
  mkSs (ss_id s) (ss_st s) c (ss_pri s) (ss_eff s) (ss_retx s) (ss_bytes s) (ss_low s).

Inductive ev := EvWritable | EvComplete.
Inductive tok := TkStream (off len : N) (fin : bool) | TkReset | TkBlocked (limit : N).

(** send_stream.rs:1405-1415 [avail], 662-674 [tx_avail]. *)
Definition ss_avail (s : ss) : N :=
  match ss_st s with
  | StReady fc => N.min (N.min (sfc_available fc) (sfc_available (ss_conn s))) MAX_SIZE
  | StSend fc b _ => N.min (N.min (sfc_available fc) (sfc_available (ss_conn s))) (tb_avail b)
  | _ => 0
  end.
(** send_stream.rs:1720-1735 [maybe_emit_writable_event]. *)
Definition ss_maybe_writable (prev cur : N) (s : ss) : list ev :=
  if (ss_low s <? prev) || (cur <? ss_low s) || (ss_avail s <? ss_low s) then [] else [EvWritable].

(** send_stream.rs:744-770 [new]. *)
Definition ss_new (id max : N) (conn : sfc) : ss * list ev :=
  let s := mkSs id (StReady (sfc_new max)) conn PNormal (prio_add PNormal XHigher) 0 0 1 in
  (s, if 0 <? ss_avail s then [EvWritable] else []).

(** send_stream.rs:851-858 [set_priority]. *)
Definition ss_set_priority (p : prio) (r : retx) (s : ss) : ss :=
  mkSs (ss_id s) (ss_st s) (ss_conn s) p (prio_add p r) (ss_retx s) (ss_bytes s) (ss_low s).
(** send_stream.rs:1420-1422 [set_writable_event_low_watermark]. *)
Definition ss_set_low (w : N) (s : ss) : ss :=
  mkSs (ss_id s) (ss_st s) (ss_conn s) (ss_pri s) (ss_eff s) (ss_retx s) (ss_bytes s) w.

(** send_stream.rs:872-880 [final_size], 893-915 [bytes_written], 918-929 [bytes_acked]. *)
Definition ss_final_size (s : ss) : option N :=
  match ss_st s with
  | StDataSent b _ _ _ => Some (tb_used b)
  | StResetSent _ f _ _ _ _ | StResetRel _ _ f _ _ _ => Some f
  | _ => None
  end.
Definition ss_written (s : ss) : N :=
  match ss_st s with
  | StReady _ => 0
  | StSend _ b _ | StDataSent b _ _ _ | StResetRel b _ _ _ _ _ => tb_used b
  | StDataRecvd r w | StResetSent _ _ _ _ r w | StResetRecvd r w => r + w
  end.
Definition ss_acked (s : ss) : N :=
  match ss_st s with
  | StReady _ => 0
  | StSend _ b _ | StDataSent b _ _ _ | StResetRel b _ _ _ _ _ => tb_retired b
  | StDataRecvd r _ | StResetSent _ _ _ _ r _ | StResetRecvd r _ => r
  end.
(** send_stream.rs:1435-1440 [is_ended]. *)
Definition ss_ended (s : ss) : bool :=
  match ss_st s with StDataRecvd _ _ | StResetRecvd _ _ => true | _ => false end.

(** send_stream.rs:932-964 [has_next_bytes]. *)
Definition ss_has_next (re : bool) (s : ss) : ss * bool :=
  match ss_st s with
  | StSend fc b c =>
      let '(b', x) := if re then tb_has_before (ss_retx s) b else tb_has b in (with_st (StSend fc b' c) s, x)
  | StDataSent b fs fa c => let '(b', x) := tb_has b in (with_st (StDataSent b' fs fa c) s, x || negb fs)
  | StResetRel b e f r p a =>
      let limit := if re then N.min (ss_retx s) r else r in
      let '(b', x) := tb_has_before limit b in (with_st (StResetRel b' e f r p a) s, x)
  | _ => (s, false)
  end.
(** send_stream.rs:969-1033 [next_bytes]. *)
Definition ss_next (re : bool) (sp : N) (s : ss) : option (ss * option (N * list N)) :=
  match ss_st s with
  | StSend fc b c =>
      match tb_next sp b with
      | None => None
      | Some (b', x) =>
          Some (with_st (StSend fc b' c) s,
            match x with
            | None => None
            | Some (o, d) =>
                if re then (if o <? ss_retx s then Some (o, firstnN (N.min (ss_retx s - o) (lenN d)) d) else None)
                else Some (o, d)
            end)
      end
  | StDataSent b fs fa c =>
      match tb_next sp b with
      | None => None
      | Some (b', x) =>
          Some (with_st (StDataSent b' fs fa c) s,
            match x with Some y => Some y | None => if fs then None else Some (tb_used b, []) end)
      end
  | StResetRel b e f r p a =>
      match tb_next sp b with
      | None => None
      | Some (b', x) =>
          let limit := if re then N.min (ss_retx s) r else r in
          Some (with_st (StResetRel b' e f r p a) s,
            match x with
            | None => None
            | Some (o, d) => if o <? limit then Some (o, firstnN (N.min (limit - o) (lenN d)) d) else None
            end)
      end
  | _ => Some (s, None)
  end.

(** Which of the stream's two priorities [p] is: 800-806 and 1069-1075. *)
Definition ss_is_retx (p : prio) (s : ss) : option bool :=
  if prio_eqb p (ss_pri s) then Some false else if prio_eqb p (ss_eff s) then Some true else None.

(** send_stream.rs:777-808 [has_data_at]. *)
Definition ss_fc_blocked (s : ss) : bool :=
  match ss_st s with
  | StReady fc | StSend fc _ _ => match sfc_blocked_needed fc with Some _ => true | None => false end
  | _ => false
  end.
Definition ss_has_data_at (p : prio) (s : ss) : ss * bool :=
  match ss_st s with
  | StResetSent _ _ _ pr _ _ => (s, oprio_eqb pr p)
  | _ =>
      if match ss_st s with StResetRel _ _ _ _ pr _ => oprio_eqb pr p | _ => false end then (s, true)
      else if prio_eqb p (ss_pri s) && ss_fc_blocked s then (s, true)
      else match ss_is_retx p s with Some re => ss_has_next re s | None => (s, false) end
  end.

(** send_stream.rs:1454-1464 [send_blocked_if_space_needed]. *)
Definition ss_blocked_if (n : N) (s : ss) : ss :=
  let go fc := if sfc_available fc <=? n then sfc_blocked fc else fc in
  match ss_st s with
  | StReady fc => with_conn (go (ss_conn s)) (with_st (StReady (go fc)) s)
  | StSend fc b c => with_conn (go (ss_conn s)) (with_st (StSend (go fc) b c) s)
  | _ => s
  end.

(** send_stream.rs:1291-1302 [mark_as_sent]. *)
Definition ss_mark_sent (off len : N) (fin : bool) (s0 : ss) : option ss :=
  let s := mkSs (ss_id s0) (ss_st s0) (ss_conn s0) (ss_pri s0) (ss_eff s0) (ss_retx s0) (N.max (ss_bytes s0) (off + len)) (ss_low s0) in
  match ss_st s with
  | StSend fc b c => match tb_sent off len b with Some b' => Some (ss_blocked_if 0 (with_st (StSend fc b' c) s)) | None => None end
  | StDataSent b fs fa c =>
      match tb_sent off len b with Some b' => Some (with_st (StDataSent b' (fs || fin) fa c) s) | None => None end
  | StResetRel b e f r p a =>
      match tb_sent off len b with Some b' => Some (with_st (StResetRel b' e f r p a) s) | None => None end
  | _ => Some s
  end.

(** packet/mod.rs:334-337 [is_full], in terms of the space left. *)
Definition is_full (rem : N) : bool := rem <? MINIMUM_FRAME_SIZE.

(** send_stream.rs:1203-1260 [write_reset_frame]: the bytes written, if any, and the result. *)
Definition ss_write_reset (p : prio) (rem : N) (s : ss) : option (ss * option (list N) * bool) :=
  match ss_st s with
  | StResetSent e f r pr fr fw =>
      if oprio_eqb pr p then
        match wr_reset_stream rem (ss_id s) e f r with
        | None => None
        | Some (Some l) => Some (with_st (StResetSent e f r None fr fw) s, Some l, true)
        | Some None => Some (s, None, false)
        end
      else Some (s, None, false)
  | StResetRel b e f r pr a =>
      if oprio_eqb pr p then
        match wr_reset_stream rem (ss_id s) e f r with
        | None => None
        | Some (Some l) => Some (with_st (StResetRel b e f r None a) s, Some l, false)
        | Some None => Some (s, None, false)
        end
      else Some (s, None, false)
  | _ => Some (s, None, false)
  end.
(** send_stream.rs:1271-1284 [write_blocked_frame], fc.rs:190-214. *)
Definition ss_write_blocked (p : prio) (rem : N) (s : ss) : option (ss * option (list N * N)) :=
  let go fc k :=
    match sfc_blocked_needed fc with
    | None => Some (s, None)
    | Some limit =>
        match wr_stream_data_blocked rem (ss_id s) limit with
        | None => None
        | Some None => Some (s, None)
        | Some (Some l) => Some (with_st (k (sfc_sent fc)) s, Some (l, limit))
        end
    end in
  if prio_eqb p (ss_pri s) then
    match ss_st s with
    | StReady fc => go fc StReady
    | StSend fc b c => go fc (fun fc => StSend fc b c)
    | _ => Some (s, None)
    end
  else Some (s, None).
(** send_stream.rs:1062-1132 [write_stream_frame]: the bytes, the token and whether the packet
    was marked full. *)
Definition ss_write_stream (p : prio) (rem sp : N) (s : ss) : option (ss * option (list N * tok * bool)) :=
  match ss_is_retx p s with
  | None => Some (s, None)
  | Some re =>
      let fin_offset := match ss_st s with StDataSent b _ _ _ => Some (tb_used b) | _ => None end in
      match ss_next re sp s with
      | None => None
      | Some (s1, None) => Some (s1, None)
      | Some (s1, Some (off, d)) =>
          match wr_stream rem (ss_id s) off d fin_offset with
          | None => None
          | Some None => Some (s1, None)
          | Some (Some (l, len, fin, fill)) =>
              match ss_mark_sent off len fin s1 with
              | None => None
              | Some s2 => Some (s2, Some (l, TkStream off len fin, fill))
              end
          end
      end
  end.
(** send_stream.rs:813-831 [write_frames]; [rem] is the space left in the packet.  The frames
    written, with their tokens, and the result. *)
Definition ss_write (p : prio) (rem sp : N) (s : ss) : option (ss * list (list N * tok) * bool) :=
  match ss_write_reset p rem s with
  | None => None
  | Some (s1, w, done) =>
      let f1 := match w with Some l => [(l, TkReset)] | None => [] end in
      let rem1 := rem - match w with Some l => lenN l | None => 0 end in
      if done then Some (s1, f1, true)
      else
        match ss_write_blocked p rem1 s1 with
        | None => None
        | Some (s2, w2) =>
            let f2 := match w2 with Some (l, limit) => f1 ++ [(l, TkBlocked limit)] | None => f1 end in
            let rem2 := rem1 - match w2 with Some (l, _) => lenN l | None => 0 end in
            if is_full rem2 then Some (s2, f2, false)
            else
              match ss_write_stream p rem2 sp s2 with
              | None => None
              | Some (s3, None) => Some (s3, f2, negb (is_full rem2))
              | Some (s3, Some (l, t, fill)) =>
                  Some (s3, f2 ++ [(l, t)], negb (is_full (if fill then 0 else rem2 - lenN l)))
              end
        end
  end.

(** send_stream.rs:1141-1181 [reset_acked], 1183-1196 [reset_lost]; [None]: [unreachable!]. *)
Definition ss_reset_acked (s : ss) : ss :=
  match ss_st s with
  | StResetSent _ _ _ _ fr fw => with_st (StResetRecvd fr fw) s
  | StResetRel b e f r p a =>
      if r <=? tb_retired b then with_st (StResetRecvd (tb_retired b) (tb_buffered b)) s
      else with_st (StResetRel b e f r p true) s
  | _ => s
  end.
Definition ss_reset_lost (s : ss) : option ss :=
  match ss_st s with
  | StResetSent e f r _ fr fw => Some (with_st (StResetSent e f r (Some (ss_eff s)) fr fw) s)
  | StResetRel b e f r _ a => Some (with_st (StResetRel b e f r (Some (ss_eff s)) a) s)
  | StResetRecvd _ _ => Some s
  | _ => None
  end.
(** send_stream.rs:1262-1268 [blocked_lost]. *)
Definition ss_blocked_lost (l : N) (s : ss) : ss :=
  match ss_st s with
  | StReady fc => with_st (StReady (sfc_lost l fc)) s
  | StSend fc b c => with_st (StSend (sfc_lost l fc) b c) s
  | _ => s
  end.
(** send_stream.rs:1309-1374 [mark_as_acked]. *)
Definition ss_mark_acked (off len : N) (fin : bool) (s : ss) : option (ss * list ev) :=
  match ss_st s with
  | StSend fc b c =>
      match tb_acked off len b with
      | None => None
      | Some b' =>
          let s' := with_st (StSend fc b' c) s in Some (s', ss_maybe_writable (tb_avail b) (tb_avail b') s')
      end
  | StDataSent b fs fa c =>
      match tb_acked off len b with
      | None => None
      | Some b' =>
          let fa' := fa || fin in
          if fa' && (tb_buffered b' =? 0) then Some (with_st (StDataRecvd (tb_retired b') (tb_buffered b')) s, [EvComplete])
          else Some (with_st (StDataSent b' fs fa' c) s, [])
      end
  | StResetRel b e f r p a =>
      match tb_acked off len b with
      | None => None
      | Some b' =>
          if r <=? tb_retired b' then
            if a then Some (with_st (StResetRecvd (tb_retired b') (tb_buffered b')) s, [])
            else Some (with_st (StResetSent e f r p (tb_retired b') (tb_buffered b')) s, [])
          else Some (with_st (StResetRel b' e f r p a) s, [])
      end
  | _ => Some (s, [])
  end.
(** send_stream.rs:1381-1401 [mark_as_lost]. *)
Definition ss_mark_lost (off len : N) (fin : bool) (s0 : ss) : option ss :=
  let s := mkSs (ss_id s0) (ss_st s0) (ss_conn s0) (ss_pri s0) (ss_eff s0) (N.max (ss_retx s0) (off + len)) (ss_bytes s0) (ss_low s0) in
  match ss_st s with
  | StSend fc b c => match tb_lost off len b with Some b' => Some (with_st (StSend fc b' c) s) | None => None end
  | StDataSent b fs fa c =>
      match tb_lost off len b with Some b' => Some (with_st (StDataSent b' (if fin then fa else fs) fa c) s) | None => None end
  | StResetRel b e f r p a =>
      match tb_lost off len b with Some b' => Some (with_st (StResetRel b' e f r p a) s) | None => None end
  | _ => Some s
  end.

(** send_stream.rs:1424-1432 [set_max_stream_data]. *)
Definition ss_max_stream_data (l : N) (s : ss) : ss * list ev :=
  let go fc k :=
    let '(fc', u) := sfc_update l fc in
    match u with
    | None => (s, [])
    | Some cur => let s' := with_st (k fc') s in (s', ss_maybe_writable (sfc_available fc) cur s')
    end in
  match ss_st s with
  | StReady fc => go fc StReady
  | StSend fc b c => go fc (fun fc => StSend fc b c)
  | _ => (s, [])
  end.
(** streams.rs:566-577 [handle_max_data] for this stream, and what other streams do to the
    connection-wide limit.  Other streams do not go beyond the limit. *)
Definition ss_conn_op (o : sop) (s : ss) : ss * list ev :=
  match o with
  | SUpdate l =>
      let '(c, u) := sfc_update l (ss_conn s) in
      match u with
      | None => (s, [])
      | Some cur => let s' := with_conn c s in (s', ss_maybe_writable (sfc_available (ss_conn s)) cur s')
      end
  | _ => match sstep (ss_conn s) o with Some (c, _) => (with_conn c s, []) | None => (s, []) end
  end.

(** send_stream.rs:1466-1515 [send_internal]. *)
Inductive sres := RNone | RSent (n : N) | RErr | ROk | RHas (b : bool) | RTok (t : option tok) | RFrames (fs : list (list N * tok)) (more : bool).
Definition ss_send (d : list N) (atomic : bool) (s0 : ss) : option (ss * sres) :=
  match d with
  | [] => Some (s0, RErr)
  | _ =>
      let s := match ss_st s0 with StReady fc => with_st (StSend fc tb_new 0) s0 | _ => s0 end in
      match ss_st s with
      | StSend fc b c =>
          let av := ss_avail s in
          if av =? 0 then Some (s, RSent 0)
          else if (av <? lenN d) && atomic then Some (ss_blocked_if (lenN d) s, RSent 0)
          else
            let '(b', n) := tb_send (if av <? lenN d then firstnN av d else d) b in
            match sfc_consume n fc, sfc_consume n (ss_conn s) with
            | Some fc', Some conn' => Some (with_conn conn' (with_st (StSend fc' b' c) s), RSent n)
            | _, _ => None
            end
      | _ => Some (s, RErr)
      end
  end.
(** send_stream.rs:1517-1548 [close]. *)
Definition ss_close (s : ss) : ss :=
  match ss_st s with
  | StReady _ => with_st (StDataSent tb_new false false 0) s
  | StSend _ b c => with_st (StDataSent b false false c) s
  | _ => s
  end.
(** send_stream.rs:1558-1582 [commit]. *)
Definition ss_commit (s : ss) : ss * sres :=
  match ss_st s with
  | StReady _ | StDataRecvd _ _ => (s, ROk)
  | StSend fc b _ => (with_st (StSend fc b (tb_used b)) s, ROk)
  | StDataSent b fs fa _ => (with_st (StDataSent b fs fa (tb_used b)) s, ROk)
  | _ => (s, RErr)
  end.
(** send_stream.rs:1590-1664 [reset]. *)
Definition make_reset (err : N) (p : prio) (b : txb) (final committed : N) : sst :=
  let reliable := N.min committed final in
  if (reliable =? 0) || (reliable <=? tb_retired b)
  then StResetSent err final reliable (Some p) (tb_retired b) (tb_buffered b)
  else StResetRel b err final reliable (Some p) false.
Definition ss_reset (err : N) (s : ss) : ss :=
  match ss_st s with
  | StReady fc => with_st (StResetSent err (sf_used fc) 0 (Some (ss_pri s)) 0 0) s
  | StSend fc b c => with_st (make_reset err (ss_pri s) b (sf_used fc) c) s
  | StDataSent b _ _ c => with_st (make_reset err (ss_pri s) b (tb_used b) c) s
  | _ => s
  end.
(** send_stream.rs:1675-1713 [drop_commitment]. *)
Definition ss_drop (s : ss) : ss :=
  match ss_st s with
  | StSend fc b _ => with_st (StSend fc b 0) s
  | StDataSent b fs fa _ => with_st (StDataSent b fs fa 0) s
  | StResetRel b e f _ p a =>
      if a then with_st (StResetRecvd (tb_retired b) (tb_buffered b)) s
      else with_st (StResetSent e f 0 p (tb_retired b) (tb_buffered b)) s
  | _ => s
  end.

(** ** Uses of a stream.  [OAck] and [OLose] are what the loss recovery does with the [i]-th
    token handed out (streams.rs:329-382); acknowledgements and losses come in any order, also
    repeatedly. *)
Inductive ssop :=
| OSend (d : list N) (atomic : bool) | OClose | OCommit | OReset (err : N) | ODrop
| OMaxStream (l : N) | OConn (o : sop) | OPrio (p : prio) (r : retx) | OLow (w : N)
| OHas (p : prio) | OWrite (p : prio) (rem sp : N) | OAck (i : N) | OLose (i : N).
Notation sworld := (ss * list tok)%type.
Notation sentry := (ssop * sres * list ev)%type.

Definition ss_step (w : sworld) (o : ssop) : option (sworld * sres * list ev) :=
  let '(s, toks) := w in
  let pure (s' : ss) (r : sres) (e : list ev) := Some ((s', toks), r, e) in
  match o with
  | OSend d a => match ss_send d a s with Some (s', r) => pure s' r [] | None => None end
  | OClose => pure (ss_close s) RNone []
  | OCommit => let '(s', r) := ss_commit s in pure s' r []
  | OReset e => pure (ss_reset e s) RNone []
  | ODrop => pure (ss_drop s) RNone []
  | OMaxStream l => let '(s', e) := ss_max_stream_data l s in pure s' RNone e
  | OConn o => let '(s', e) := ss_conn_op o s in pure s' RNone e
  | OPrio p r => pure (ss_set_priority p r s) RNone []
  | OLow n => pure (ss_set_low n s) RNone []
  | OHas p => let '(s', b) := ss_has_data_at p s in pure s' (RHas b) []
  | OWrite p rem sp =>
      match ss_write p rem sp s with
      | Some (s', fs, more) => Some ((s', toks ++ map snd fs), RFrames fs more, [])
      | None => None
      end
  | OAck i =>
      match nth_error toks (N.to_nat i) with
      | Some (TkStream off len fin) =>
          match ss_mark_acked off len fin s with Some (s', e) => pure s' (RTok (Some (TkStream off len fin))) e | None => None end
      | Some TkReset => pure (ss_reset_acked s) (RTok (Some TkReset)) []
      | Some (TkBlocked l) => pure s (RTok (Some (TkBlocked l))) []
      | None => pure s (RTok None) []
      end
  | OLose i =>
      match nth_error toks (N.to_nat i) with
      | Some (TkStream off len fin) =>
          match ss_mark_lost off len fin s with Some s' => pure s' (RTok (Some (TkStream off len fin))) [] | None => None end
      | Some TkReset => match ss_reset_lost s with Some s' => pure s' (RTok (Some TkReset)) [] | None => None end
      | Some (TkBlocked l) => pure (ss_blocked_lost l s) (RTok (Some (TkBlocked l))) []
      | None => pure s (RTok None) []
      end
  end.
Fixpoint ss_runs (w : sworld) (ops : list ssop) : option (sworld * list sentry) :=
  match ops with
  | [] => Some (w, [])
  | o :: r =>
      match ss_step w o with
      | None => None
      | Some (w', x, e) => match ss_runs w' r with None => None | Some (w'', h) => Some (w'', (o, x, e) :: h) end
      end
  end.
