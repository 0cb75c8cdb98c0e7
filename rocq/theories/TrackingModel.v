(** Tracking of received packets: neqo-transport/src/tracking.rs. *)
From Verif Require Import Base CodecModel FrameModel.

(** tracking.rs:82-87 [PacketRange]. *)
Record prange := mkPR { pr_largest : N; pr_smallest : N; pr_needed : bool }.

(** tracking.rs:91-97 [PacketRange::new]. *)
Definition pr_new (pn : N) : prange := mkPR pn pn true.
(** tracking.rs:110-112 [contains]. *)
Definition pr_contains (r : prange) (pn : N) : bool := (pr_smallest r <=? pn) && (pn <=? pr_largest r).

(** tracking.rs:117-134 [PacketRange::add], 137-145 [merge_larger] and 281-305
    [RecvdPackets::add].  The loop over the deque is a recursion over the list, newest
    (largest) range first.  [None] is a panic: the [assert!]s, or [pn - 1] with [pn = 0]. *)
Fixpoint rp_add (pn : N) (l : list prange) : option (list prange) :=
  match l with
  | [] => Some [pr_new pn]
  | r :: rest =>
      if pr_contains r pn then None
      else if pr_largest r + 1 =? pn then Some (mkPR (pr_largest r + 1) (pr_smallest r) true :: rest)
      else if pr_smallest r =? pn + 1 then
        let r' := mkPR (pr_largest r) (pr_smallest r - 1) true in
        match rest with
        | n :: rest' =>
            if pn =? 0 then None
            else if pn - 1 =? pr_largest n then
              if pr_largest n + 1 =? pr_smallest r'
              then Some (mkPR (pr_largest r') (pr_smallest n) (pr_needed n || pr_needed r') :: rest')
              else None
            else Some (r' :: rest)
        | [] => Some [r']
        end
      else if pr_largest r <? pn then Some (pr_new pn :: r :: rest)
      else match rp_add pn rest with Some rest' => Some (r :: rest') | None => None end
  end.

(** tracking.rs:150-154 [PacketRange::acknowledged]; [other] is (largest, smallest). *)
Definition pr_acknowledged (r : prange) (other : N * N) : prange :=
  if (snd other <=? pr_smallest r) && (pr_largest r <=? fst other)
  then mkPR (pr_largest r) (pr_smallest r) false else r.

(** tracking.rs:392-404 [RecvdPackets::acknowledged]: [acked] walks down together with the
    ranges.  [None] is the [expect] on an empty deque. *)
Fixpoint rp_ack_one (ack : N * N) (l : list prange) : list prange * list prange :=
  (* (ranges passed over, ranges from the current one on); empty second part: returned *)
  match l with
  | [] => ([], [])
  | r :: rest =>
      if fst ack <? pr_smallest r
      then let '(a, b) := rp_ack_one ack rest in (r :: a, b)
      else ([], pr_acknowledged r ack :: rest)
  end.
Fixpoint rp_ack_all (acked : list (N * N)) (l : list prange) : list prange :=
  match acked with
  | [] => l
  | a :: more =>
      let '(pre, cur) := rp_ack_one a l in
      match cur with
      | [] => pre
      | _ :: _ => pre ++ rp_ack_all more cur
      end
  end.
Definition rp_acknowledged (acked : list (N * N)) (l : list prange) : option (list prange) :=
  match l with [] => None | _ :: _ => Some (rp_ack_all acked l) end.

(** tracking.rs:170-171. *)
Definition MAX_TRACKED_RANGES : nat := 32.
Definition MAX_ACKS_PER_FRAME : N := 32.

(** tracking.rs:190-220 [RecvdPackets].  Times and durations are nanoseconds;
    [t_app] says whether this is the application data space; [t_ecn] is (ect0, ect1, ce). *)
Record tracker := mkT {
  t_app : bool; t_ranges : list prange; t_min : N;
  t_largest_time : option N; t_ack_time : option N; t_last_ack : option N;
  t_freq_seqno : N; t_delay : N; t_unacked : N; t_tolerance : N; t_ignore_order : bool;
  t_ecn : N * N * N }.

(** tracking.rs:222-244 [RecvdPackets::new], 161 DEFAULT_LOCAL_ACK_DELAY, 169
    DEFAULT_ACK_PACKET_TOLERANCE. *)
Definition tracker_new (app : bool) : tracker :=
  mkT app [] 0 None None None 0 20000000 0 (if app then 1 else 0) false (0, 0, 0).

Definition with_ranges (s : tracker) (l : list prange) (m : N) : tracker :=
  mkT (t_app s) l m (t_largest_time s) (t_ack_time s) (t_last_ack s) (t_freq_seqno s) (t_delay s)
      (t_unacked s) (t_tolerance s) (t_ignore_order s) (t_ecn s).

(** tracking.rs:255-272 [ack_freq]. *)
Definition ack_freq (seqno tolerance delay : N) (ignore_order : bool) (s : tracker) : tracker :=
  if t_freq_seqno s <=? seqno then
    mkT (t_app s) (t_ranges s) (t_min s) (t_largest_time s) (t_ack_time s) (t_last_ack s) seqno delay
        (t_unacked s) tolerance ignore_order (t_ecn s)
  else s.

(** tracking.rs:275-282 [ack_now]. *)
Definition ack_now (now rtt : N) (s : tracker) : bool :=
  match t_ack_time s with
  | None => false
  | Some next => (next <=? now) || match t_last_ack s with Some last => last + rtt <=? now | None => false end
  end.

(** tracking.rs:307-321 [trim_ranges].  The statistics are not modelled. *)
Definition trim_ranges (l : list prange) (m : N) : list prange * N :=
  if Nat.ltb MAX_TRACKED_RANGES (length l)
  then (removelast l, pr_largest (last l (pr_new 0)) + 1)
  else (l, m).

(** tracking.rs:325-368 [set_received]. *)
Definition set_received (now pn : N) (eliciting : bool) (s : tracker) : option tracker :=
  let next_in_order := match t_ranges s with r :: _ => pr_largest r + 1 | [] => 0 end in
  match rp_add pn (t_ranges s) with
  | None => None
  | Some l1 =>
      let '(l, m) := trim_ranges l1 (t_min s) in
      let ltime := if next_in_order <=? pn then Some now else t_largest_time s in
      if eliciting then
        let unacked := t_unacked s + 1 in
        let immediate := negb (t_app s)
                         || (negb (pn =? next_in_order) && negb (t_ignore_order s))
                         || (t_tolerance s <? unacked) in
        let ack_time := if immediate then now
                        else match t_ack_time s with Some t => t | None => now + t_delay s end in
        Some (mkT (t_app s) l m ltime (Some ack_time) (t_last_ack s) (t_freq_seqno s) (t_delay s)
                  unacked (t_tolerance s) (t_ignore_order s) (t_ecn s))
      else
        Some (mkT (t_app s) l m ltime (t_ack_time s) (t_last_ack s) (t_freq_seqno s) (t_delay s)
                  (t_unacked s) (t_tolerance s) (t_ignore_order s) (t_ecn s))
  end.

(** tracking.rs:371-374 [immediate_ack]. *)
Definition immediate_ack (now : N) (s : tracker) : tracker :=
  mkT (t_app s) (t_ranges s) (t_min s) (t_largest_time s) (Some now) (t_last_ack s) (t_freq_seqno s)
      (t_delay s) (t_unacked s) (t_tolerance s) (t_ignore_order s) (t_ecn s).

(** tracking.rs:377-386 [is_duplicate]. *)
Fixpoint in_ranges (pn : N) (l : list prange) : bool :=
  match l with
  | [] => false
  | r :: rest => if pn <=? pr_largest r then pr_contains r pn || in_ranges pn rest else false
  end.
Definition is_duplicate (pn : N) (s : tracker) : bool :=
  (pn <? t_min s) || in_ranges pn (t_ranges s).

(** ecn.rs: [Count::is_some]: a non-zero count. *)
Definition ecn_is_some (e : N * N * N) : bool :=
  let '(e0, e1, ce) := e in (0 <? e0) || (0 <? e1) || (0 <? ce).

(** tracking.rs:408 USEFUL_ACK_LEN. *)
Definition USEFUL_ACK_LEN : N := 1 + 8 + 8 + 1 + 8 + 3 * 8.

(** tracking.rs:421-512 [write_frame].  Outer [None]: panic.  Inner [None]: nothing was
    written.  Otherwise the bytes and the ranges recorded in the recovery token. *)
Definition pr_pair (r : prange) : N * N := (pr_largest r, pr_smallest r).
Definition write_ack (now rtt remaining : N) (s : tracker) : option (tracker * option (list N * list (N * N))) :=
  if negb (ack_now now rtt s) then Some (s, None)
  else if remaining <? USEFUL_ACK_LEN then Some (s, None)
  else
    let max_ranges := N.min (1 + (remaining - USEFUL_ACK_LEN) / 16) MAX_ACKS_PER_FRAME in
    let ranges := map pr_pair (firstn (N.to_nat max_ranges) (filter pr_needed (t_ranges s))) in
    match ranges with
    | [] => Some (s, None)
    | first :: rest =>
        match t_largest_time s with
        | None => Some (s, None)
        | Some lt =>
            let delay := N.min MAX_VARINT ((now - lt) / 1000 / 8) in
            match ack_frame_bytes first rest delay (if ecn_is_some (t_ecn s) then Some (t_ecn s) else None) with
            | None => None
            | Some l =>
                Some (mkT (t_app s) (t_ranges s) (t_min s) (t_largest_time s) None (Some now) (t_freq_seqno s)
                          (t_delay s) 0 (t_tolerance s) (t_ignore_order s) (t_ecn s),
                      Some (l, ranges))
            end
        end
    end.

(** ecn.rs: [ecn_marks()[ecn] += 1] for a received datagram; 0: not ECT, 1: ECT(0),
    2: ECT(1), 3: CE. *)
Definition count_ecn (mark : N) (s : tracker) : tracker :=
  let '(e0, e1, ce) := t_ecn s in
  let e := if mark =? 1 then (e0 + 1, e1, ce) else if mark =? 2 then (e0, e1 + 1, ce)
           else if mark =? 3 then (e0, e1, ce + 1) else (e0, e1, ce) in
  mkT (t_app s) (t_ranges s) (t_min s) (t_largest_time s) (t_ack_time s) (t_last_ack s) (t_freq_seqno s)
      (t_delay s) (t_unacked s) (t_tolerance s) (t_ignore_order s) e.

(** The uses of the tracker of one space by the connection. *)
Inductive top :=
| OPacket (now pn : N) (eliciting : bool) (mark : N)
  (* connection/mod.rs:1881-2013: a decrypted packet, dropped if a duplicate *)
| OWrite (now rtt remaining : N)       (* connection/mod.rs:2660, building a packet *)
| OAcked (i : nat)                     (* recovery token of the i-th ACK frame written is acknowledged *)
| OImmediate (now : N)                 (* PING, lost ACK, close *)
| OFreq (seqno tolerance delay : N) (ignore_order : bool).

Inductive tout :=
| Processed (pn : N) | Dropped (pn : N) | Wrote (bytes : list N) (ranges : list (N * N)) | Nothing.

(** The tracker and the tokens of the ACK frames written so far, oldest first. *)
Definition tstep (st : tracker * list (list (N * N))) (o : top)
  : option (tracker * list (list (N * N)) * tout) :=
  let '(s, toks) := st in
  match o with
  | OPacket now pn el mark =>
      if is_duplicate pn s then Some (s, toks, Dropped pn)
      else match set_received now pn el s with
           | Some s' => Some (count_ecn mark s', toks, Processed pn)
           | None => None
           end
  | OWrite now rtt remaining =>
      match write_ack now rtt remaining s with
      | None => None
      | Some (s', None) => Some (s', toks, Nothing)
      | Some (s', Some (l, rs)) => Some (s', toks ++ [rs], Wrote l rs)
      end
  | OAcked i =>
      match nth_error toks i with
      | None => Some (s, toks, Nothing)
      | Some rs =>
          match rp_acknowledged rs (t_ranges s) with
          | Some l => Some (with_ranges s l (t_min s), toks, Nothing)
          | None => None
          end
      end
  | OImmediate now => Some (immediate_ack now s, toks, Nothing)
  | OFreq sn tol d io => Some (ack_freq sn tol d io s, toks, Nothing)
  end.

Fixpoint truns (st : tracker * list (list (N * N))) (ops : list top)
  : option (tracker * list (list (N * N)) * list tout) :=
  match ops with
  | [] => Some (st, [])
  | o :: more =>
      match tstep st o with
      | None => None
      | Some (st', out) =>
          match truns st' more with
          | None => None
          | Some (st'', outs) => Some (st'', out :: outs)
          end
      end
  end.
