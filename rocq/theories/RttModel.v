(** Model of the round trip time estimator, neqo-transport/src/rtt.rs, and of the rate of
    acknowledgements asked of the peer, neqo-transport/src/ackrate.rs.

    Durations and times are numbers of nanoseconds (Rust [Duration] division rounds the number of
    nanoseconds down, as [N.div] does).  The overflow of a [Duration] (2^64 seconds) and of [usize]
    products is not modelled.  [None] is a panic (a failed debug_assert!, clamp or division).
    qlog events and log output are left out. *)
From Verif Require Import Base FrameModel.

(** rtt.rs:24 [GRANULARITY]; tracking.rs:169 [DEFAULT_REMOTE_ACK_DELAY]. *)
Definition ms : N := 1000000.
Definition GRANULARITY : N := ms.
Definition DEFAULT_REMOTE_ACK_DELAY : N := 25 * ms.

(** ** ackrate.rs *)
(** ackrate.rs:22-28 [AckRate]. *)
Record ackrate := mkRate { a_packets : N; a_delay : N }.
(** connection/params.rs [ACK_RATIO_SCALE]. *)
Definition ACK_RATIO_SCALE : N := 10.
(** core [Ord::clamp]: panics if the bounds are swapped. *)
Definition clamp (x lo hi : N) : option N :=
  if hi <? lo then None else Some (if x <? lo then lo else if hi <? x then hi else x).
(** ackrate.rs:31-48 [AckRate::new]. *)
Definition rate_new (minimum ratio cwnd mtu rtt : N) : option ackrate :=
  if (mtu =? 0) || (ratio =? 0) then None
  else match clamp (cwnd * ACK_RATIO_SCALE / mtu / ratio) 2 256 with
  | None => None
  | Some packets =>
    match clamp (rtt * ACK_RATIO_SCALE / ratio) minimum (50 * ms) with
    | None => None
    | Some delay => Some (mkRate (packets - 1) delay)
    end
  end.
(** ackrate.rs:50-58 [write_frame]: [as_micros] rounds down. *)
Definition rate_write (rem seqno : N) (r : ackrate) : wres :=
  wr_ack_frequency rem seqno (a_packets r) (N.min (a_delay r / 1000) (2 ^ 64 - 1)).
(** ackrate.rs:61-69 [needs_update]. *)
Definition needs_update (cur target : ackrate) : bool :=
  if negb (a_packets cur =? a_packets target) then true
  else let delta := a_delay target / 4 in
       (a_delay target + delta <? a_delay cur) || (a_delay cur + delta <? a_delay target).

(** ackrate.rs:72-80 [FlexibleAckRate]. *)
Record flex := mkFlex { f_current : ackrate; f_target : ackrate; f_seqno : N; f_outstanding : bool; f_min : N; f_ratio : N }.
(** ackrate.rs:83-105 [FlexibleAckRate::new]. *)
Definition flex_new (max_ack_delay min_ack_delay ratio cwnd mtu rtt : N) : option flex :=
  let ratio := N.max ACK_RATIO_SCALE ratio in
  match rate_new min_ack_delay ratio cwnd mtu rtt with
  | None => None
  | Some t => Some (mkFlex (mkRate 1 max_ack_delay) t 0 false min_ack_delay ratio)
  end.
(** ackrate.rs:107-123 [write_frames]: the state and the frame written, if any. *)
Definition flex_write (rem : N) (f : flex) : option (flex * option (list N)) :=
  if negb (f_outstanding f) && needs_update (f_current f) (f_target f) then
    match rate_write rem (f_seqno f) (f_target f) with
    | None => None
    | Some None => Some (f, None)
    | Some (Some b) => Some (mkFlex (f_current f) (f_target f) (f_seqno f + 1) true (f_min f) (f_ratio f), Some b)
    end
  else Some (f, None).
(** ackrate.rs:125-128 [frame_acked], 130-132 [frame_lost]. *)
Definition flex_acked (r : ackrate) (f : flex) : flex :=
  mkFlex r (f_target f) (f_seqno f) false (f_min f) (f_ratio f).
Definition flex_lost (f : flex) : flex :=
  mkFlex (f_current f) (f_target f) (f_seqno f) false (f_min f) (f_ratio f).
(** ackrate.rs:134-137 [update]. *)
Definition flex_update (cwnd mtu rtt : N) (f : flex) : option flex :=
  match rate_new (f_min f) (f_ratio f) cwnd mtu rtt with
  | None => None
  | Some t => Some (mkFlex (f_current f) t (f_seqno f) (f_outstanding f) (f_min f) (f_ratio f))
  end.
(** ackrate.rs:139-141 [peer_ack_delay]. *)
Definition flex_max (f : flex) : N := N.max (a_delay (f_current f)) (a_delay (f_target f)).

(** ackrate.rs:144-211 [PeerAckDelay] and its methods. *)
Inductive peer_delay := Fixed (d : N) | Flexible (f : flex).
Definition pd_default : peer_delay := Fixed DEFAULT_REMOTE_ACK_DELAY.
Definition pd_max (p : peer_delay) : N := match p with Fixed d => d | Flexible f => flex_max f end.
Definition pd_write (rem : N) (p : peer_delay) : option (peer_delay * option (list N)) :=
  match p with
  | Fixed _ => Some (p, None)
  | Flexible f => match flex_write rem f with None => None | Some (f', b) => Some (Flexible f', b) end
  end.
Definition pd_acked (r : ackrate) (p : peer_delay) : peer_delay :=
  match p with Fixed _ => p | Flexible f => Flexible (flex_acked r f) end.
Definition pd_lost (p : peer_delay) : peer_delay :=
  match p with Fixed _ => p | Flexible f => Flexible (flex_lost f) end.
Definition pd_update (cwnd mtu rtt : N) (p : peer_delay) : option peer_delay :=
  match p with
  | Fixed _ => Some p
  | Flexible f => match flex_update cwnd mtu rtt f with None => None | Some f' => Some (Flexible f') end
  end.

(** ** rtt.rs *)
(** rtt.rs:29-38 [RttSource], ordered as declared. *)
Inductive source := Guesstimate | Ack | AckConfirmed.
Definition source_num (s : source) : N := match s with Guesstimate => 0 | Ack => 1 | AckConfirmed => 2 end.
Definition source_leb (a b : source) : bool := source_num a <=? source_num b.
Definition source_max (a b : source) : source := if source_leb a b then b else a.
Definition is_confirmed (s : source) : bool := match s with AckConfirmed => true | _ => false end.

(** rtt.rs:40-49 [RttEstimate]. *)
Record rtt := mkRtt { t_first : option N; t_latest : N; t_smoothed : N; t_var : N; t_min : N; t_delay : peer_delay; t_best : source }.
(** rtt.rs:52-62 [new]. *)
Definition rtt_new (initial : N) : rtt := mkRtt None initial initial (initial / 2) initial pd_default Guesstimate.
(** rtt.rs:64-71 [init]. *)
Definition rtt_init (v : N) (t : rtt) : option rtt :=
  match t_first t with
  | Some _ => None
  | None => Some (mkRtt None v v (v / 2) v (t_delay t) (t_best t))
  end.
(** rtt.rs:73-79 [set_initial]. *)
Definition rtt_set_initial (v : N) (t : rtt) : option rtt :=
  if GRANULARITY <=? v then rtt_init v t else Some t.
(** rtt.rs:91-93 [set_ack_delay]. *)
Definition rtt_set_delay (d : peer_delay) (t : rtt) : rtt :=
  mkRtt (t_first t) (t_latest t) (t_smoothed t) (t_var t) (t_min t) d (t_best t).
(** rtt.rs:82-85 [prime_rtt]. *)
Definition rtt_prime (other t : rtt) : option rtt :=
  match rtt_set_initial (t_smoothed other + t_var other) t with
  | None => None
  | Some t => Some (rtt_set_delay (t_delay other) t)
  end.
(** rtt.rs:91-93 [update_ack_delay]. *)
Definition rtt_update_delay (cwnd mtu : N) (t : rtt) : option rtt :=
  match pd_update cwnd mtu (t_smoothed t) (t_delay t) with
  | None => None
  | Some d => Some (rtt_set_delay d t)
  end.
Definition abs_diff (a b : N) : N := if a <? b then b - a else a - b.
(** rtt.rs:99-148 [update]. *)
Definition rtt_update (sample ack_delay : N) (src : source) (now : N) (t : rtt) : option rtt :=
  if negb (source_leb (t_best t) src) then None
  else
    let best := source_max (t_best t) src in
    let mad := pd_max (t_delay t) in
    let ack_delay := if is_confirmed best && (mad <? ack_delay) then mad else ack_delay in
    let mn := N.min (t_min t) sample in
    let sample := if ack_delay + mn <=? sample then sample - ack_delay else sample in
    match t_first t with
    | None =>
      match rtt_init sample (mkRtt None (t_latest t) (t_smoothed t) (t_var t) mn (t_delay t) best) with
      | None => None
      | Some t => Some (mkRtt (Some now) (t_latest t) (t_smoothed t) (t_var t) (t_min t) (t_delay t) (t_best t))
      end
    | Some _ =>
      let vs := abs_diff (t_smoothed t) sample in
      Some (mkRtt (t_first t) sample ((t_smoothed t * 7 + sample) / 8) ((t_var t * 3 + vs) / 4) mn (t_delay t) best)
    end.
(** rtt.rs:156-162 [pto]; 166-173 [loss_delay]. *)
Definition rtt_pto (confirmed : bool) (t : rtt) : N :=
  let b := t_smoothed t + N.max (4 * t_var t) GRANULARITY in
  if confirmed then b + pd_max (t_delay t) else b.
Definition rtt_loss_delay (t : rtt) : N := N.max (N.max (t_latest t) (t_smoothed t) * 9 / 8) GRANULARITY.

(** ** The callers *)
(** connection/mod.rs:3613-3631 [decode_ack_delay]: the delay in nanoseconds, from the value in the
    ACK frame and the peer's exponent, if its transport parameters are known; there are 64 bits. *)
Definition decode_ack_delay (exponent : option N) (v : N) : N :=
  match exponent with
  | None => 0
  | Some e => 1000 * (if v <? 2 ^ (64 - e) then N.shiftl v e else 2 ^ 64 - 1)
  end.
(** recovery/mod.rs:567-582 [rtt_sample]: the time the handshake was confirmed, the time the packet
    was sent and when it was acknowledged. *)
Definition rtt_sample (confirmed : option N) (sent now ack_delay : N) (t : rtt) : option rtt :=
  let src := match confirmed with Some c => if c <? sent then AckConfirmed else Ack | None => Ack end in
  if now <? sent then Some t else rtt_update (now - sent) ack_delay src now t.
(** path.rs:1053-1072 [discard_packet]: the part about the estimator.  [now - sent] on Instants
    saturates at zero. *)
Definition rtt_discard (sent now : N) (t : rtt) : option rtt :=
  match t_first t with
  | Some _ => Some t
  | None => rtt_update (now - sent) 0 Guesstimate now t
  end.
(** connection/mod.rs:3122-3132 [process_tps] and path.rs:1007-1027 [set_ack_delay]: what the peer's
    max_ack_delay (ms) and min_ack_delay (us) parameters do; [Some None] is an error that closes the
    connection. *)
Definition rtt_process_tps (max_ms : N) (min_us : option N) (ratio cwnd mtu : N) (t : rtt) : option (option rtt) :=
  let max_ad := max_ms * ms in
  match min_us with
  | None => Some (Some (rtt_set_delay (Fixed max_ad) t))
  | Some us =>
    let min_ad := us * 1000 in
    if max_ad <? min_ad then Some None
    else match flex_new max_ad min_ad ratio cwnd mtu (t_smoothed t) with
         | None => None
         | Some f => Some (Some (rtt_set_delay (Flexible f) t))
         end
  end.

(** One use of the estimator of a path. *)
Inductive rop :=
| RInitial (v : N)
| RPrime (other : rtt)
| RParams (max_ms : N) (min_us : option N) (ratio cwnd mtu : N)
| RSample (confirmed : option N) (sent now ack_delay : N)
| RDiscard (sent now : N)
| RUpdateDelay (cwnd mtu : N)
| RWrite (rem : N)
| RFrameAcked (r : ackrate)
| RFrameLost.
(** What is seen of it: the round trip time measured and the one used (after removing the delay), a
    frame written, an error. *)
Inductive rvent := VSample (raw delay used : N) | VFrame (b : list N) (r : ackrate) | VError.
Definition sampled (raw delay : N) (before after : rtt) : list rvent := [VSample raw delay (t_latest after)].
Definition rstep (t : rtt) (o : rop) : option (rtt * list rvent) :=
  match o with
  | RInitial v => match rtt_set_initial v t with None => None | Some t' => Some (t', []) end
  | RPrime other => match rtt_prime other t with None => None | Some t' => Some (t', []) end
  | RParams mx mn ratio cwnd mtu =>
    match rtt_process_tps mx mn ratio cwnd mtu t with
    | None => None
    | Some None => Some (t, [VError])
    | Some (Some t') => Some (t', [])
    end
  | RSample c s now d =>
    match rtt_sample c s now d t with
    | None => None
    | Some t' => Some (t', if now <? s then [] else sampled (now - s) d t t')
    end
  | RDiscard s now =>
    match rtt_discard s now t with
    | None => None
    | Some t' => Some (t', match t_first t with None => sampled (now - s) 0 t t' | Some _ => [] end)
    end
  | RUpdateDelay cwnd mtu => match rtt_update_delay cwnd mtu t with None => None | Some t' => Some (t', []) end
  | RWrite rem =>
    match pd_write rem (t_delay t) with
    | None => None
    | Some (d, None) => Some (rtt_set_delay d t, [])
    | Some (d, Some b) => Some (rtt_set_delay d t, [VFrame b (match d with Flexible f => f_target f | Fixed v => mkRate 0 v end)])
    end
  | RFrameAcked r => Some (rtt_set_delay (pd_acked r (t_delay t)) t, [])
  | RFrameLost => Some (rtt_set_delay (pd_lost (t_delay t)) t, [])
  end.
Fixpoint rruns (t : rtt) (ops : list rop) : option (rtt * list rvent) :=
  match ops with
  | [] => Some (t, [])
  | o :: tl =>
    match rstep t o with
    | None => None
    | Some (t', h) => match rruns t' tl with None => None | Some (t'', h') => Some (t'', h ++ h') end
    end
  end.
