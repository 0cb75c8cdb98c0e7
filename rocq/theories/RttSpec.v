(** What the theorems about the round trip time estimator speak of: the samples of a history, RFC 9002's
    averages, and which uses of the estimator the callers make. *)
From Verif Require Import Base FrameModel RttModel.

(** The round trip times measured, and what was left of them after removing the peer's delay. *)
Definition raw_of (e : rvent) : list N := match e with VSample r _ _ => [r] | _ => [] end.
Definition used_of (e : rvent) : list N := match e with VSample _ _ u => [u] | _ => [] end.
Definition frame_of (e : rvent) : list (list N * ackrate) := match e with VFrame b r => [(b, r)] | _ => [] end.
Definition raws (h : list rvent) : list N := flat_map raw_of h.
Definition useds (h : list rvent) : list N := flat_map used_of h.
Definition frames (h : list rvent) : list (list N * ackrate) := flat_map frame_of h.

(** RFC 9002 section 5.3: the first sample starts the averages, each further one moves the mean by an
    eighth and the deviation by a quarter. *)
Definition distance (a b : N) : N := N.max a b - N.min a b.
Definition average1 (sv : N * N) (x : N) : N * N :=
  ((7 * fst sv + x) / 8, (3 * snd sv + distance (fst sv) x) / 4).
Definition averages (l : list N) : N * N :=
  match l with
  | [] => (0, 0)
  | x :: tl => fold_left average1 tl (x, x / 2)
  end.
Definition least (x : N) (l : list N) : N := fold_left N.min l x.

(** How the code uses an estimator: an initial value is set before the first sample only; once a sample
    came from a packet sent after the handshake was confirmed, so do all further ones; MTUs are not zero;
    and the peer's min_ack_delay is legal. *)
Definition sample_source (confirmed : option N) (sent : N) : source :=
  match confirmed with Some c => if c <? sent then AckConfirmed else Ack | None => Ack end.
Definition legal_params (max_ms : N) (min_us : option N) : Prop :=
  max_ms < 2 ^ 14 /\ match min_us with None => True | Some us => us < 2 ^ 24 end.
Definition min_delay_fits (min_us : option N) : Prop :=
  match min_us with None => True | Some us => us * 1000 <= 50 * ms end.
Fixpoint rallowed (seen : bool) (best : source) (ops : list rop) : Prop :=
  match ops with
  | [] => True
  | RInitial _ :: tl => seen = false /\ rallowed seen best tl
  | RPrime _ :: tl => False
  | RParams mx mn ratio cwnd mtu :: tl =>
    legal_params mx mn /\ min_delay_fits mn /\ ratio < 256 /\ 0 < mtu /\ rallowed seen best tl
  | RSample c s now _ :: tl =>
    if now <? s then rallowed seen best tl
    else source_num best <= source_num (sample_source c s) /\ rallowed true (sample_source c s) tl
  | RDiscard s now :: tl => rallowed true best tl
  | RUpdateDelay _ mtu :: tl => 0 < mtu /\ rallowed seen best tl
  | RWrite _ :: tl | RFrameAcked _ :: tl | RFrameLost :: tl => rallowed seen best tl
  end.

(** The state [t] after the history [h] of uses [ops] of a new estimator. *)
Definition rreached (initial : N) (ops : list rop) (t : rtt) (h : list rvent) : Prop :=
  rruns (rtt_new initial) ops = Some (t, h).
(** Uses that change what is asked of the peer, or what the peer agreed to. *)
Definition changes_target (o : rop) : bool :=
  match o with RUpdateDelay _ _ | RParams _ _ _ _ _ | RPrime _ => true | _ => false end.
Definition changes_current (o : rop) : bool :=
  match o with RFrameAcked _ | RParams _ _ _ _ _ | RPrime _ => true | _ => false end.
(** The peer's parameters are processed at most once, and the estimator is not primed from another. *)
Definition is_params (o : rop) : bool := match o with RParams _ _ _ _ _ => true | _ => false end.
Definition is_prime (o : rop) : bool := match o with RPrime _ => true | _ => false end.
Definition one_peer (ops : list rop) : Prop :=
  (length (filter is_params ops) <= 1)%nat /\ filter is_prime ops = [].
(** Nothing is heard of the last frame, nor does the peer change. *)
Definition settles (o : rop) : bool :=
  match o with RFrameAcked _ | RFrameLost | RParams _ _ _ _ _ | RPrime _ => true | _ => false end.
