(** What the history of a send stream says: written bytes, frames, acknowledgements, losses. *)
From Verif Require Import Base CodecModel FrameModel FrameSpec FcModel RtSpec SsModel.

Notation hist := (list sentry).

(** The bytes accepted from the application. *)
Definition written1 (e : sentry) : list N :=
  match e with ((OSend d _, RSent n), _) => firstnN n d | _ => [] end.
Definition written (h : hist) : list N := flat_map written1 h.
(** [len] of them from [off] on. *)
Definition slice (off len : N) (w : list N) : list N := firstnN len (skipnN off w).

(** The frames written, with their tokens. *)
Definition frames1 (e : sentry) : list (list N * tok) :=
  match e with ((_, RFrames fs _), _) => fs | _ => [] end.
Definition frames (h : hist) : list (list N * tok) := flat_map frames1 h.
(** A frame that carries [b], the token of a packet acknowledged or lost. *)
Definition carries (t : tok) (b : N) : Prop :=
  match t with TkStream off len _ => covers off len b | _ => False end.
Definition is_fin (t : tok) : Prop := match t with TkStream _ _ fin => fin = true | _ => False end.
Definition acked1 (e : sentry) (P : tok -> Prop) : Prop :=
  match e with ((OAck _, RTok (Some t)), _) => P t | _ => False end.
Definition lost1 (e : sentry) (P : tok -> Prop) : Prop :=
  match e with ((OLose _, RTok (Some t)), _) => P t | _ => False end.
Definition sent1 (e : sentry) (P : tok -> Prop) : Prop := exists f, In f (frames1 e) /\ P (snd f).
(** Something with property [P] was acknowledged; was sent and not declared lost since. *)
Definition was_acked (h : hist) (P : tok -> Prop) : Prop := exists e, In e h /\ acked1 e P.
Definition in_flight (h : hist) (P : tok -> Prop) : Prop :=
  exists before e after, h = before ++ e :: after /\ sent1 e P /\ forall e', In e' after -> ~ lost1 e' P.

(** Where the stream is: open, closed, or reset with an error code while [c] bytes were
    committed; a reset after completion has no effect. *)
Inductive phase := PhOpen | PhClosed | PhReset (err c : N).
Record summary := mkSum { m_phase : phase; m_len : N; m_committed : N; m_complete : bool; m_dropped : bool }.
Definition sum0 : summary := mkSum PhOpen 0 0 false false.
Definition sum1 (m : summary) (e : sentry) : summary :=
  let '((o, _), evs) := e in
  let len := m_len m + lenN (written1 e) in
  let complete := m_complete m || existsb (fun x => match x with EvComplete => true | _ => false end) evs in
  match o with
  | OClose => mkSum (match m_phase m with PhOpen => PhClosed | p => p end) len (m_committed m) complete (m_dropped m)
  | OReset err =>
      mkSum (if m_complete m then m_phase m else match m_phase m with PhReset _ _ => m_phase m | _ => PhReset err (m_committed m) end)
        len (m_committed m) complete (m_dropped m)
  | OCommit => mkSum (m_phase m) len (match m_phase m with PhReset _ _ => m_committed m | _ => len end) complete (m_dropped m)
  | ODrop =>
      mkSum (m_phase m) len 0 complete (match m_phase m with PhReset _ _ => true | _ => m_dropped m end)
  | _ => mkSum (m_phase m) len (m_committed m) complete (m_dropped m)
  end.
Definition summ (h : hist) : summary := fold_left sum1 h sum0.

(** The largest limit the peer gave for the stream. *)
Definition slimit1 (l : N) (e : sentry) : N := match e with ((OMaxStream x, _), _) => N.max l x | _ => l end.
Definition slimit (init : N) (h : hist) : N := fold_left slimit1 h init.

(** Values that fit on the wire; a watermark is not zero. *)
Definition op_ok (o : ssop) : Prop :=
  match o with
  | OReset e => e < 2 ^ 62
  | OMaxStream l => l < 2 ^ 62
  | OLow w => 0 < w
  | _ => True
  end.
(** The connection's limit when the stream is created. *)
Definition conn_ok (c : sfc) : Prop := sf_used c <= sf_limit c.

(** The first bytes up to [n] were acknowledged. *)
Definition acked_upto (h : hist) (n : N) : Prop := forall b, b < n -> was_acked h (fun t => carries t b).
Definition was_lost (h : hist) (P : tok -> Prop) : Prop := exists e, In e h /\ lost1 e P.
Definition is_reset (t : tok) : Prop := t = TkReset.

(** A frame is what its token and the history say. *)
Definition frame_good (id L : N) (W : list N) (m : summary) (f : list N * tok) : Prop :=
  match snd f with
  | TkStream off len fin =>
      off + len <= lenN W /\ (0 < len \/ fin = true) /\ (fin = true -> off + len = lenN W /\ m_phase m <> PhOpen) /\
      exists fill, frame_wire (FStream id off (slice off len W) fin fill) = Some (fst f)
  | TkReset =>
      exists e c r, m_phase m = PhReset e c /\ (r = c \/ r = 0 /\ m_dropped m = true) /\
        frame_wire (if r =? 0 then FResetStream id e (lenN W) else FResetStreamAt id e (lenN W) r) = Some (fst f)
  | TkBlocked l => l <= L /\ frame_wire (FStreamDataBlocked id l) = Some (fst f)
  end.
(** The end of the last byte sent. *)
Definition highest (ts : list tok) : N :=
  fold_right (fun t a => match t with TkStream off len _ => N.max (off + len) a | _ => a end) 0 ts.

(** The histories of a stream with identifier [id], limit [max] and connection limit [conn]. *)
Definition reach (id max : N) (conn : sfc) (ops : list ssop) (s : ss) (toks : list tok) (h : hist) : Prop :=
  id < 2 ^ 62 /\ max < 2 ^ 62 /\ conn_ok conn /\ Forall op_ok ops /\
  ss_runs (fst (ss_new id max conn), []) ops = Some ((s, toks), h).
(** How often completion was reported. *)
Definition completions (h : hist) : nat :=
  length (filter (fun x => match x with EvComplete => true | _ => false end) (flat_map snd h)).
(** The priorities of the stream, for new data and for retransmission. *)
Definition prios1 (q : prio * prio) (e : sentry) : prio * prio := match e with ((OPrio p r, _), _) => (p, prio_add p r) | _ => q end.
Definition prios (h : hist) : prio * prio := fold_left prios1 h (PNormal, prio_add PNormal XHigher).
(** The size of the frames written. *)
Definition total (fs : list (list N * tok)) : N := fold_right (fun f a => lenN (fst f) + a) 0 fs.
(** [ask w p b]: asked whether there is something to write at priority [p], the stream says [b]. *)
Definition ask (s : ss) (toks : list tok) (p : prio) (b : bool) : Prop :=
  exists w, ss_step (s, toks) (OHas p) = Some (w, RHas b, []).

(** Something was acknowledged, or it was sent and not declared lost since. *)
Definition settled (h : hist) (P : tok -> Prop) : Prop := was_acked h P \/ in_flight h P.
