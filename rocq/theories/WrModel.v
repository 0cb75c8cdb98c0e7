(** The receiving side of a WebTransport stream opened by the peer: neqo-http3/src/features/extended_connect/
    webtransport_streams.rs 22-116 and the calls of connection.rs that reach it. *)
From Coq Require Import NArith List Bool.
From Verif Require Import Base CodecModel HfModel WtModel.
Import ListNotations.
Open Scope N_scope.

(** The session's state as far as the stream looks at it (webtransport_session.rs [is_active]). *)
Inductive rphase := RpNegotiating | RpActive | RpOver.
(** The session; whether connection.rs has the stream in [recv_streams]; whether the session has it in its own
    [recv_streams]; and the transport's stream: bytes received in order and not read, and whether its end is known. *)
Record wrs := mkWR { r_phase : rphase; r_here : bool; r_reg : bool; r_avail : list N; r_end : bool }.
Inductive wrev := RvNew | RvReadable | RvClosed (e : N).
Inductive wrans := RaNone | RaData (b : list N) (fin : bool) | RaRefused.
(** What happens: bytes arrive, perhaps with the end; the client's session is confirmed; the application reads into a
    buffer of [n] bytes, or asks the peer to stop; the peer resets; the session ends. *)
Inductive wrop := RArrive (b : list N) (fin : bool) | RConfirm | RRead (n : N) | RStop (e : N) | RPeerReset (e : N) | ROver (e : N).

(** webtransport_session.rs 161-211 [add_stream], of a stream of the peer: told now, or kept until the session is
    confirmed. *)
Definition wr_new (active : bool) : wrs * list wrev :=
  (mkWR (if active then RpActive else RpNegotiating) true true [] false, if active then [RvNew] else []).
(** webtransport_streams.rs 65-71 [reset], through connection.rs 1841-1851 [close_recv]; [app] is [CloseType::ResetApp]. *)
Definition wr_close (s : wrs) (app : bool) (e : N) : wrs * list wrev :=
  if r_here s then (mkWR (r_phase s) false false (r_avail s) (r_end s), if app then [] else [RvClosed e]) else (s, []).
(** connection.rs 485-500 [stream_receive] and webtransport_streams.rs 58-63 [receive]; bytes after the end do not come from
    the transport and are dropped here. *)
Definition wr_arrive (s : wrs) (b : list N) (fin : bool) : wrs * list wrev :=
  if r_end s then (s, [])
  else (mkWR (r_phase s) (r_here s) (r_reg s) (r_avail s ++ b) fin,
        match r_phase s with RpActive => if r_here s then [RvReadable] else [] | _ => [] end).
(** webtransport_session.rs 85-106: the session becomes active; the streams kept are told, and told readable
    (client_events.rs 268-285).  A stream closed before stays among those kept. *)
Definition wr_confirm (s : wrs) : wrs * list wrev :=
  match r_phase s with
  | RpNegotiating => (mkWR RpActive (r_here s) (r_reg s) (r_avail s) (r_end s), [RvNew; RvReadable])
  | _ => (s, [])
  end.
(** connection.rs 1010-1024 and 811-836, webtransport_streams.rs 73-85 [read_data], over [stream_recv] of the transport:
    as much as fits, and whether that was the end. *)
Definition wr_read (s : wrs) (n : N) : wrs * wrans :=
  if negb (r_here s) then (s, RaRefused)
  else
    let k := N.to_nat (N.min n (lenN (r_avail s))) in
    let rest := skipn k (r_avail s) in
    let fin := r_end s && match rest with [] => true | _ => false end in
    (mkWR (r_phase s) (negb fin) (r_reg s && negb fin) rest (r_end s), RaData (firstn k (r_avail s)) fin).
(** connection.rs 1853-1884 [remove_extended_connect]: streams the session has are closed. *)
Definition wr_over (s : wrs) (e : N) : wrs * list wrev :=
  match r_phase s with
  | RpOver => (s, [])
  | _ => if r_reg s then let '(s1, ev) := wr_close s false e in (mkWR RpOver (r_here s1) (r_reg s1) (r_avail s1) (r_end s1), ev)
         else (mkWR RpOver (r_here s) (r_reg s) (r_avail s) (r_end s), [])
  end.
Definition wr_step (s : wrs) (o : wrop) : wrs * (list wrev * wrans) :=
  match o with
  | RArrive b f => let '(s1, v) := wr_arrive s b f in (s1, (v, RaNone))
  | RConfirm => let '(s1, v) := wr_confirm s in (s1, (v, RaNone))
  | RRead n => let '(s1, a) := wr_read s n in (s1, ([], a))
  | RStop e => let '(s1, v) := wr_close s true e in (s1, (v, RaNone))
  | RPeerReset e => let '(s1, v) := wr_close s false e in (s1, (v, RaNone))
  | ROver e => let '(s1, v) := wr_over s e in (s1, (v, RaNone))
  end.
Fixpoint wr_run (s : wrs) (os : list wrop) : wrs * list (wrop * (list wrev * wrans)) :=
  match os with [] => (s, []) | o :: os' => let '(s1, a) := wr_step s o in let '(s2, l) := wr_run s1 os' in (s2, (o, a) :: l) end.

(** webtransport_streams.rs 87-116 [stats]: of the bytes counted by the transport, what the application is told;
    [server_opened] is bit 0 of the stream's identifier. *)
Definition wr_stat (server_opened uni : bool) (sid count : N) : option N :=
  if server_opened then obind (varint_len (if uni then WT_UNI else WT_BIDI)) (fun a => obind (varint_len sid) (fun b => Some (count - (a + b)))) else Some count.
