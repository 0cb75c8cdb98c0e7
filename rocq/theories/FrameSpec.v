(** The wire format of frames (RFC 9000, section 19; RFC 9221; the ACK_FREQUENCY and
    RESET_STREAM_AT drafts), written down independently of the code. *)
From Verif Require Import Base CodecModel FrameModel.

(** A frame is a sequence of fields. *)
Inductive field :=
| Vi (v : N)            (* a variable-length integer *)
| Raw (l : list N)      (* bytes *)
| Pre (l : list N)      (* bytes after their length as a variable-length integer *)
| Pre1 (l : list N).    (* bytes after their length in one byte *)

Definition field_bytes (f : field) : option (list N) :=
  match f with
  | Vi v => varint_bytes v
  | Raw l => Some l
  | Pre l => match varint_bytes (lenN l) with Some h => Some (h ++ l) | None => None end
  | Pre1 l => Some (lenN l :: l)
  end.
Fixpoint fields_bytes (fs : list field) : option (list N) :=
  match fs with
  | [] => Some []
  | f :: r => match field_bytes f, fields_bytes r with Some a, Some b => Some (a ++ b) | _, _ => None end
  end.

Definition frame_fields (f : frame) : list field :=
  match f with
  | FPadding n => [Raw (repeat 0 (N.to_nat n))]
  | FPing => [Vi 1]
  | FAck la ad fa rs ecn =>
      [Vi (match ecn with None => 2 | Some _ => 3 end); Vi la; Vi ad; Vi (lenN rs); Vi fa]
      ++ flat_map (fun gr => [Vi (fst gr); Vi (snd gr)]) rs
      ++ match ecn with None => [] | Some (e0, e1, ce) => [Vi e0; Vi e1; Vi ce] end
  | FResetStream id e fs => [Vi 4; Vi id; Vi e; Vi fs]
  | FStopSending id e => [Vi 5; Vi id; Vi e]
  | FCrypto off d => [Vi 6; Vi off; Pre d]
  | FNewToken t => [Vi 7; Pre t]
  | FStream id off d fin fill =>
      [Vi (8 + (if off =? 0 then 0 else 4) + (if fill then 0 else 2) + (if fin then 1 else 0)); Vi id]
      ++ (if off =? 0 then [] else [Vi off]) ++ [if fill then Raw d else Pre d]
  | FMaxData v => [Vi 16; Vi v]
  | FMaxStreamData id v => [Vi 17; Vi id; Vi v]
  | FMaxStreams bidi v => [Vi (if bidi then 18 else 19); Vi v]
  | FDataBlocked v => [Vi 20; Vi v]
  | FStreamDataBlocked id v => [Vi 21; Vi id; Vi v]
  | FStreamsBlocked bidi v => [Vi (if bidi then 22 else 23); Vi v]
  | FNewConnectionId s rp cid srt => [Vi 24; Vi s; Vi rp; Pre1 cid; Raw srt]
  | FRetireConnectionId s => [Vi 25; Vi s]
  | FPathChallenge d => [Vi 26; Raw d]
  | FPathResponse d => [Vi 27; Raw d]
  | FConnectionClose true c ft r => [Vi 28; Vi c; Vi ft; Pre r]
  | FConnectionClose false c _ r => [Vi 29; Vi c; Pre r]
  | FHandshakeDone => [Vi 30]
  | FResetStreamAt id e fs rs => [Vi 36; Vi id; Vi e; Vi fs; Vi rs]
  | FDatagram d fill => if fill then [Vi 48; Raw d] else [Vi 49; Pre d]
  | FAckFrequency s tol d io => [Vi 175; Vi s; Vi tol; Vi d; Raw [if io then 1 else 0]]
  end.
Definition frame_wire (f : frame) : option (list N) := fields_bytes (frame_fields f).

(** The values a frame may carry. *)
Definition V62 (v : N) : Prop := v < 2 ^ 62.
Definition frame_ok (f : frame) : Prop :=
  match f with
  | FPadding n => 0 < n < 2 ^ 16
  | FPing | FHandshakeDone => True
  | FAck la ad fa rs ecn =>
      V62 la /\ V62 ad /\ V62 fa /\ lenN rs < 32768 /\ Forall (fun gr => V62 (fst gr) /\ V62 (snd gr)) rs /\
      match ecn with None => True | Some (e0, e1, ce) => V62 e0 /\ V62 e1 /\ V62 ce end
  | FResetStream id e fs => V62 id /\ V62 e /\ V62 fs
  | FResetStreamAt id e fs rs => V62 id /\ V62 e /\ V62 fs /\ rs <= fs
  | FStopSending id e => V62 id /\ V62 e
  | FCrypto off d => off + lenN d < 2 ^ 62
  | FNewToken t => 0 < lenN t < 2 ^ 62
  | FStream id off d fin fill => V62 id /\ off + lenN d < 2 ^ 62
  | FMaxData v | FDataBlocked v | FRetireConnectionId v => V62 v
  | FMaxStreamData id v | FStreamDataBlocked id v => V62 id /\ V62 v
  | FMaxStreams _ v | FStreamsBlocked _ v => v <= 2 ^ 60
  | FNewConnectionId s rp cid srt => V62 s /\ rp <= s /\ 0 < lenN cid <= 20 /\ lenN srt = 16
  | FPathChallenge d | FPathResponse d => lenN d = 8
  | FConnectionClose t c ft r => V62 c /\ (if t then V62 ft else ft = 0) /\ V62 (lenN r)
  | FAckFrequency s tol d io => V62 s /\ 0 < tol < 2 ^ 62 /\ V62 d
  | FDatagram d fill => fill = true \/ V62 (lenN d)
  end.

(** What may come after a frame: nothing after one that fills the packet, and what
    follows the last PADDING frame of a run is not another one. *)
Definition may_follow (f : frame) (rest : list N) : Prop :=
  match f with
  | FPadding _ => match rest with 0 :: _ => False | _ => True end
  | FStream _ _ _ _ true | FDatagram _ true => rest = []
  | _ => True
  end.

(** ** ACK ranges (RFC 9000, 19.3.1) *)
(** [prev] is the smallest number of the range before.  On natural numbers, so that none
    of the numbers is negative. *)
Fixpoint rfc_ranges (prev : N) (rs : list (N * N)) (out : list (N * N)) : Prop :=
  match rs, out with
  | [], [] => True
  | (gap, len) :: rs', (s, e) :: out' => e + gap + 2 = prev /\ s + len = e /\ rfc_ranges s rs' out'
  | _, _ => False
  end.
Definition rfc_ack (largest first : N) (rs : list (N * N)) (out : list (N * N)) : Prop :=
  match out with
  | (s, e) :: out' => e = largest /\ s + first = largest /\ rfc_ranges s rs out'
  | [] => False
  end.

(** Inclusive ranges (start, end), strictly descending and disjoint. *)
Fixpoint descending (bound : N) (out : list (N * N)) : Prop :=
  match out with
  | [] => True
  | (s, e) :: out' => s <= e /\ e < bound /\ descending s out'
  end.

(** Ranges (largest, smallest) that an ACK frame can carry: each at least 2 below the
    one before, so that at least one number is missing between them. *)
Fixpoint separated (bound : N) (rs : list (N * N)) : Prop :=
  match rs with
  | [] => True
  | (lg, sm) :: rs' => sm <= lg /\ lg + 2 <= bound /\ separated sm rs'
  end.

(** ** Requests to write a frame whose length does not depend on the space available *)
Inductive wreq :=
| WReset (id err final reliable : N)
| WStopSending (id err : N)
| WDataBlocked (limit : N)
| WStreamDataBlocked (id limit : N)
| WStreamsBlocked (bidi : bool) (limit : N)
| WMaxData (v : N)
| WMaxStreamData (id v : N)
| WMaxStreams (bidi : bool) (v : N)
| WAckFrequency (seqno packets delay_us : N)
| WPing | WHandshakeDone
| WNewToken (token : list N)
| WNewConnectionId (seqno : N) (cid srt : list N)
| WRetireConnectionId (seqno : N)
| WPathResponse (data : list N)
| WPathChallenge (data : list N).

Definition run_wreq (rem : N) (w : wreq) : wres :=
  match w with
  | WReset id e f r => wr_reset_stream rem id e f r
  | WStopSending id e => wr_stop_sending rem id e
  | WDataBlocked v => wr_data_blocked rem v
  | WStreamDataBlocked id v => wr_stream_data_blocked rem id v
  | WStreamsBlocked b v => wr_streams_blocked rem b v
  | WMaxData v => wr_max_data rem v
  | WMaxStreamData id v => wr_max_stream_data rem id v
  | WMaxStreams b v => wr_max_streams rem b v
  | WAckFrequency s p d => wr_ack_frequency rem s p d
  | WPing => wr_ping rem
  | WHandshakeDone => wr_handshake_done rem
  | WNewToken t => wr_new_token rem t
  | WNewConnectionId s c t => wr_new_connection_id rem s c t
  | WRetireConnectionId s => wr_retire_connection_id rem s
  | WPathResponse d => wr_path_response rem d
  | WPathChallenge d => wr_path_challenge rem d
  end.

(** The frame asked for. *)
Definition wreq_frame (w : wreq) : frame :=
  match w with
  | WReset id e f r => if r =? 0 then FResetStream id e f else FResetStreamAt id e f r
  | WStopSending id e => FStopSending id e
  | WDataBlocked v => FDataBlocked v
  | WStreamDataBlocked id v => FStreamDataBlocked id v
  | WStreamsBlocked b v => FStreamsBlocked b v
  | WMaxData v => FMaxData v
  | WMaxStreamData id v => FMaxStreamData id v
  | WMaxStreams b v => FMaxStreams b v
  | WAckFrequency s p d => FAckFrequency s (p + 1) d false
  | WPing => FPing
  | WHandshakeDone => FHandshakeDone
  | WNewToken t => FNewToken t
  | WNewConnectionId s c t => FNewConnectionId s 0 c t
  | WRetireConnectionId s => FRetireConnectionId s
  | WPathResponse d => FPathResponse d
  | WPathChallenge d => FPathChallenge d
  end.
