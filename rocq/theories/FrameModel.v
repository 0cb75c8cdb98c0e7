(** QUIC frames: neqo-transport/src/frame.rs and the writers of each frame. *)
From Verif Require Import Base CodecModel Reader.

(** frame.rs:30-69 [FrameType].  The eight STREAM types are one constructor with the
    three flag bits of the type (0x04 offset, 0x02 length, 0x01 fin). *)
Inductive ftype :=
| TPadding | TPing | TAck | TAckEcn | TResetStream | TStopSending | TCrypto | TNewToken
| TStream (off len fin : bool)
| TMaxData | TMaxStreamData | TMaxStreamsBiDi | TMaxStreamsUniDi
| TDataBlocked | TStreamDataBlocked | TStreamsBlockedBiDi | TStreamsBlockedUniDi
| TNewConnectionId | TRetireConnectionId | TPathChallenge | TPathResponse
| TConnectionCloseTransport | TConnectionCloseApplication | THandshakeDone
| TResetStreamAt | TAckFrequency | TDatagram | TDatagramWithLen.

Definition b2n (b : bool) : N := if b then 1 else 0.

(** frame.rs:30-75: the discriminants. *)
Definition ftype_num (t : ftype) : N :=
  match t with
  | TPadding => 0x0 | TPing => 0x1 | TAck => 0x2 | TAckEcn => 0x3 | TResetStream => 0x4
  | TStopSending => 0x5 | TCrypto => 0x6 | TNewToken => 0x7
  | TStream o l f => 0x08 + 4 * b2n o + 2 * b2n l + b2n f
  | TMaxData => 0x10 | TMaxStreamData => 0x11 | TMaxStreamsBiDi => 0x12 | TMaxStreamsUniDi => 0x13
  | TDataBlocked => 0x14 | TStreamDataBlocked => 0x15
  | TStreamsBlockedBiDi => 0x16 | TStreamsBlockedUniDi => 0x17
  | TNewConnectionId => 0x18 | TRetireConnectionId => 0x19
  | TPathChallenge => 0x1a | TPathResponse => 0x1b
  | TConnectionCloseTransport => 0x1c | TConnectionCloseApplication => 0x1d
  | THandshakeDone => 0x1e | TResetStreamAt => 0x24 | TAckFrequency => 0xaf
  | TDatagram => 0x30 | TDatagramWithLen => 0x31
  end.

Definition all_ftypes : list ftype :=
  [TPadding; TPing; TAck; TAckEcn; TResetStream; TStopSending; TCrypto; TNewToken;
   TStream false false false; TStream false false true; TStream false true false; TStream false true true;
   TStream true false false; TStream true false true; TStream true true false; TStream true true true;
   TMaxData; TMaxStreamData; TMaxStreamsBiDi; TMaxStreamsUniDi;
   TDataBlocked; TStreamDataBlocked; TStreamsBlockedBiDi; TStreamsBlockedUniDi;
   TNewConnectionId; TRetireConnectionId; TPathChallenge; TPathResponse;
   TConnectionCloseTransport; TConnectionCloseApplication; THandshakeDone;
   TResetStreamAt; TAckFrequency; TDatagram; TDatagramWithLen].

(** frame.rs:83-89 [TryFrom<u64> for FrameType] ([FromRepr]). *)
Definition ftype_from (v : N) : option ftype := find (fun t => ftype_num t =? v) all_ftypes.

(** Error values frame decoding can return. *)
Inductive ferr :=
| NoMoreData | ProtocolViolation | UnknownFrameType | FrameEncoding | StreamLimitErr | TooMuchData.

(** frame.rs:158-257 [Frame].  Byte slices are lists; [AckRange] is a pair (gap, range);
    [ecn::Count] of a received frame is (ect0, ect1, ce); [StreamType] is a bool, true
    for bidirectional; [CloseError] is a flag (true: transport) and a code.  The reason
    phrase is kept as bytes: the lossy UTF-8 conversion is not modelled. *)
Inductive frame :=
| FPadding (n : N)
| FPing
| FAck (largest delay first : N) (ranges : list (N * N)) (ecn : option (N * N * N))
| FResetStream (id err final : N)
| FResetStreamAt (id err final reliable : N)
| FStopSending (id err : N)
| FCrypto (offset : N) (data : list N)
| FNewToken (token : list N)
| FStream (id offset : N) (data : list N) (fin fill : bool)
| FMaxData (v : N)
| FMaxStreamData (id v : N)
| FMaxStreams (bidi : bool) (v : N)
| FDataBlocked (v : N)
| FStreamDataBlocked (id v : N)
| FStreamsBlocked (bidi : bool) (v : N)
| FNewConnectionId (seqno retire_prior : N) (cid srt : list N)
| FRetireConnectionId (seqno : N)
| FPathChallenge (data : list N)
| FPathResponse (data : list N)
| FConnectionClose (transport : bool) (code ft : N) (reason : list N)
| FHandshakeDone
| FAckFrequency (seqno tolerance delay : N) (ignore_order : bool)
| FDatagram (data : list N) (fill : bool).

(** Result of [Frame::decode]: the frame and the rest of the packet, or an error. *)
Inductive fres := FOk (f : frame) (rest : list N) | FErr (e : ferr).

(** frame.rs:470-475, the helpers [d] and [dv]. *)
Definition rdv {A} (o : option (A * list N)) (k : A -> list N -> fres) : fres :=
  match o with Some (a, r) => k a r | None => FErr NoMoreData end.

(** frame.rs:467 *)
Definition MAX_ACK_RANGE_COUNT : N := 32 * 1024.
(** cid.rs:40 *)
Definition CID_MAX_LEN : N := 20.
(** stateless_reset.rs:20 *)
Definition SRT_LEN : N := 16.

(** frame.rs:489-495, the loop of [decode_ack]. *)
Fixpoint rd_ack_ranges (n : nat) (l : list N) : option (list (N * N) * list N) :=
  match n with
  | O => Some ([], l)
  | S n' =>
      match rd_varint l with
      | None => None
      | Some (g, l1) =>
          match rd_varint l1 with
          | None => None
          | Some (r, l2) =>
              match rd_ack_ranges n' l2 with
              | None => None
              | Some (rs, l3) => Some ((g, r) :: rs, l3)
              end
          end
      end
  end.

(** frame.rs:477-511 [decode_ack]. *)
Definition decode_ack (ecn : bool) (l : list N) : fres :=
  rdv (rd_varint l) (fun la l =>
  rdv (rd_varint l) (fun ad l =>
  rdv (rd_varint l) (fun nr l =>
  if nr <? MAX_ACK_RANGE_COUNT then
    rdv (rd_varint l) (fun fa l =>
    rdv (rd_ack_ranges (N.to_nat nr) l) (fun arr l =>
    if ecn then
      rdv (rd_varint l) (fun e0 l =>
      rdv (rd_varint l) (fun e1 l =>
      rdv (rd_varint l) (fun ce l => FOk (FAck la ad fa arr (Some (e0, e1, ce))) l)))
    else FOk (FAck la ad fa arr None) l))
  else FErr TooMuchData))).

(** frame.rs:528-722, one arm per frame type. *)
Definition decode_body (t : ftype) (l : list N) : fres :=
  match t with
  | TPadding =>
      let k := run_len 0 l in
      if 1 + N.of_nat k <? 2 ^ 16 then FOk (FPadding (1 + N.of_nat k)) (skipn k l) else FErr TooMuchData
  | TPing => FOk FPing l
  | TResetStream =>
      rdv (rd_varint l) (fun id l => rdv (rd_varint l) (fun e l => rdv (rd_varint l) (fun fs l =>
      FOk (FResetStream id e fs) l)))
  | TResetStreamAt =>
      rdv (rd_varint l) (fun id l => rdv (rd_varint l) (fun e l => rdv (rd_varint l) (fun fs l =>
      rdv (rd_varint l) (fun rs l =>
      if fs <? rs then FErr FrameEncoding else FOk (FResetStreamAt id e fs rs) l))))
  | TAck => decode_ack false l
  | TAckEcn => decode_ack true l
  | TStopSending =>
      rdv (rd_varint l) (fun id l => rdv (rd_varint l) (fun e l => FOk (FStopSending id e) l))
  | TCrypto =>
      rdv (rd_varint l) (fun off l => rdv (rd_vvec l) (fun data l =>
      if MAX_VARINT <? off + lenN data then FErr FrameEncoding else FOk (FCrypto off data) l))
  | TNewToken =>
      rdv (rd_vvec l) (fun tok l => if lenN tok =? 0 then FErr FrameEncoding else FOk (FNewToken tok) l)
  | TStream has_off has_len fin =>
      rdv (rd_varint l) (fun s l =>
      rdv (if has_off then rd_varint l else Some (0, l)) (fun o l =>
      rdv (if has_len then rd_vvec l else Some (l, [])) (fun data l =>
      if MAX_VARINT <? o + lenN data then FErr FrameEncoding
      else FOk (FStream s o data fin (negb has_len)) l)))
  | TMaxData => rdv (rd_varint l) (fun v l => FOk (FMaxData v) l)
  | TMaxStreamData =>
      rdv (rd_varint l) (fun id l => rdv (rd_varint l) (fun v l => FOk (FMaxStreamData id v) l))
  | TMaxStreamsBiDi =>
      rdv (rd_varint l) (fun v l => if 2 ^ 60 <? v then FErr StreamLimitErr else FOk (FMaxStreams true v) l)
  | TMaxStreamsUniDi =>
      rdv (rd_varint l) (fun v l => if 2 ^ 60 <? v then FErr StreamLimitErr else FOk (FMaxStreams false v) l)
  | TDataBlocked => rdv (rd_varint l) (fun v l => FOk (FDataBlocked v) l)
  | TStreamDataBlocked =>
      rdv (rd_varint l) (fun id l => rdv (rd_varint l) (fun v l => FOk (FStreamDataBlocked id v) l))
  | TStreamsBlockedBiDi =>
      rdv (rd_varint l) (fun v l => if 2 ^ 60 <? v then FErr StreamLimitErr else FOk (FStreamsBlocked true v) l)
  | TStreamsBlockedUniDi =>
      rdv (rd_varint l) (fun v l => if 2 ^ 60 <? v then FErr StreamLimitErr else FOk (FStreamsBlocked false v) l)
  | TNewConnectionId =>
      rdv (rd_varint l) (fun sn l => rdv (rd_varint l) (fun rp l =>
      if sn <? rp then FErr FrameEncoding else
      rdv (rd_vec 1 l) (fun cid l =>
      if (lenN cid =? 0) || (CID_MAX_LEN <? lenN cid) then FErr FrameEncoding else
      rdv (rd_bytes SRT_LEN l) (fun srt l => FOk (FNewConnectionId sn rp cid srt) l))))
  | TRetireConnectionId => rdv (rd_varint l) (fun v l => FOk (FRetireConnectionId v) l)
  | TPathChallenge => rdv (rd_bytes 8 l) (fun data l => FOk (FPathChallenge data) l)
  | TPathResponse => rdv (rd_bytes 8 l) (fun data l => FOk (FPathResponse data) l)
  | TConnectionCloseTransport =>
      rdv (rd_varint l) (fun c l => rdv (rd_varint l) (fun ft l => rdv (rd_vvec l) (fun rp l =>
      FOk (FConnectionClose true c ft rp) l)))
  | TConnectionCloseApplication =>
      rdv (rd_varint l) (fun c l => rdv (rd_vvec l) (fun rp l => FOk (FConnectionClose false c 0 rp) l))
  | THandshakeDone => FOk FHandshakeDone l
  | TAckFrequency =>
      rdv (rd_varint l) (fun sn l => rdv (rd_varint l) (fun tol l =>
      if tol =? 0 then FErr FrameEncoding else
      rdv (rd_varint l) (fun delay l => rdv (rd_n 1 l) (fun io l =>
      if io =? 0 then FOk (FAckFrequency sn tol delay false) l
      else if io =? 1 then FOk (FAckFrequency sn tol delay true) l
      else FErr FrameEncoding))))
  | TDatagram => FOk (FDatagram l true) []
  | TDatagramWithLen => rdv (rd_vvec l) (fun data l => FOk (FDatagram data false) l)
  end.

(** frame.rs:458-722 [Frame::decode], with the check at 513-523 that the type is
    minimally encoded. *)
Definition frame_decode (l : list N) : fres :=
  rdv (rd_varint l) (fun t r =>
  match varint_len t with
  | Some n =>
      if n =? lenN l - lenN r
      then match ftype_from t with Some ft => decode_body ft r | None => FErr UnknownFrameType end
      else FErr ProtocolViolation
  | None => FErr ProtocolViolation (* not reached: t < 2^62 *)
  end).

(** frame.rs:369-407 [decode_ack_frame]; ranges are (start, end), inclusive. *)
Fixpoint ack_ranges_loop (cur : N) (rs : list (N * N)) : option (list (N * N)) :=
  match rs with
  | [] => Some []
  | (gap, range) :: rest =>
      if cur <? gap + 1 then None
      else
        let cur := cur - gap - 1 in
        if cur <? range then None
        else
          let next := if range + 1 <? cur then cur - (range + 1) else cur - range in
          match ack_ranges_loop next rest with
          | Some more => Some ((cur - range, cur) :: more)
          | None => None
          end
  end.
Definition decode_ack_frame (largest first : N) (rs : list (N * N)) : option (list (N * N)) :=
  if largest <? first then None
  else match rs with
       | [] => Some [(largest - first, largest)]
       | _ :: _ =>
           if largest <? first + 1 then None
           else match ack_ranges_loop (largest - first - 1) rs with
                | Some more => Some ((largest - first, largest) :: more)
                | None => None
                end
       end.

(** frame.rs:260-303 [get_type]. *)
Definition stream_type (fin nonzero_offset fill : bool) : ftype := TStream nonzero_offset (negb fill) fin.
Definition get_type (f : frame) : ftype :=
  match f with
  | FPadding _ => TPadding | FPing => TPing | FAck _ _ _ _ _ => TAck
  | FResetStream _ _ _ => TResetStream | FResetStreamAt _ _ _ _ => TResetStreamAt
  | FStopSending _ _ => TStopSending | FCrypto _ _ => TCrypto | FNewToken _ => TNewToken
  | FStream _ off _ fin fill => stream_type fin (0 <? off) fill
  | FMaxData _ => TMaxData | FMaxStreamData _ _ => TMaxStreamData
  | FMaxStreams true _ => TMaxStreamsBiDi | FMaxStreams false _ => TMaxStreamsUniDi
  | FDataBlocked _ => TDataBlocked | FStreamDataBlocked _ _ => TStreamDataBlocked
  | FStreamsBlocked true _ => TStreamsBlockedBiDi | FStreamsBlocked false _ => TStreamsBlockedUniDi
  | FNewConnectionId _ _ _ _ => TNewConnectionId | FRetireConnectionId _ => TRetireConnectionId
  | FPathChallenge _ => TPathChallenge | FPathResponse _ => TPathResponse
  | FConnectionClose true _ _ _ => TConnectionCloseTransport
  | FConnectionClose false _ _ _ => TConnectionCloseApplication
  | FHandshakeDone => THandshakeDone | FAckFrequency _ _ _ _ => TAckFrequency
  | FDatagram _ false => TDatagram | FDatagram _ true => TDatagramWithLen
  end.

(** frame.rs:338-348 [ack_eliciting], 350-360 [path_probing]. *)
Definition ack_eliciting (f : frame) : bool :=
  match f with FAck _ _ _ _ _ | FPadding _ | FConnectionClose _ _ _ _ => false | _ => true end.
Definition path_probing (f : frame) : bool :=
  match f with
  | FPadding _ | FNewConnectionId _ _ _ _ | FPathChallenge _ | FPathResponse _ => true
  | _ => false
  end.

(* ------------------------------------------------------------------ *)
(** ** Writers

    A writer sees [remaining], the space left in the packet, and returns [Some bytes] if
    it wrote a frame and [None] if it wrote nothing.  The outer [option] is [None] on a
    panic ([encode_varint] of a value of 2^62 or more, unsigned underflow). *)
Definition wres := option (option (list N)).

Fixpoint vbs (vs : list N) : option (list N) :=
  match vs with
  | [] => Some []
  | v :: r => match varint_bytes v, vbs r with Some a, Some b => Some (a ++ b) | _, _ => None end
  end.
Fixpoint vlens (vs : list N) : option N :=
  match vs with
  | [] => Some 0
  | v :: r => match varint_len v, vlens r with Some a, Some b => Some (a + b) | _, _ => None end
  end.

(** frame.rs:748-762 [encode_frame] of a type and varints, then raw bytes. *)
Definition fbytes (t : ftype) (vs : list N) (tail : list N) : option (list N) :=
  match vbs (ftype_num t :: vs) with Some a => Some (a ++ tail) | None => None end.

(** packet/mod.rs:455-473 [write_varint_frame]. *)
Definition write_varint_frame (remaining : N) (values : list N) : wres :=
  match vlens values, vbs values with
  | Some n, Some b => Some (if n <=? remaining then Some b else None)
  | _, _ => None
  end.

(** The users of [write_varint_frame]: send_stream.rs:1231-1246, recv_stream.rs:1275-1279,
    fc.rs:178, 197-201, 219-227, 472, 531-535, 594-602, ackrate.rs:48-56. *)
Definition wr_reset_stream (rem id err final reliable : N) : wres :=
  if reliable =? 0 then write_varint_frame rem [ftype_num TResetStream; id; err; final]
  else write_varint_frame rem [ftype_num TResetStreamAt; id; err; final; reliable].
Definition wr_stop_sending (rem id err : N) : wres :=
  write_varint_frame rem [ftype_num TStopSending; id; err].
Definition wr_data_blocked (rem limit : N) : wres := write_varint_frame rem [ftype_num TDataBlocked; limit].
Definition wr_stream_data_blocked (rem id limit : N) : wres :=
  write_varint_frame rem [ftype_num TStreamDataBlocked; id; limit].
Definition wr_streams_blocked (rem : N) (bidi : bool) (limit : N) : wres :=
  write_varint_frame rem [ftype_num (if bidi then TStreamsBlockedBiDi else TStreamsBlockedUniDi); limit].
Definition wr_max_data (rem v : N) : wres := write_varint_frame rem [ftype_num TMaxData; v].
Definition wr_max_stream_data (rem id v : N) : wres := write_varint_frame rem [ftype_num TMaxStreamData; id; v].
Definition wr_max_streams (rem : N) (bidi : bool) (v : N) : wres :=
  write_varint_frame rem [ftype_num (if bidi then TMaxStreamsBiDi else TMaxStreamsUniDi); v].
Definition wr_ack_frequency (rem seqno packets delay_us : N) : wres :=
  write_varint_frame rem [ftype_num TAckFrequency; seqno; packets + 1; delay_us; 0].

(** A frame is written iff [need] bytes are available. *)
Definition wr_if (rem : N) (need : option N) (b : option (list N)) : wres :=
  match need with
  | None => None
  | Some n => if n <=? rem then match b with Some l => Some (Some l) | None => None end else Some None
  end.

(** connection/mod.rs:2524 (debug_assert that some space remains), pmtud.rs:164. *)
Definition wr_ping (rem : N) : wres := wr_if rem (Some 1) (fbytes TPing [] []).
(** connection/state.rs:185-194. *)
Definition wr_handshake_done (rem : N) : wres := wr_if rem (Some 1) (fbytes THandshakeDone [] []).
(** addr_valid.rs:401-405, 434-439. *)
Definition wr_new_token (rem : N) (token : list N) : wres :=
  wr_if rem (match vvec_len (lenN token) with Some n => Some (1 + n) | None => None end)
        (fbytes TNewToken [lenN token] token).
(** cid.rs:290-308. *)
Definition wr_new_connection_id (rem seqno : N) (cid srt : list N) : wres :=
  wr_if rem (match varint_len seqno with Some n => Some (1 + n + 1 + 1 + lenN cid + SRT_LEN) | None => None end)
        (fbytes TNewConnectionId [seqno; 0] (be_bytes 1 (lenN cid) ++ cid ++ srt)).
(** path.rs:414-421. *)
Definition wr_retire_connection_id (rem seqno : N) : wres :=
  wr_if rem (match varint_len seqno with Some n => Some (1 + n) | None => None end)
        (fbytes TRetireConnectionId [seqno] []).
(** path.rs:860-871, 885-890. *)
Definition wr_path_response (rem : N) (data : list N) : wres := wr_if rem (Some 9) (fbytes TPathResponse [] data).
Definition wr_path_challenge (rem : N) (data : list N) : wres := wr_if rem (Some 9) (fbytes TPathChallenge [] data).

(** connection/state.rs:123-156 [ClosingFrame::write_frame]. *)
Definition CLOSE_MIN_LENGTH : N := 1 + 8 + 8 + 2 + 8.
Definition wr_close (rem : N) (transport : bool) (code ft : N) (reason_phrase : list N) : wres :=
  if rem <? CLOSE_MIN_LENGTH then Some None
  else
    let available := N.min 256 rem in
    match vvec_len (lenN reason_phrase) with
    | None => None
    | Some vl =>
        let reason := if available <? vl then firstnN (available - 2) reason_phrase else reason_phrase in
        let b := if transport then fbytes TConnectionCloseTransport [code; ft; lenN reason] reason
                 else fbytes TConnectionCloseApplication [code; lenN reason] reason in
        match b with Some l => Some (Some l) | None => None end
    end.

(** quic_datagrams.rs:105-124: one datagram. *)
Definition MINIMUM_FRAME_SIZE : N := 2.
Definition wr_datagram (rem : N) (data : list N) : option (option (list N * bool)) :=
  if lenN data + 1 <=? rem then
    match varint_len (lenN data) with
    | None => None
    | Some ll =>
        if 1 + ll + lenN data + MINIMUM_FRAME_SIZE <=? rem
        then match fbytes TDatagramWithLen [lenN data] data with Some l => Some (Some (l, false)) | None => None end
        else match fbytes TDatagram [] data with Some l => Some (Some (l, true)) | None => None end
    end
  else Some None.

(** send_stream.rs:1036-1055 [length_and_fill]. *)
Definition length_and_fill (data_len space : N) : option (N * bool) :=
  if space <=? data_len then Some (space, true)
  else match varint_len (N.min (space - 1) data_len) with
       | None => None
       | Some ll => Some (data_len, space <? data_len + ll + MINIMUM_FRAME_SIZE)
       end.

(** send_stream.rs:1083-1137 [write_stream_frame] once [next_bytes] returned
    [(offset, data)].  Returns the bytes, the length and FIN recorded as sent, and
    whether the packet was marked full. *)
Definition wr_stream (rem id offset : N) (data : list N) (fin_offset : option N)
  : option (option (list N * N * bool * bool)) :=
  match varint_len id, (if 0 <? offset then varint_len offset else Some 0) with
  | Some li, Some lo =>
      let overhead := 1 + li + lo in
      if rem <? overhead then Some None
      else
        match length_and_fill (lenN data) (rem - overhead) with
        | None => None
        | Some (len, fill) =>
            let fin := match fin_offset with Some fo => fo =? offset + len | None => false end in
            if (len =? 0) && negb fin then Some None
            else
              let d := firstnN len data in
              let ids := id :: (if 0 <? offset then [offset] else []) in
              match fbytes (stream_type fin (0 <? offset) fill)
                           (ids ++ (if fill then [] else [lenN d])) d with
              | Some l => Some (Some (l, len, fin, fill))
              | None => None
              end
        end
  | _, _ => None
  end.

(** crypto.rs:1651-1679 [write_chunk]; returns the bytes and the recorded length. *)
Definition wr_crypto (rem offset : N) (data : list N) : option (option (list N * N)) :=
  match varint_len offset with
  | None => None
  | Some lo =>
      let header := 1 + lo + 1 in
      if rem <? header + 1 then Some None
      else
        let length := N.min (lenN data) (rem - header) in
        match varint_len length with
        | None => None
        | Some ll =>
            let header := header + (ll - 1) in
            if rem <? header then None
            else
              let length := N.min (lenN data) (rem - header) in
              match fbytes TCrypto [offset; lenN (firstnN length data)] (firstnN length data) with
              | Some l => Some (Some (l, length))
              | None => None
              end
        end
  end.

(** tracking.rs:473-502, the ACK encoding.  [ranges] are (largest, smallest), the first
    one separate; [ecn] is [Some] iff one of the counts is non-zero. *)
Fixpoint ack_tail (last : N) (ranges : list (N * N)) : option (list N) :=
  match ranges with
  | [] => Some []
  | (lg, sm) :: rest =>
      if (last <? lg + 2) || (lg <? sm) then None
      else match ack_tail sm rest with
           | Some more => Some ((last - lg - 2) :: (lg - sm) :: more)
           | None => None
           end
  end.
Definition ack_frame_bytes (first : N * N) (rest : list (N * N)) (delay : N) (ecn : option (N * N * N))
  : option (list N) :=
  let '(lg, sm) := first in
  if lg <? sm then None
  else
    match ack_tail sm rest with
    | None => None
    | Some tail =>
        fbytes (match ecn with Some _ => TAckEcn | None => TAck end)
               (lg :: delay :: lenN rest :: (lg - sm) :: tail
                ++ match ecn with Some (e0, e1, ce) => [e0; e1; ce] | None => [] end) []
    end.
