(** Which kind of stream the peer has opened: neqo-http3/src/stream_type_reader.rs. *)
From Verif Require Import Base Lib CodecModel HfModel.
Open Scope N_scope.
Open Scope list_scope.
Import ListNotations.

(** 23-31 [NewStreamType]; QPACK's encoder stream is read by our decoder and the other way round. *)
Inductive ntype := NControl | NDecoder | NEncoder | NPush (id : N) | NWebTransport (id : N) | NHttp (t : N) | NUnknown.
(** neqo-http3/src/lib.rs [Error], those used here. *)
Inductive terr := TCreation | TFrame | TFrameUnexpected | TClosedCritical | TGeneral.
Definition PUSH_STREAM := 0x1. Definition WT_UNI := 0x54. Definition WT_BIDI := 0x41.
Definition CONTROL_STREAM := 0x0. Definition QPACK_ENCODER_STREAM := 0x2. Definition QPACK_DECODER_STREAM := 0x3.
(** neqo-http3/src/frames/hframe.rs 241-253 [is_known_type]. *)
Definition known_frame (t : N) : bool :=
  mem t [T_DATA; T_HEADERS; T_CANCEL_PUSH; T_SETTINGS; T_PUSH_PROMISE; T_GOAWAY; T_MAX_PUSH_ID; T_PRIORITY_REQUEST; T_PRIORITY_PUSH].
(** 42-74 [final_stream_type]: an error, the type, or None if an identifier follows. *)
Definition final_type (t : N) (uni server : bool) : option ntype + terr :=
  if uni && (t =? CONTROL_STREAM) then inl (Some NControl)
  else if uni && (t =? QPACK_ENCODER_STREAM) then inl (Some NDecoder)
  else if uni && (t =? QPACK_DECODER_STREAM) then inl (Some NEncoder)
  else if (uni && (t =? PUSH_STREAM) && negb server) || (uni && (t =? WT_UNI)) || (negb uni && (t =? WT_BIDI)) then inl None
  else if negb uni && server then
    if negb (h_allowed t) then inr TFrameUnexpected
    else if known_frame t && negb (t =? T_HEADERS) then inr TFrame
    else inl (Some (NHttp t))
  else if (uni && (t =? PUSH_STREAM) && server) || (negb uni && negb server) then inr TCreation
  else inl (Some NUnknown).
(** 84-96 [NewStreamHeadReader]. *)
Inductive head := HType (u : incr_uint) | HId (t : N) (u : incr_uint) | HDone.
(** None is a panic; reading after the end is the transport's error, which does not arise. *)
Inductive tres (A : Type) := TOk (a : A) | TErr (e : terr) | TTransport | TPanic.
Arguments TOk {A}. Arguments TErr {A}. Arguments TTransport {A}. Arguments TPanic {A}.
(** 107-133 [read]. *)
Fixpoint t_read (fuel : nat) (u : incr_uint) (s : source) : tres (option N * bool * incr_uint * source) :=
  match fuel with
  | O => TPanic
  | S fuel' =>
      match read_data s (Nat.min (iu_min_remaining u) 16) with
      | (None, _) => TTransport
      | (Some ([], f), s') => TOk (None, f, u, s')
      | (Some (b, f), s') =>
          match iu_consume u (dec_new b) with
          | None => TPanic
          | Some (Some v, u', _) => TOk (Some v, f, u', s')
          | Some (None, u', _) => if f then TOk (None, f, u', s') else t_read fuel' u' s'
          end
      end
  end.
Definition t_fuel (s : source) : nat := S (length (concat (s_chunks s))).
(** 190-203 [map_stream_fin]. *)
Definition stream_fin (t : option ntype) : tres (option ntype) :=
  match t with
  | Some NControl | Some NEncoder | Some NDecoder => TErr TClosedCritical
  | None => TErr TCreation
  | Some (NHttp _) => TErr TFrame
  | Some NUnknown => TOk (Some NUnknown)
  | Some (NPush _) | Some (NWebTransport _) => TPanic
  end.
(** 135-188 [get_type]: at most two rounds; the error or the type, the reader afterwards, and the stream. *)
Fixpoint get_type (rounds : nat) (uni server : bool) (h : head) (s : source) : tres (option ntype) * head * source :=
  match rounds with
  | O => (TPanic, h, s)
  | S rounds' =>
      match h with
      | HDone => (TOk None, h, s)
      | HType u =>
          match t_read (t_fuel s) u s with
          | TOk (None, fin, u', s') => if fin then (TErr TCreation, HDone, s') else (TOk None, HType u', s')
          | TOk (Some v, fin, _, s') =>
              match final_type v uni server with
              | inr e => (TErr e, HDone, s')
              | inl t =>
                  if fin then (stream_fin t, HDone, s')
                  else match t with Some t => (TOk (Some t), HDone, s') | None => get_type rounds' uni server (HId v iu_default) s' end
              end
          | TErr e => (TErr e, h, s) | TTransport => (TTransport, h, s) | TPanic => (TPanic, h, s)
          end
      | HId t u =>
          match t_read (t_fuel s) u s with
          | TOk (None, fin, u', s') => if fin then (TErr TCreation, HDone, s') else (TOk None, HId t u', s')
          | TOk (Some v, fin, _, s') => (if fin then TErr TGeneral else TOk (Some (if t =? PUSH_STREAM then NPush v else NWebTransport v)), HDone, s')
          | TErr e => (TErr e, h, s) | TTransport => (TTransport, h, s) | TPanic => (TPanic, h, s)
          end
      end
  end.
