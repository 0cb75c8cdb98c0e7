(** What the first bytes of a stream say of it (RFC 9114 sections 6.1 and 6.2, RFC 9204 section 4.2, WebTransport over HTTP/3 sections
    4.2 and 4.3). *)
From Verif Require Import Base Lib CodecModel Reader HfModel HtModel.
Open Scope N_scope.
Open Scope list_scope.
Import ListNotations.

Inductive meaning := Is (t : ntype) | WithId (f : N -> ntype) | Forbidden (e : terr).
(** Of a unidirectional stream: control, push (from a server only), QPACK's two, WebTransport. Of a bidirectional one: a client's
    requests begin with a frame, HEADERS or an unknown one; servers open none but for WebTransport. *)
Definition means (uni server : bool) (t : N) : meaning :=
  match uni, server with
  | true, _ =>
      match t with
      | 0x0 => Is NControl
      | 0x1 => if server then Forbidden TCreation else WithId NPush
      | 0x2 => Is NDecoder
      | 0x3 => Is NEncoder
      | 0x54 => WithId NWebTransport
      | _ => Is NUnknown
      end
  | false, true =>
      match t with
      | 0x41 => WithId NWebTransport
      | 0x1 => Is (NHttp 1)
      | 0x2 | 0x6 | 0x8 | 0x9 => Forbidden TFrameUnexpected
      | 0x0 | 0x3 | 0x4 | 0x5 | 0x7 | 0xd | 0xf0700 | 0xf0701 => Forbidden TFrame
      | _ => Is (NHttp t)
      end
  | false, false => match t with 0x41 => WithId NWebTransport | _ => Forbidden TCreation end
  end.
Inductive heading := More | Yes (t : ntype) (rest : list N) | No (e : terr).
Definition head_of (uni server : bool) (bs : list N) : heading :=
  match rd_varint bs with
  | None => More
  | Some (t, r) =>
      match means uni server t with
      | Is nt => Yes nt r
      | Forbidden e => No e
      | WithId f => match rd_varint r with None => More | Some (id, r') => Yes (f id) r' end
      end
  end.
(** If the stream ends with its head, or within. *)
Definition ends_as (h : heading) : option terr :=
  match h with
  | More => Some TCreation
  | Yes t [] => match t with NControl | NDecoder | NEncoder => Some TClosedCritical | NPush _ | NWebTransport _ => Some TGeneral | NHttp _ => Some TFrame | NUnknown => None end
  | _ => None
  end.
(** A life: bytes arrive, the end arrives, the reader is asked. *)
Inductive tev := TArr (b : list N) | TFin | TAsk.
Inductive tstatus := TReading | TKnown (t : ntype) | TFailed (e : terr).
Record tworld := mkT { t_head : head; t_src : source; t_all : list N; t_asked : bool; t_status : tstatus }.
Definition t_init : tworld := mkT (HType iu_default) (mkSrc [] false false) [] false TReading.
Definition t_step (uni server : bool) (w : tworld) (e : tev) : option tworld :=
  match t_status w with
  | TReading =>
      let s := t_src w in
      match e with
      | TArr b => if s_fin s then Some w else Some (mkT (t_head w) (mkSrc (s_chunks s ++ if is_nil b then [] else [b]) false (s_over s)) (t_all w ++ b) false TReading)
      | TFin => if s_fin s then Some w else Some (mkT (t_head w) (mkSrc (s_chunks s) true (s_over s)) (t_all w) false TReading)
      | TAsk =>
          let '(r, h, s') := get_type 2 uni server (t_head w) s in
          match r with
          | TOk None => Some (mkT h s' (t_all w) true TReading)
          | TOk (Some t) => Some (mkT h s' (t_all w) true (TKnown t))
          | TErr e => Some (mkT h s' (t_all w) true (TFailed e))
          | TTransport | TPanic => None
          end
      end
  | _ => Some w
  end.
Fixpoint t_run (uni server : bool) (w : tworld) (es : list tev) : option tworld :=
  match es with [] => Some w | e :: es' => match t_step uni server w e with Some w' => t_run uni server w' es' | None => None end end.
