(** HTTP/3 frames: neqo-http3/src/frames/{reader,hframe,wtframe,capsule}.rs and settings.rs. *)
From Verif Require Import Base Lib CodecModel Reader.
Open Scope N_scope.
Open Scope list_scope.
Import ListNotations.

(** neqo-http3/src/lib.rs [Error], the values used here; [HPanic] is a panic. *)
Inductive herr := HttpFrame | HttpFrameUnexpected | HttpExcessiveLoad | HttpSettings | HttpMessage.
Inductive hres (A : Type) := HOk (a : A) | HErr (e : herr) | HPanic.
Arguments HOk {A}. Arguments HErr {A}. Arguments HPanic {A}.

(** *** settings.rs *)
(** 38-46 [HSettingType]; 48-57 [hsetting_default]. *)
Inductive stype := MaxHeaderListSize | MaxTableCapacity | BlockedStreams | EnableWebTransport | EnableH3Datagram | EnableConnect.
Definition stype_eqb (a b : stype) : bool :=
  match a, b with
  | MaxHeaderListSize, MaxHeaderListSize | MaxTableCapacity, MaxTableCapacity | BlockedStreams, BlockedStreams
  | EnableWebTransport, EnableWebTransport | EnableH3Datagram, EnableH3Datagram | EnableConnect, EnableConnect => true
  | _, _ => false
  end.
Definition s_default (t : stype) : N := match t with MaxHeaderListSize => 2 ^ 62 | _ => 0 end.
(** 59-79 [HSettings]; 89-95 [get]. *)
Definition settings := list (stype * N).
Definition s_get (s : settings) (t : stype) : N := match find (fun p => stype_eqb (fst p) t) s with Some p => snd p | None => s_default t end.
(** 20-35: the identifiers. *)
Definition ID_MAX_HEADER_LIST_SIZE := 0x6.
Definition ID_TABLE_CAPACITY := 0x1.
Definition ID_BLOCKED_STREAMS := 0x7.
Definition ID_WEB_TRANSPORT := 0x2b603742.
Definition ID_DATAGRAM_DRAFT04 := 0xffd277.
Definition ID_DATAGRAM := 0x33.
Definition ID_CONNECT := 0x08.
Definition RESERVED_SETTINGS : list N := [0x2; 0x3; 0x4; 0x5].
(** codec.rs [encode_varint] one after the other; None is its panic above 2^62. *)
Fixpoint varints (l : list N) : option (list N) :=
  match l with
  | [] => Some []
  | v :: l' => match varint_bytes v, varints l' with Some a, Some b => Some (a ++ b) | _, _ => None end
  end.
(** 97-134 the loop of [encode_frame_contents]. *)
Definition s_ids (p : stype * N) : list N :=
  let '(t, v) := p in
  match t with
  | MaxHeaderListSize => [ID_MAX_HEADER_LIST_SIZE; v]
  | MaxTableCapacity => [ID_TABLE_CAPACITY; v]
  | BlockedStreams => [ID_BLOCKED_STREAMS; v]
  | EnableWebTransport => [ID_WEB_TRANSPORT; v]
  | EnableH3Datagram => if v =? 1 then [ID_DATAGRAM_DRAFT04; v; ID_DATAGRAM; v] else []
  | EnableConnect => if v =? 1 then [ID_CONNECT; v] else []
  end.
Definition s_encode (s : settings) : option (list N) := varints (concat (map s_ids s)).
(** 141-213 [decode_frame_contents]; [inl]: the error, true for HttpSettings and false for NotEnoughData.
    Where a failed [decode_varint] leaves the position does not matter: it is an error in any case. *)
Definition mem (x : N) (l : list N) : bool := existsb (N.eqb x) l.
Definition dec_v (l : list N) : option N * list N := match rd_varint l with Some (v, r) => (Some v, r) | None => (None, l) end.
Definition s_has_datagram (s : settings) : bool := existsb (fun p => stype_eqb (fst p) EnableH3Datagram) s.
Definition s_bool (v : N) (s : settings) : bool + settings := if 1 <? v then inl true else inr s.
Definition s_one (s : settings) (t : N) (v : N) : bool + settings :=
  if t =? ID_MAX_HEADER_LIST_SIZE then inr (s ++ [(MaxHeaderListSize, v)])
  else if t =? ID_TABLE_CAPACITY then inr (s ++ [(MaxTableCapacity, v)])
  else if t =? ID_BLOCKED_STREAMS then inr (s ++ [(BlockedStreams, v)])
  else if t =? ID_WEB_TRANSPORT then s_bool v (s ++ [(EnableWebTransport, v)])
  else if (t =? ID_DATAGRAM_DRAFT04) || (t =? ID_DATAGRAM) then s_bool v (if s_has_datagram s then s else s ++ [(EnableH3Datagram, v)])
  else if t =? ID_CONNECT then s_bool v (s ++ [(EnableConnect, v)])
  else inr s.
Fixpoint s_decode (fuel : nat) (s : settings) (l : list N) : bool + settings :=
  match l with
  | [] => inr s
  | _ =>
      match fuel with
      | O => inl false
      | S f =>
          let '(t, r1) := dec_v l in
          let '(v, r2) := dec_v r1 in
          if match t with Some t => mem t RESERVED_SETTINGS | None => false end then inl true
          else match t, v with
               | Some t, Some v => match s_one s t v with inr s' => s_decode f s' r2 | inl e => inl e end
               | _, _ => inl false
               end
      end
  end.
(** conn_params.rs [Http3Parameters], the values used here; settings.rs 223-250 [From<&Http3Parameters>]. *)
Record params := mkP { p_table : N; p_blocked : N; p_wt : bool; p_datagram : bool; p_connect : bool }.
Definition b2n (b : bool) : N := if b then 1 else 0.
Definition settings_of_params (p : params) : settings :=
  [(MaxTableCapacity, p_table p); (BlockedStreams, p_blocked p); (EnableWebTransport, b2n (p_wt p)); (EnableH3Datagram, b2n (p_datagram p)); (EnableConnect, b2n (p_connect p))].
(** 252-281 [HttpZeroRttChecker::save]; 16-18 [SETTINGS_ZERO_RTT_VERSION]. *)
Definition ZERO_RTT_VERSION := 1.
Definition zrtt_save (p : params) : option (list N) :=
  varints ([ZERO_RTT_VERSION; ID_TABLE_CAPACITY; p_table p; ID_BLOCKED_STREAMS; p_blocked p]
           ++ (if p_wt p then [ID_WEB_TRANSPORT; 1] else []) ++ (if p_datagram p then [ID_DATAGRAM; 1] else [])).
(** 283-338 [check]. *)
Inductive zres := ZAccept | ZReject | ZFail.
Definition zrtt_one (p : params) (s : stype * N) : bool :=
  let '(t, v) := s in
  let flag (now : bool) := if 1 <? v then false else now || negb (v =? 1) in
  match t with
  | BlockedStreams => v <=? p_blocked p
  | MaxTableCapacity => v <=? p_table p
  | EnableWebTransport => flag (p_wt p)
  | EnableH3Datagram => flag (p_datagram p)
  | EnableConnect => flag (p_connect p)
  | MaxHeaderListSize => true
  end.
Definition zrtt_check (p : params) (token : list N) : zres :=
  match rd_varint token with
  | None => ZFail
  | Some (v, r) =>
      if negb (v =? ZERO_RTT_VERSION) then ZReject
      else match s_decode (length r) [] r with
           | inl _ => ZFail
           | inr s => if forallb (zrtt_one p) s then ZAccept else ZReject
           end
  end.

(** *** reader.rs *)
(** 21-45 the trait [FrameDecoder]. *)
Record fdec (F : Type) := mkFD {
  fd_known : N -> bool;
  fd_allowed : N -> bool;
  fd_max : N -> N;
  fd_decode : N -> N -> option (list N) -> hres (option F) }.
Arguments mkFD {F}. Arguments fd_known {F}. Arguments fd_allowed {F}. Arguments fd_max {F}. Arguments fd_decode {F}.
(** 19 *)
Definition MAX_READ_SIZE : nat := N.to_nat 2048.
(** 97-110 [FrameReaderState], [FrameReader] (the buffer is the bytes of one read). *)
Inductive fstate := GetType (d : incr_uint) | GetLength (d : incr_uint) | GetData (d : incr_buf) | Discharge (d : nat).
Record reader := mkR { r_state : fstate; r_type : N; r_len : N }.
(** 127-148 [new], [new_with_type]. *)
Definition r_new : reader := mkR (GetType iu_default) (2 ^ 64 - 1) 0.
Definition r_new_with_type (t : N) : reader := mkR (GetLength iu_default) t 0.
(** 150-154 [reset]. *)
Definition r_reset (r : reader) : reader := mkR (GetType iu_default) (r_type r) (r_len r).
(** 156-164 [min_remaining]; 166-172 [decoding_in_progress] with incrdecoder.rs 23-26. *)
Definition r_min (r : reader) : nat :=
  match r_state r with GetType d | GetLength d => iu_min_remaining d | GetData d => ib_remaining d | Discharge n => n end.
Definition r_in_progress (r : reader) : bool :=
  match r_state r with GetType d => match iu_remaining d with Some _ => true | None => false end | _ => true end.
(** The stream below (reader.rs 47-95, connection.stream_recv): bytes in order in non-empty runs, so that one read
    may return less than there is; the end is reported with the last byte, or alone; after that, NoMoreData. *)
Record source := mkSrc { s_chunks : list (list N); s_fin : bool; s_over : bool }.
Definition is_nil {A} (l : list A) : bool := match l with [] => true | _ => false end.
Definition read_data (s : source) (n : nat) : option (list N * bool) * source :=
  if s_over s then (None, s)
  else match s_chunks s with
       | [] => (Some ([], s_fin s), mkSrc [] (s_fin s) (s_fin s))
       | c :: cs =>
           let rest := skipn n c in
           let cs' := if is_nil rest then cs else rest :: cs in
           let f := s_fin s && is_nil cs' in
           (Some (firstn n c, f), mkSrc cs' (s_fin s) f)
       end.
Section Reader.
  Context {F : Type} (C : fdec F).
  (** 266-273 [frame_type_decoded]. *)
  Definition type_decoded (r : reader) (t : N) : hres reader :=
    if fd_allowed C t then HOk (mkR (GetLength iu_default) t (r_len r)) else HErr HttpFrameUnexpected.
  (** 275-316 [frame_length_decoded]; usize is 64 bits. *)
  Definition length_decoded (r : reader) (len : N) : hres (option F * reader) :=
    match fd_decode C (r_type r) len (if 0 <? len then None else Some []) with
    | HErr e => HErr e
    | HPanic => HPanic
    | HOk (Some f) => HOk (Some f, mkR (GetType iu_default) (r_type r) len)
    | HOk None =>
        if fd_known C (r_type r) then
          if fd_max C (r_type r) <? len then HErr HttpExcessiveLoad
          else HOk (None, mkR (GetData (ib_new (N.to_nat len))) (r_type r) len)
        else if len =? 0 then HOk (None, mkR (GetType iu_default) (r_type r) len)
        else HOk (None, mkR (Discharge (N.to_nat len)) (r_type r) len)
    end.
  (** 318-328 [frame_data_decoded]. *)
  Definition data_decoded (r : reader) (data : list N) : hres (option F * reader) :=
    match fd_decode C (r_type r) (r_len r) (Some data) with
    | HErr e => HErr e | HPanic => HPanic
    | HOk o => HOk (o, r_reset r)
    end.
  (** 228-265 [consume]. *)
  Definition consume (r : reader) (bytes : list N) : hres (option F * reader) :=
    let d := dec_new bytes in
    match r_state r with
    | GetType u =>
        match iu_consume u d with
        | None => HPanic
        | Some (None, u', _) => HOk (None, mkR (GetType u') (r_type r) (r_len r))
        | Some (Some v, u', _) => match type_decoded r v with HOk r' => HOk (None, r') | HErr e => HErr e | HPanic => HPanic end
        end
    | GetLength u =>
        match iu_consume u d with
        | None => HPanic
        | Some (None, u', _) => HOk (None, mkR (GetLength u') (r_type r) (r_len r))
        | Some (Some v, u', _) => length_decoded r v
        end
    | GetData b =>
        match ib_consume b d with
        | (None, b', _) => HOk (None, mkR (GetData b') (r_type r) (r_len r))
        | (Some data, b', _) => data_decoded (mkR (GetData b') (r_type r) (r_len r)) data
        end
    | Discharge n =>
        match ii_consume n d with
        | (true, _, _) => HOk (None, r_reset r)
        | (false, n', _) => HOk (None, mkR (Discharge n') (r_type r) (r_len r))
        end
    end.
  (** 174-226 [receive]; errors of the transport other than NoMoreData and InvalidStreamId are not modelled. *)
  Fixpoint receive (fuel : nat) (r : reader) (s : source) : hres (option F * bool * reader * source) :=
    match fuel with
    | O => HPanic
    | S fuel' =>
        match read_data s (Nat.min (r_min r) MAX_READ_SIZE) with
        | (None, s') => HOk (None, false, r, s')
        | (Some (b, fin), s') =>
            match (if is_nil b then HOk (None, r) else consume r b) with
            | HErr e => HErr e | HPanic => HPanic
            | HOk (Some f, r') => HOk (Some f, fin, r', s')
            | HOk (None, r') =>
                if fin then if r_in_progress r' then HErr HttpFrame else HOk (None, true, r', s')
                else if is_nil b then HOk (None, false, r', s')
                else receive fuel' r' s'
            end
        end
    end.
  (** Every round but the last takes a byte. *)
  Definition r_receive (r : reader) (s : source) : hres (option F * bool * reader * source) := receive (2 + length (concat (s_chunks s))) r s.
End Reader.

(** *** hframe.rs *)
(** priority.rs 14-26 [Priority]. *)
Record priority := mkPr { pr_urgency : N; pr_incremental : bool }.
(** 54-90 [HFrame]. *)
Inductive hframe :=
  | FData (len : N) | FHeaders (block : list N) | FCancelPush (id : N) | FSettings (s : settings) | FPushPromise (id : N) (block : list N)
  | FGoaway (id : N) | FMaxPushId (id : N) | FGrease | FPriorityRequest (id : N) (p : priority) | FPriorityPush (id : N) (p : priority).
(** 24-45: types and limits. *)
Definition T_DATA := 0x0. Definition T_HEADERS := 0x1. Definition T_CANCEL_PUSH := 0x3. Definition T_SETTINGS := 0x4.
Definition T_PUSH_PROMISE := 0x5. Definition T_GOAWAY := 0x7. Definition T_MAX_PUSH_ID := 0xd.
Definition T_PRIORITY_REQUEST := 0xf0700. Definition T_PRIORITY_PUSH := 0xf0701.
Definition RESERVED_TYPES : list N := [0x2; 0x6; 0x8; 0x9].
Definition MAX_HEADER_BYTES := 384 * 1024.
Definition MAX_SINGLE_VARINT := 8.
Definition MAX_BUFFERED := 4 * 1024.
(** priority.rs 76-99 [Display]: "", "i", "u=N", "u=N,i". *)
Definition priority_text (p : priority) : list N :=
  (if pr_urgency p =? 3 then [] else [117; 61; 48 + pr_urgency p])
  ++ (if pr_incremental p then (if pr_urgency p =? 3 then [105] else [44; 105]) else []).
(** 92-112 [get_type]; [r]: the random 64 bits. *)
Definition h_type (r : N) (f : hframe) : N :=
  match f with
  | FData _ => T_DATA | FHeaders _ => T_HEADERS | FCancelPush _ => T_CANCEL_PUSH | FSettings _ => T_SETTINGS | FPushPromise _ _ => T_PUSH_PROMISE
  | FGoaway _ => T_GOAWAY | FMaxPushId _ => T_MAX_PUSH_ID | FPriorityRequest _ _ => T_PRIORITY_REQUEST | FPriorityPush _ _ => T_PRIORITY_PUSH
  | FGrease => N.shiftr r 7 * 0x1f + 0x21
  end.
(** codec.rs [encode_vvec], [encode_vvec_with]: the length in its shortest form and the bytes. *)
Definition vvec (l : list N) : option (list N) := match varint_bytes (lenN l) with Some p => Some (p ++ l) | None => None end.
Definition obind {A B} (x : option A) (f : A -> option B) : option B := match x with Some a => f a | None => None end.
(** 114-166 [encode]; [g]: the eight random bytes of a Grease payload; None is a panic. *)
Definition h_body (g : list N) (f : hframe) : option (list N) :=
  match f with
  | FData len => varint_bytes len
  | FHeaders b => vvec b
  | FCancelPush i | FGoaway i | FMaxPushId i => obind (varint_bytes i) vvec
  | FSettings s => obind (s_encode s) vvec
  | FPushPromise i b =>
      obind (varint_len i) (fun k => obind (varint_bytes (lenN b + k)) (fun l => obind (varint_bytes i) (fun w => Some (l ++ w ++ b))))
  | FGrease => match g with a :: g' => vvec (firstn (N.to_nat (N.land a 7)) g') | [] => None end
  | FPriorityRequest i p | FPriorityPush i p => obind (varint_bytes i) (fun w => vvec (w ++ priority_text p))
  end.
Definition h_encode (r : N) (g : list N) (f : hframe) : option (list N) :=
  obind (varint_bytes (h_type r f)) (fun t => obind (h_body g f) (fun b => Some (t ++ b))).
(** 173-178, 180-193, 255-268. *)
Definition h_allowed (t : N) : bool := negb (mem t RESERVED_TYPES).
Definition h_max (t : N) : N :=
  if mem t [T_HEADERS; T_PUSH_PROMISE] then MAX_HEADER_BYTES
  else if mem t [T_CANCEL_PUSH; T_GOAWAY; T_MAX_PUSH_ID] then MAX_SINGLE_VARINT
  else if mem t [T_SETTINGS; T_PRIORITY_REQUEST; T_PRIORITY_PUSH] then MAX_BUFFERED
  else 2 ^ 64 - 1.
Definition h_known (t : N) : bool :=
  mem t [T_DATA; T_HEADERS; T_CANCEL_PUSH; T_SETTINGS; T_PUSH_PROMISE; T_GOAWAY; T_MAX_PUSH_ID; T_PRIORITY_REQUEST; T_PRIORITY_PUSH].
(** 195-253 [decode]; [prio]: [Priority::from_bytes] (priority.rs 46-73, the parser of crate sfv), not modelled. *)
Definition h_varint (p : list N) (f : N -> hframe) : hres (option hframe * list N) :=
  match rd_varint p with Some (v, r) => HOk (Some (f v), r) | None => HErr HttpFrame end.
Definition h_payload (prio : list N -> option priority) (t : N) (p : list N) : hres (option hframe * list N) :=
  if t =? T_HEADERS then HOk (Some (FHeaders p), [])
  else if t =? T_CANCEL_PUSH then h_varint p FCancelPush
  else if t =? T_SETTINGS then
    match s_decode (length p) [] p with
    | inl true => HErr HttpSettings
    | inl false => HErr HttpFrame
    | inr s => HOk (Some (FSettings s), [])
    end
  else if t =? T_PUSH_PROMISE then match rd_varint p with Some (v, r) => HOk (Some (FPushPromise v r), []) | None => HErr HttpFrame end
  else if t =? T_GOAWAY then h_varint p FGoaway
  else if t =? T_MAX_PUSH_ID then h_varint p FMaxPushId
  else if (t =? T_PRIORITY_REQUEST) || (t =? T_PRIORITY_PUSH) then
    match rd_varint p with
    | None => HErr HttpFrame
    | Some (v, r) =>
        match prio r with
        | None => HErr HttpFrame
        | Some q => HOk (Some (if t =? T_PRIORITY_REQUEST then FPriorityRequest v q else FPriorityPush v q), [])
        end
    end
  else HOk (None, []).
Definition h_decode (prio : list N -> option priority) (t len : N) (data : option (list N)) : hres (option hframe) :=
  if t =? T_DATA then HOk (Some (FData len))
  else match data with
       | None => HOk None
       | Some p =>
           match h_payload prio t p with
           | HErr e => HErr e | HPanic => HPanic
           | HOk (None, _) => HOk None
           | HOk (Some f, rest) => if is_nil rest then HOk (Some f) else HErr HttpFrame
           end
       end.
Definition HFRAME (prio : list N -> option priority) : fdec hframe := mkFD h_known h_allowed h_max (h_decode prio).

(** *** capsule.rs 12-62: a DATAGRAM capsule; neqo-transport [MAX_DATAGRAM_FRAME_SIZE] is 65535. *)
Definition CAPSULE_MAX := 65535.
Definition CAPSULE : fdec (list N) :=
  mkFD (fun t => t =? 0) (fun _ => true) (fun t => if t =? 0 then CAPSULE_MAX else 2 ^ 64 - 1)
       (fun t _ data => if t =? 0 then match data with Some p => HOk (Some p) | None => HOk None end else HOk None).
Definition capsule_encode (p : list N) : option (list N) := obind (varint_bytes 0) (fun t => obind (vvec p) (fun b => Some (t ++ b))).
(** *** wtframe.rs 14-85: CLOSE_SESSION, the error and the message; [utf8]: String::from_utf8. *)
Definition WT_CLOSE := 0x2843.
Definition WT_MAX := 1024 + 4.
Definition WTFRAME (utf8 : list N -> bool) : fdec (N * list N) :=
  mkFD (fun t => t =? WT_CLOSE) (fun _ => true) (fun t => if t =? WT_CLOSE then WT_MAX else 2 ^ 64 - 1)
       (fun t len data =>
          match data with
          | None => HOk None
          | Some p =>
              if t =? WT_CLOSE then
                if 1024 + 4 <? len then HErr HttpMessage
                else match rd_n 4 p with
                     | None => HErr HttpMessage
                     | Some (e, m) => if utf8 m then HOk (Some (e, m)) else HErr HttpMessage
                     end
              else HOk None
          end).
Definition wt_encode (e : N) (m : list N) : option (list N) :=
  obind (varint_bytes WT_CLOSE) (fun t => obind (varint_bytes (4 + lenN m)) (fun l => Some (t ++ l ++ be_bytes 4 e ++ m))).
