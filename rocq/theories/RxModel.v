(** Reassembly of received stream data: neqo-transport/src/recv_stream.rs, [RxStreamOrderer]. *)
From Verif Require Import Base CodecModel FcModel.

(** A BTreeMap from offsets to bytes: an association list in increasing order of keys. *)
Definition rmap := list (N * list N).
Fixpoint m_insert (k : N) (v : list N) (l : rmap) : rmap :=
  match l with
  | [] => [(k, v)]
  | (k', v') :: r => if k <? k' then (k, v) :: l else if k =? k' then (k, v) :: r else (k', v') :: m_insert k v r
  end.
Definition m_remove (k : N) (l : rmap) : rmap := filter (fun e => negb (fst e =? k)) l.
Definition m_get (k : N) (l : rmap) : option (list N) :=
  match filter (fun e => fst e =? k) l with (_, v) :: _ => Some v | [] => None end.
Fixpoint m_last (l : rmap) : option (N * list N) :=
  match l with [] => None | [e] => Some e | _ :: r => m_last r end.
(** range(..=k).next_back() *)
Definition m_upto (k : N) (l : rmap) : option (N * list N) := m_last (filter (fun e => fst e <=? k) l).
(** range(k..) *)
Definition m_from (k : N) (l : rmap) : rmap := filter (fun e => k <=? fst e) l.

(** recv_stream.rs:176-183 [RxStreamOrderer]. *)
Record rx := mkRx { rx_ranges : rmap; rx_retired : N; rx_received : N; rx_end : N }.
Definition rx_new : rx := mkRx [] 0 0 0.

(** recv_stream.rs:190, 193. *)
Definition RANGE_TARGET : N := 4096.
Definition MAX_GAPS : N := 4096.

(** recv_stream.rs:205-213 [check_gap_limit]: outer [None] is an underflow of the span. *)
Definition gap_check (s : rx) : option bool :=
  match csub (rx_end s) (rx_retired s) with
  | None => None
  | Some span => Some (lenN (rx_ranges s) <=? MAX_GAPS + span / RANGE_TARGET)
  end.
(** recv_stream.rs:216-219 [insert_range].  The boolean is false for PROTOCOL_VIOLATION. *)
Definition rx_insert (start : N) (data : list N) (s : rx) : option (rx * bool) :=
  let s' := mkRx (m_insert start data (rx_ranges s)) (rx_retired s) (rx_received s) (rx_end s) in
  match gap_check s' with None => None | Some ok => Some (s', ok) end.

(** recv_stream.rs:332-360: the loop over the following entries; the data to add and the
    keys to remove.  [None]: [new_data.len() - overlap] underflows. *)
Fixpoint span_next (new_end : N) (d : list N) (l : rmap) : option (list N * list N) :=
  match l with
  | [] => Some (d, [])
  | (ns, nv) :: r =>
      let overlap := new_end - ns in
      if overlap =? 0 then Some (d, [])
      else if new_end <=? ns + lenN nv then
        match csub (lenN d) overlap with None => None | Some n => Some (firstnN n d, []) end
      else match span_next new_end d r with Some (t, rm) => Some (t, ns :: rm) | None => None end
  end.

(** recv_stream.rs:307-398: from [let mut to_add] to the end. *)
Definition rx_add (st new_end : N) (d : list N) (extend : option (N * N)) (s : rx) : option (rx * bool) :=
  let late := match m_last (rx_ranges s) with Some (k, _) => st <=? k | None => false end in
  match (if late then span_next new_end d (m_from st (rx_ranges s)) else Some (d, [])) with
  | None => None
  | Some (to_add, rm) =>
      let ranges := fold_left (fun m k => m_remove k m) rm (rx_ranges s) in
      match to_add with
      | [] => Some (mkRx ranges (rx_retired s) (rx_received s) (rx_end s), true)
      | _ :: _ =>
          let s1 := mkRx ranges (rx_retired s) (rx_received s + lenN to_add) (N.max (rx_end s) new_end) in
          match extend with
          | None => rx_insert st to_add s1
          | Some (ps, plen) =>
              let add_end := st + lenN to_add in
              let '(ranges2, next) :=
                match m_get add_end ranges with
                | Some nv => if plen + lenN to_add + lenN nv <=? RANGE_TARGET then (m_remove add_end ranges, nv) else (ranges, [])
                | None => (ranges, [])
                end in
              let ranges3 :=
                match m_get ps ranges2 with
                | Some buf => m_insert ps (buf ++ to_add ++ next) ranges2
                | None => ranges2
                end in
              Some (mkRx ranges3 (rx_retired s1) (rx_received s1) (rx_end s1), true)
          end
      end
  end.

(** recv_stream.rs:234-399 [inbound_frame].  [None]: a panic (overflow or [debug_assert]). *)
Definition rx_inbound (start : N) (data : list N) (s : rx) : option (rx * bool) :=
  match chk (start + lenN data) with
  | None => None
  | Some new_end =>
      if new_end <=? rx_retired s then Some (s, true)
      else
        let '(st, d) := if start <? rx_retired s then (rx_retired s, skipnN (rx_retired s - start) data) else (start, data) in
        match d with
        | [] => Some (s, true)
        | _ :: _ =>
            if rx_end s <=? st then
              let last_end := match m_last (rx_ranges s) with Some (k, v) => k + lenN v | None => rx_retired s end in
              if negb (rx_end s =? last_end) then None
              else
                let s1 := mkRx (rx_ranges s) (rx_retired s) (rx_received s + lenN d) new_end in
                match m_last (rx_ranges s) with
                | Some (k, v) =>
                    if (st =? rx_end s) && (lenN v <? RANGE_TARGET)
                    then Some (mkRx (m_insert k (v ++ d) (rx_ranges s)) (rx_retired s) (rx_received s1) new_end, true)
                    else rx_insert st d s1
                | None => rx_insert st d s1
                end
            else
              match m_upto st (rx_ranges s) with
              | Some (ps, pv) =>
                  let pe := ps + lenN pv in
                  if pe <? new_end then
                    let overlap := pe - st in
                    let st' := st + overlap in
                    let d' := skipnN overlap d in
                    rx_add st' new_end d' (if (lenN pv <? RANGE_TARGET) && (pe =? st') then Some (ps, lenN pv) else None) s
                  else Some (s, true)
              | None => rx_add st new_end d None s
              end
        end
  end.

(** recv_stream.rs:413-419 [data_ready]. *)
Definition rx_ready (s : rx) : bool := match rx_ranges s with (k, _) :: _ => k <=? rx_retired s | [] => false end.

(** recv_stream.rs:422-447 [bytes_ready]; usize is 64 bits, so the sum does not saturate. *)
Fixpoint bytes_ready_loop (retired prev_end : N) (l : rmap) : option N :=
  match l with
  | [] => Some 0
  | (k, v) :: r =>
      match csub (lenN v) (retired - k) with
      | None => None
      | Some n =>
          if k <=? prev_end
          then match bytes_ready_loop retired (prev_end + n) r with Some m => Some (n + m) | None => None end
          else Some 0
      end
  end.
Definition rx_bytes_ready (s : rx) : option N := bytes_ready_loop (rx_retired s) (rx_retired s) (rx_ranges s).

(** recv_stream.rs:470-489 [discard_after]. *)
Definition rx_discard_after (offset : N) (s : rx) : option rx :=
  let kept := filter (fun e => fst e <? offset) (rx_ranges s) in
  match m_last kept with
  | None => Some (mkRx [] (rx_retired s) (rx_received s) (rx_retired s))
  | Some (k, v) =>
      let v' := firstnN (offset - k) v in
      Some (mkRx (m_insert k v' kept) (rx_retired s) (rx_received s) (k + lenN v'))
  end.

(** recv_stream.rs:493-498 [buffered]. *)
Fixpoint buffered_loop (retired : N) (l : rmap) : option N :=
  match l with
  | [] => Some 0
  | (k, v) :: r =>
      match csub (lenN v) (retired - k), buffered_loop retired r with
      | Some n, Some m => Some (n + m)
      | _, _ => None
      end
  end.
Definition rx_buffered (s : rx) : option N := buffered_loop (rx_retired s) (rx_ranges s).

(** recv_stream.rs:501-545 [read]: bytes copied into a buffer of [space] bytes.  The loop
    yields the bytes, the new [retired] and what is left of the map ([None]: [assert!]). *)
Fixpoint read_loop (retired space : N) (l : rmap) : option (list N * N * rmap * bool) :=
  match l with
  | [] => Some ([], retired, [], true)
  | (k, v) :: r =>
      if k <=? retired then
        match csub (lenN v) (retired - k) with
        | None => None
        | Some available =>
            if space <? available
            then Some (firstnN space (skipnN (retired - k) v), retired + space, l, false)
            else
              match read_loop (retired + available) (space - available) r with
              | None => None
              | Some (out, ret, left_over, all) => Some (skipnN (retired - k) v ++ out, ret, left_over, all)
              end
        end
      else Some ([], retired, l, false)
  end.
Definition rx_read (space : N) (s : rx) : option (rx * list N) :=
  match read_loop (rx_retired s) space (rx_ranges s) with
  | None => None
  | Some (out, ret, l, all) => Some (mkRx l ret (rx_received s) (if all then ret else rx_end s), out)
  end.
(** recv_stream.rs:548-553 [read_to_end]. *)
Definition rx_read_to_end (s : rx) : option (rx * list N) :=
  match rx_bytes_ready s with None => None | Some n => rx_read n s end.

Inductive xop := XFrame (start : N) (data : list N) | XRead (space : N).
Inductive xout := XAccepted | XViolation | XBytes (l : list N).
Definition xstep (s : rx) (o : xop) : option (rx * xout) :=
  match o with
  | XFrame start data =>
      match rx_inbound start data s with
      | None => None
      | Some (s', ok) => Some (s', if ok then XAccepted else XViolation)
      end
  | XRead n => match rx_read n s with Some (s', l) => Some (s', XBytes l) | None => None end
  end.
Fixpoint xruns (s : rx) (ops : list xop) : option (rx * list xout) :=
  match ops with
  | [] => Some (s, [])
  | o :: r =>
      match xstep s o with
      | None => None
      | Some (s', out) => match xruns s' r with None => None | Some (s'', outs) => Some (s'', out :: outs) end
      end
  end.
