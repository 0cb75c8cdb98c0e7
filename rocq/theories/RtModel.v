(** Send-side byte ranges: neqo-transport/src/send_stream.rs, [RangeTracker]. *)
From Verif Require Import Base.

(** send_stream.rs:107-111 [RangeState]: true is [Acked], false is [Sent].  A BTreeMap from
    the start of a range to (length, state) is an association list in increasing order of keys. *)
Notation entry := (N * (N * bool))%type.
Notation umap := (list (N * (N * bool))).
Fixpoint u_insert (k : N) (v : N * bool) (l : umap) : umap :=
  match l with
  | [] => [(k, v)]
  | e :: r => if k <? fst e then (k, v) :: l else if k =? fst e then (k, v) :: r else e :: u_insert k v r
  end.
Definition u_remove (k : N) (l : umap) : umap := filter (fun e => negb (fst e =? k)) l.
Definition u_get (k : N) (l : umap) : option (N * bool) :=
  match filter (fun e => fst e =? k) l with e :: _ => Some (snd e) | [] => None end.
(** range(a..b) *)
Definition u_range (a b : N) (l : umap) : umap := filter (fun e => (a <=? fst e) && (fst e <? b)) l.
(** range(..k).next_back() and last_key_value() *)
Fixpoint u_last (l : umap) : option entry :=
  match l with [] => None | [e] => Some e | _ :: r => u_last r end.
Definition u_before (k : N) (l : umap) : option entry := u_last (filter (fun e => fst e <? k) l).

(** send_stream.rs:115-124 [RangeTracker]. *)
Record rt := mkRt { rt_acked : N; rt_used : umap; rt_cache : option (N * option N) }.
Definition rt_new : rt := mkRt 0 [] None.

(** send_stream.rs:127-131 [highest_offset]. *)
Definition rt_highest (t : rt) : N :=
  match u_last (rt_used t) with Some (k, (n, _)) => k + n | None => rt_acked t end.

(** send_stream.rs:139-159 [first_unmarked_range], with its cache. *)
Fixpoint unmarked_from (prev_end : N) (l : umap) : N * option N :=
  match l with
  | [] => (prev_end, None)
  | (o, (n, _)) :: r => if prev_end =? o then unmarked_from (o + n) r else (prev_end, Some (o - prev_end))
  end.
Definition rt_first_unmarked (t : rt) : rt * (N * option N) :=
  match rt_cache t with
  | Some x => (t, x)
  | None => let x := unmarked_from (rt_acked t) (rt_used t) in (mkRt (rt_acked t) (rt_used t) (Some x), x)
  end.

(** send_stream.rs:163-188 [coalesce_acked]. *)
Fixpoint coalesce (acked : N) (l : umap) : N * umap :=
  match l with
  | [] => (acked, [])
  | (o, (n, s)) :: r =>
      if o <? acked then
        let overflow := o + n - acked in
        if 0 <? overflow then
          if s then (acked + overflow, r) else (acked, u_insert acked (overflow, s) r)
        else coalesce acked r
      else if o =? acked then
        if s then (acked + n, r) else (acked, l)
      else (acked, l)
  end.

(** send_stream.rs:203-277 [mark_acked].  Offsets stay below 2^62, so the additions do not
    overflow u64.  The first part (220-253) yields the map, [new_len] and [new_end]. *)
Definition acked_tail (off len : N) (m : umap) : umap * N * N :=
  let en := off + len in
  let covered := map fst (u_range off en m) in
  match u_get en m with
  | Some (extra, s) =>
      let '(m1, len1, en1) := if s then (u_remove en m, len + extra, en + extra) else (m, len, en) in
      (fold_left (fun m k => u_remove k m) covered m1, len1, en1)
  | None =>
      match u_last (u_range off en m) with
      | None => (m, len, en)
      | Some (o, (n, s)) =>
          let m1 := u_remove o m in
          let remainder := o + n - en in
          let '(m2, len2, en2) :=
            if 0 <? remainder then
              if s then (m1, len + remainder, en + remainder) else (u_insert en (remainder, false) m1, len, en)
            else (m1, len, en) in
          (fold_left (fun m k => u_remove k m) (removelast covered) m2, len2, en2)
      end
  end.
Definition rt_mark_acked (new_off new_len : N) (t : rt) : rt :=
  let e0 := new_off + new_len in
  let off := N.max (rt_acked t) new_off in
  let len0 := e0 - off in
  if len0 =? 0 then t
  else if off =? rt_acked t then
    let '(a, l) := coalesce (rt_acked t + len0) (rt_used t) in mkRt a l None
  else
    let '(m, len, en) := acked_tail off len0 (rt_used t) in
    match u_before off m with
    | Some (po, (pn, ps)) =>
        let pe := po + pn in
        if off <=? pe then
          if ps then mkRt (rt_acked t) (u_insert po (N.max pe en - po, true) m) None
          else
            let m1 := u_insert po (off - po, false) m in
            let m2 := if en <? pe then u_insert en (pe - en, false) m1 else m1 in
            mkRt (rt_acked t) (u_insert off (len, true) m2) None
        else mkRt (rt_acked t) (u_insert off (len, true) m) None
    | None => mkRt (rt_acked t) (u_insert off (len, true) m) None
    end.

(** send_stream.rs:358-391: the loop over the covered ranges and the final insertion.
    [None]: the [unreachable!]. *)
Fixpoint sent_loop (covered : list N) (off len : N) (m : umap) : option umap :=
  match covered with
  | [] => Some (u_insert off (len, false) m)
  | o :: more =>
      match u_get o m with
      | None => None
      | Some (n, true) =>
          let chunk := o - off in
          let m1 := if 0 <? chunk then u_insert off (chunk, false) m else m in
          let included := chunk + n in
          if len - included =? 0 then Some m1 else sent_loop more (off + included) (len - included) m1
      | Some (n, false) =>
          let overhang := o + n - (off + len) in
          sent_loop more off (len + overhang) (if o =? off then m else u_remove o m)
      end
  end.
(** send_stream.rs:308-392 [mark_sent]. *)
Definition rt_mark_sent (new_off new_len : N) (t : rt) : option rt :=
  let en := new_off + new_len in
  let off := N.max (rt_acked t) new_off in
  let len := en - off in
  if len =? 0 then Some t
  else
    let covered := map fst (u_range off (off + len) (rt_used t)) in
    let '(m, len1) :=
      match u_get en (rt_used t) with
      | Some (extra, false) => (u_remove en (rt_used t), len + extra)
      | _ => (rt_used t, len)
      end in
    let go (off len : N) :=
      match sent_loop covered off len m with Some m' => Some (mkRt (rt_acked t) m' None) | None => None end in
    match u_before off m with
    | Some (po, (pn, ps)) =>
        if off <=? po + pn then
          let overlap := po + pn - off in
          let len2 := len1 - overlap in
          if len2 =? 0 then Some (mkRt (rt_acked t) m None)
          else if ps then go (off + overlap) len2
          else go po (len2 + pn)
        else go off len1
    | None => go off len1
    end.

(** send_stream.rs:394-449 [unmark_range].  The walk is over the ranges that start before
    the end of the lost one, last first; it yields the map with the preceding range cut, the
    keys to remove and the range to add.  [None]: the [assert_eq!]. *)
Fixpoint unmark_walk (off en : N) (l : umap) (m : umap) (rm : list N) (add : option (N * (N * bool)))
  : option (umap * list N * option (N * (N * bool))) :=
  match l with
  | [] => Some (m, rm, add)
  | (o, (n, s)) :: r =>
      if o <? off then
        Some ((if (off <? o + n) && negb s then u_insert o (off - o, s) m else m), rm, add)
      else if s then unmark_walk off en r m rm add
      else if en <? o + n then
        match add with
        | Some _ => None
        | None => unmark_walk off en r m (rm ++ [o]) (Some (en, (o + n - en, s)))
        end
      else unmark_walk off en r m (rm ++ [o]) add
  end.
Definition rt_unmark (off len : N) (t : rt) : option rt :=
  if len =? 0 then Some t
  else
    match unmark_walk off (off + len) (List.rev (filter (fun e => fst e <? off + len) (rt_used t))) (rt_used t) [] None with
    | None => None
    | Some (m, rm, add) =>
        let m1 := fold_left (fun m k => u_remove k m) rm m in
        Some (mkRt (rt_acked t) (match add with Some (k, v) => u_insert k v m1 | None => m1 end) None)
    end.
(** send_stream.rs:456-458 [unmark_sent]. *)
Definition rt_unmark_sent (t : rt) : option rt := rt_unmark 0 (rt_highest t) t.

(** Uses of a tracker: packets with a range sent, acknowledged, declared lost; a resend of
    everything (Retry, 0-RTT rejection); a query for what to send next. *)
Inductive rtop := TSent (off len : N) | TAcked (off len : N) | TLost (off len : N) | TUnmarkSent | TQuery.
Definition rt_step (t : rt) (o : rtop) : option (rt * option (N * option N)) :=
  match o with
  | TSent off len => match rt_mark_sent off len t with Some t' => Some (t', None) | None => None end
  | TAcked off len => Some (rt_mark_acked off len t, None)
  | TLost off len => match rt_unmark off len t with Some t' => Some (t', None) | None => None end
  | TUnmarkSent => match rt_unmark_sent t with Some t' => Some (t', None) | None => None end
  | TQuery => let '(t', x) := rt_first_unmarked t in Some (t', Some x)
  end.
Fixpoint rt_runs (t : rt) (ops : list rtop) : option (rt * list (rtop * option (N * option N))) :=
  match ops with
  | [] => Some (t, [])
  | o :: r =>
      match rt_step t o with
      | None => None
      | Some (t', x) => match rt_runs t' r with None => None | Some (t'', h) => Some (t'', (o, x) :: h) end
      end
  end.
