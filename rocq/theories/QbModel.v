(** QPACK tables and header blocks: neqo-qpack/src/table.rs and header_block.rs. *)
From Verif Require Import Base Lib QpTables QiModel.
Open Scope N_scope.
Open Scope list_scope.
Import ListNotations.

(** *** table.rs *)
(** 27-35 [DynamicTableEntry]; 42-44 [size]; 38-40 [can_reduce]. *)
Record entry := mkX { x_base : N; x_name : list N; x_value : list N; x_refs : N }.
Definition x_size (e : entry) : N := lenN (x_name e) + lenN (x_value e) + 32.
Definition can_reduce (e : entry) (first_not_acked : N) : bool := (x_refs e =? 0) && (x_base e <? first_not_acked).
(** 67-81 [HeaderTable], newest entry first; 94-102 [new]. *)
Record table := mkT { t_dyn : list entry; t_cap : N; t_used : N; t_base : N; t_acked : N }.
Definition table_new (encoder : bool) : table := mkT [] 0 0 0 (if encoder then 0 else 2 ^ 64 - 1).
(** 264-280 [evict_to], over the entries oldest first; the subtraction panics below zero. *)
Fixpoint evict_loop (l : list entry) (used reduce acked : N) : rres (list entry * N * bool) :=
  match l with
  | [] => Good ([], used, true)
  | e :: l' =>
      if used <=? reduce then Good (l, used, true)
      else if negb (can_reduce e acked) then Good (l, used, false)
      else if used <? x_size e then Panic
      else evict_loop l' (used - x_size e) reduce acked
  end.
Definition evict_to (t : table) (reduce : N) : rres (table * bool) :=
  rbind (evict_loop (rev (t_dyn t)) (t_used t) reduce (t_acked t)) (fun '(l, u, b) => Good (mkT (rev l) (t_cap t) u (t_base t) (t_acked t), b)).
(** 282-292 [can_evict_to]; 294-297 [insert_possible]. *)
Fixpoint evictable (l : list entry) (acked : N) : N :=
  match l with [] => 0 | e :: l' => if can_reduce e acked then x_size e + evictable l' acked else 0 end.
Definition can_evict_to (t : table) (reduce : N) : rres bool :=
  let s := evictable (rev (t_dyn t)) (t_acked t) in if t_used t <? s then Panic else Good (t_used t - s <=? reduce).
Definition insert_possible (t : table) (size : N) : rres bool :=
  if size <=? t_cap t then can_evict_to t (t_cap t - size) else Good false.
(** 121-128 [set_capacity]. *)
Definition set_capacity (t : table) (cap : N) : rres table :=
  rbind (evict_to t cap) (fun '(t', ok) => if ok then Good (mkT (t_dyn t') cap (t_used t') (t_base t') (t_acked t')) else Bad).
(** 305-325 [insert]: the table and the index. *)
Definition insert (t : table) (name value : list N) : rres (table * N) :=
  let e := mkX (t_base t) name value 0 in
  if t_cap t <? x_size e then Bad
  else rbind (evict_to t (t_cap t - x_size e)) (fun '(t', ok) =>
         if ok then Good (mkT (e :: t_dyn t') (t_cap t') (t_used t' + x_size e) (t_base t' + 1) (t_acked t'), t_base t) else Bad).
(** 135-138 [get_static]; 140-148 [get_dynamic_with_abs_index], which asserts; 150-153 [get_dynamic_with_relative_index]. *)
Definition get_static (i : N) : rres (list N * list N) := match nth_error STATIC (N.to_nat i) with Some e => Good e | None => Bad end.
Definition get_rel (t : table) (i : N) : rres entry := match nth_error (t_dyn t) (N.to_nat i) with Some e => Good e | None => Bad end.
Definition get_abs (t : table) (i : N) : rres entry := if t_base t <=? i then Panic else get_rel t (t_base t - i - 1).
(** 160-179 [get_dynamic]; sums beyond 64 bits are errors. *)
Definition get_dynamic (t : table) (index base : N) (post : bool) : rres entry :=
  if post then
    if 2 ^ 64 <=? base + index + 1 then Bad
    else if t_base t <? base + index + 1 then Bad else get_rel t (t_base t - (base + index + 1))
  else
    if 2 ^ 64 <=? t_base t + index then Bad
    else if t_base t + index <? base then Bad else get_rel t (t_base t + index - base).
(** 182-195 [remove_ref], [add_ref] and 46-53: an entry that is missing or has no references is a panic. *)
Fixpoint upd_nth (n : nat) (f : entry -> entry) (l : list entry) : list entry :=
  match l, n with [], _ => [] | e :: l', O => f e :: l' | e :: l', S k => e :: upd_nth k f l' end.
Definition upd_abs (t : table) (i : N) (f : entry -> entry) : table :=
  mkT (upd_nth (N.to_nat (t_base t - i - 1)) f (t_dyn t)) (t_cap t) (t_used t) (t_base t) (t_acked t).
Definition add_ref (t : table) (i : N) : rres table :=
  match get_abs t i with Good _ => Good (upd_abs t i (fun e => mkX (x_base e) (x_name e) (x_value e) (x_refs e + 1))) | _ => Panic end.
Definition remove_ref (t : table) (i : N) : rres table :=
  match get_abs t i with
  | Good e => if x_refs e =? 0 then Panic else Good (upd_abs t i (fun e => mkX (x_base e) (x_name e) (x_value e) (x_refs e - 1)))
  | _ => Panic
  end.
(** 206-226 [static_lookup]: the index, and whether the value matches; an exact match wins, else the first name. *)
Fixpoint leqb (a b : list N) : bool := match a, b with [], [] => true | x :: a', y :: b' => (x =? y) && leqb a' b' | _, _ => false end.
Fixpoint static_scan (l : list (list N * list N)) (i : N) (name value : list N) (nm : option N) : option (N * bool) :=
  match l with
  | [] => match nm with Some j => Some (j, false) | None => None end
  | (n, v) :: l' =>
      if leqb n name then
        if leqb v value then Some (i, true) else static_scan l' (i + 1) name value (match nm with Some j => Some j | None => Some i end)
      else static_scan l' (i + 1) name value nm
  end.
Definition static_lookup (name value : list N) : option (N * bool) := static_scan STATIC 0 name value None.
(** 21-25 [LookupResult]; 231-262 [lookup]. *)
Record found := mkFd { f_index : N; f_static : bool; f_match : bool }.
Fixpoint dyn_scan (l : list entry) (acked : N) (name value : list N) (can_block : bool) (nm : option found) : option found :=
  match l with
  | [] => nm
  | e :: l' =>
      if negb can_block && (acked <=? x_base e) then dyn_scan l' acked name value can_block nm
      else if leqb (x_name e) name then
        if leqb (x_value e) value then Some (mkFd (x_base e) false true)
        else dyn_scan l' acked name value can_block (match nm with Some j => Some j | None => Some (mkFd (x_base e) false false) end)
      else dyn_scan l' acked name value can_block nm
  end.
Definition lookup (t : table) (name value : list N) (can_block : bool) : option found :=
  match static_lookup name value with
  | Some (i, true) => Some (mkFd i true true)
  | r => dyn_scan (t_dyn t) (t_acked t) name value can_block (match r with Some (i, b) => Some (mkFd i true b) | None => None end)
  end.
(** 332-355 [insert_with_name_ref]; 363-376 [duplicate]. *)
Definition insert_with_name_ref (t : table) (static : bool) (i : N) (value : list N) : rres (table * N) :=
  if static then rbind (get_static i) (fun e => insert t (fst e) value)
  else rbind (get_dynamic t i (t_base t) false) (fun e => insert t (x_name e) value).
Definition duplicate (t : table) (i : N) : rres (table * N) :=
  rbind (get_dynamic t i (t_base t) false) (fun e => insert t (x_name e) (x_value e)).
(** 382-393 [increment_acked]. *)
Definition increment_acked (t : table) (n : N) : rres table :=
  if 2 ^ 64 <=? t_acked t + n then Bad
  else if t_base t <? t_acked t + n then Bad
  else Good (mkT (t_dyn t) (t_cap t) (t_used t) (t_base t) (t_acked t + n)).

(** *** header_block.rs, encoding *)
(** A header: name and value. *)
Definition header := (list N * list N)%type.
(** 29-53 [HeaderEncoder]. *)
Record henc := mkH { h_buf : list N; h_base : N; h_huff : bool; h_max : N; h_ref : option N }.
Definition h_new (base : N) (huff : bool) (max : N) : henc := mkH [] base huff max None.
Definition h_put (h : henc) (b : list N) : henc := mkH (h_buf h ++ b) (h_base h) (h_huff h) (h_max h) (h_ref h).
(** 61-69 [new_ref]. *)
Definition new_ref (h : henc) (i : N) : henc :=
  mkH (h_buf h) (h_base h) (h_huff h) (h_max h) (match h_ref h with Some r => if r <? i then Some i else Some r | None => Some i end).
Definition h_literal (h : henc) (p : prefix) (v : list N) : rres henc :=
  match encode_literal (h_huff h) p v with Some w => Good (h_put h w) | None => Panic end.
(** 55-59 [encode_indexed_static]; 71-81 [encode_indexed_dynamic]. *)
Definition h_static (h : henc) (i : N) : henc := h_put h (encode_int HEADER_FIELD_INDEX_STATIC i).
Definition h_dynamic (h : henc) (i : N) : henc :=
  new_ref (h_put h (if i <? h_base h then encode_int HEADER_FIELD_INDEX_DYNAMIC (h_base h - i - 1) else encode_int HEADER_FIELD_INDEX_DYNAMIC_POST (i - h_base h))) i.
(** 83-105 [encode_literal_with_name_ref]; 107-112 [encode_literal_with_name_literal]. *)
Definition h_name_ref (h : henc) (static : bool) (i : N) (v : list N) : rres henc :=
  h_literal
    (if static then h_put h (encode_int HEADER_FIELD_LITERAL_NAME_REF_STATIC i)
     else new_ref (h_put h (if i <? h_base h then encode_int HEADER_FIELD_LITERAL_NAME_REF_DYNAMIC (h_base h - i - 1)
                            else encode_int HEADER_FIELD_LITERAL_NAME_REF_DYNAMIC_POST (i - h_base h))) i)
    NO_PREFIX v.
Definition h_name_literal (h : henc) (n v : list N) : rres henc :=
  rbind (h_literal h HEADER_FIELD_LITERAL_NAME_LITERAL n) (fun h1 => h_literal h1 NO_PREFIX v).
(** 114-145 [encode_header_block_prefix]; the remainder by zero panics. *)
Definition h_prefix (h : henc) : rres (list N) :=
  match h_ref h with
  | None => Good (encode_int NO_PREFIX 0 ++ encode_int BASE_PREFIX_POSITIVE (h_base h) ++ h_buf h)
  | Some r =>
      let req := r + 1 in
      if h_max h =? 0 then Panic
      else
        let c := req mod (2 * h_max h) + 1 in
        Good (encode_int NO_PREFIX c ++
              (if req <=? h_base h then encode_int BASE_PREFIX_POSITIVE (h_base h - req) else encode_int BASE_PREFIX_NEGATIVE (req - h_base h - 1)) ++ h_buf h)
  end.

(** *** header_block.rs, decoding *)
(** 284-308 [calc_req_insert_cnt]; unchecked sums panic. *)
Definition calc_req (encoded max total : N) : rres N :=
  if encoded =? 0 then Good 0
  else if max =? 0 then Bad
  else
    let full := 2 * max in
    if full <? encoded then Bad
    else
      let max_value := total + max in
      if 2 ^ 64 <=? max_value then Panic
      else
        let r := max_value / full * full + encoded - 1 in
        if 2 ^ 64 <=? r + 1 then Panic
        else if max_value <? r then
          if r <? full then Bad else if r - full =? 0 then Bad else Good (r - full)
        else if r =? 0 then Bad else Good r.
(** 259-282 [read_base]: the required insert count, the base and the rest. *)
Definition read_base (bs : list N) (max total : N) : rres (N * N * list N) :=
  rbind (buf_int 0 bs) (fun '(c, r1) =>
  rbind (calc_req c max total) (fun req =>
  match r1 with
  | [] => Bad
  | b :: _ =>
      let s := negb (N.land b 128 =? 0) in
      rbind (buf_int 1 r1) (fun '(delta, r2) =>
      if s then if req <=? delta then Bad else Good (req, req - delta - 1, r2)
      else if 2 ^ 64 <=? req + delta then Bad else Good (req, req + delta, r2))
  end)).
(** reader.rs:353-355 [parse_utf8], str::from_utf8. *)
Definition cont (b : N) : bool := (128 <=? b) && (b <=? 191).
Definition inr (lo b hi : N) : bool := (lo <=? b) && (b <=? hi).
Fixpoint utf8 (l : list N) : bool :=
  match l with
  | [] => true
  | a :: l1 =>
      if a <? 128 then utf8 l1
      else match l1 with
           | [] => false
           | b :: l2 =>
               if inr 194 a 223 then cont b && utf8 l2
               else match l2 with
                    | [] => false
                    | c :: l3 =>
                        if inr 224 a 239 then
                          (if a =? 224 then inr 160 b 191 else if a =? 237 then inr 128 b 159 else cont b) && cont c && utf8 l3
                        else match l3 with
                             | [] => false
                             | d :: l4 =>
                                 if inr 240 a 244 then
                                   (if a =? 240 then inr 144 b 191 else if a =? 244 then inr 128 b 143 else cont b) && cont c && cont d && utf8 l4
                                 else false
                             end
                    end
           end
  end.
Definition named (n : list N) (v : list N) (rest : list N) : rres (header * list N) := if utf8 n then Good ((n, v), rest) else Bad.
(** 324-335 [dynamic_entry]. *)
Definition dynamic_entry (t : table) (base req i : N) (post : bool) : rres entry :=
  rbind (get_dynamic t i base post) (fun e => if req <=? x_base e then Bad else Good e).
(** 310-317, 337-405: the field lines; a name is checked before the value is read. *)
Definition indexed_dynamic (t : table) (base req len : N) (post : bool) (bs : list N) : rres (header * list N) :=
  rbind (buf_int len bs) (fun '(i, r) => rbind (dynamic_entry t base req i post) (fun e => named (x_name e) (x_value e) r)).
Definition with_value (n : list N) (r : list N) : rres (header * list N) :=
  if utf8 n then rbind (buf_literal 0 r) (fun '(v, r2) => Good ((n, v), r2)) else Bad.
Definition name_ref_dynamic (t : table) (base req len : N) (post : bool) (bs : list N) : rres (header * list N) :=
  rbind (buf_int len bs) (fun '(i, r) => rbind (dynamic_entry t base req i post) (fun e => with_value (x_name e) r)).
(** 213-243 the choice by the first byte; the last case is unreachable. *)
Definition field (t : table) (base req : N) (bs : list N) : rres (header * list N) :=
  match bs with
  | [] => Bad
  | b :: _ =>
      if cmp_prefix HEADER_FIELD_INDEX_STATIC b then
        rbind (buf_int (p_len HEADER_FIELD_INDEX_STATIC) bs) (fun '(i, r) => rbind (get_static i) (fun e => named (fst e) (snd e) r))
      else if cmp_prefix HEADER_FIELD_INDEX_DYNAMIC b then indexed_dynamic t base req (p_len HEADER_FIELD_INDEX_DYNAMIC) false bs
      else if cmp_prefix HEADER_FIELD_INDEX_DYNAMIC_POST b then indexed_dynamic t base req (p_len HEADER_FIELD_INDEX_DYNAMIC_POST) true bs
      else if cmp_prefix HEADER_FIELD_LITERAL_NAME_REF_STATIC b then
        rbind (buf_int (p_len HEADER_FIELD_LITERAL_NAME_REF_STATIC) bs) (fun '(i, r) => rbind (get_static i) (fun e => with_value (fst e) r))
      else if cmp_prefix HEADER_FIELD_LITERAL_NAME_REF_DYNAMIC b then name_ref_dynamic t base req (p_len HEADER_FIELD_LITERAL_NAME_REF_DYNAMIC) false bs
      else if cmp_prefix HEADER_FIELD_LITERAL_NAME_LITERAL b then
        rbind (buf_literal (p_len HEADER_FIELD_LITERAL_NAME_LITERAL) bs) (fun '(n, r) => with_value n r)
      else if cmp_prefix HEADER_FIELD_LITERAL_NAME_REF_DYNAMIC_POST b then name_ref_dynamic t base req (p_len HEADER_FIELD_LITERAL_NAME_REF_DYNAMIC_POST) true bs
      else Panic
  end.
(** 210-253 the loop, with what is left of the limit; every line takes a byte. *)
Fixpoint fields (fuel : nat) (t : table) (base req : N) (bs : list N) (room : N) : rres (list header) :=
  match bs with
  | [] => Good []
  | _ =>
      match fuel with
      | O => Panic
      | S f =>
          rbind (field t base req bs) (fun '(h, r) =>
          let size := lenN (fst h) + lenN (snd h) + 32 in
          if room <? size then Bad
          else rbind (fields f t base req r (room - size)) (fun l => Good (h :: l)))
      end
  end.
(** 167-171 [HeaderDecoderResult]; 194-253 [decode_header_block]; 255-257 [get_req_insert_cnt]. *)
Inductive decoded := Blocked (req : N) | Headers (req : N) (l : list header).
Definition decode_block (t : table) (max : N) (bs : list N) : rres decoded :=
  rbind (read_base bs max (t_base t)) (fun '(req, base, r) =>
  if t_base t <? req then Good (Blocked req)
  else rbind (fields (length r) t base req r MAX_LEN) (fun l => Good (Headers req l))).
