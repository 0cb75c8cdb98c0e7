(** The QPACK encoder and decoder: neqo-qpack/src/encoder.rs and decoder.rs. *)
From Verif Require Import Base Lib QpTables QiModel QbModel.
Open Scope N_scope.
Open Scope list_scope.
Import ListNotations.

(** *** encoder.rs *)
(** 30-35 [LocalStreamState]. *)
Inductive lstream := NoStream | Uninit | Init.
(** 46-66 [Encoder]: [n_unacked] gives for each stream its header blocks, newest first, each the indices it refers to.
    The statistics are left out. *)
Record encoder := mkN { n_table : table; n_max_table : N; n_max_entries : N; n_reader : dstate; n_local : lstream; n_maxb : N; n_maxt : N;
  n_unacked : list (N * list (list N)); n_cnt : N; n_huff : bool; n_next : option N }.
(** 71-86 [new]. *)
Definition enc_new (max_table maxt : N) (huff : bool) : encoder := mkN (table_new true) max_table 0 DInstr NoStream 0 maxt [] 0 huff None.
Definition with_table (t : table) (e : encoder) : encoder := mkN t (n_max_table e) (n_max_entries e) (n_reader e) (n_local e) (n_maxb e) (n_maxt e) (n_unacked e) (n_cnt e) (n_huff e) (n_next e).
Definition with_local (l : lstream) (e : encoder) : encoder := mkN (n_table e) (n_max_table e) (n_max_entries e) (n_reader e) l (n_maxb e) (n_maxt e) (n_unacked e) (n_cnt e) (n_huff e) (n_next e).
Definition with_unacked (u : list (N * list (list N))) (e : encoder) : encoder := mkN (n_table e) (n_max_table e) (n_max_entries e) (n_reader e) (n_local e) (n_maxb e) (n_maxt e) u (n_cnt e) (n_huff e) (n_next e).
Definition with_cnt (c : N) (e : encoder) : encoder := mkN (n_table e) (n_max_table e) (n_max_entries e) (n_reader e) (n_local e) (n_maxb e) (n_maxt e) (n_unacked e) c (n_huff e) (n_next e).
Definition with_next (x : option N) (e : encoder) : encoder := mkN (n_table e) (n_max_table e) (n_max_entries e) (n_reader e) (n_local e) (n_maxb e) (n_maxt e) (n_unacked e) (n_cnt e) (n_huff e) x.
Definition with_reader (r : dstate) (e : encoder) : encoder := mkN (n_table e) (n_max_table e) (n_max_entries e) r (n_local e) (n_maxb e) (n_maxt e) (n_unacked e) (n_cnt e) (n_huff e) (n_next e).
Definition with_maxb (b : N) (e : encoder) : encoder := mkN (n_table e) (n_max_table e) (n_max_entries e) (n_reader e) (n_local e) b (n_maxt e) (n_unacked e) (n_cnt e) (n_huff e) (n_next e).
Definition with_entries (m : N) (e : encoder) : encoder := mkN (n_table e) (n_max_table e) m (n_reader e) (n_local e) (n_maxb e) (n_maxt e) (n_unacked e) (n_cnt e) (n_huff e) (n_next e).
(** 95-114 and 322-325 [set_max_capacity]; 122-125 [set_max_blocked_streams]; 531-537 [add_send_stream]. *)
Definition set_max_capacity (e : encoder) (cap : N) : rres encoder :=
  if 2 ^ 30 - 1 <? cap then Bad
  else if cap =? t_cap (n_table e) then Good e
  else Good (with_next (Some (N.min (n_max_table e) cap)) e).
Definition set_max_blocked (e : encoder) (b : N) : rres encoder := if 65536 <=? b then Bad else Good (with_maxb b e).
Definition add_send_stream (e : encoder) : rres encoder := match n_local e with NoStream => Good (with_local Uninit e) | _ => Panic end.

(** The map of header blocks. *)
Fixpoint ub_get (s : N) (u : list (N * list (list N))) : option (list (list N)) :=
  match u with [] => None | (x, b) :: u' => if x =? s then Some b else ub_get s u' end.
Definition ub_del (s : N) (u : list (N * list (list N))) : list (N * list (list N)) := filter (fun p => negb (fst p =? s)) u.
Fixpoint ub_set (s : N) (b : list (list N)) (u : list (N * list (list N))) : list (N * list (list N)) :=
  match u with [] => [(s, b)] | (x, c) :: u' => if x =? s then (x, b) :: u' else (x, c) :: ub_set s b u' end.
Definition blocks_on (acked : N) (b : list (list N)) : bool := existsb (existsb (fun i => acked <=? i)) b.
(** 155-168 [recalculate_blocked_streams]: an empty list is asserted away. *)
Definition recalc (e : encoder) : rres encoder :=
  if existsb (fun p => match snd p with [] => true | _ => false end) (n_unacked e) then Panic
  else Good (with_cnt (lenN (filter (fun p => blocks_on (t_acked (n_table e)) (snd p)) (n_unacked e))) e).
(** 170-176 [insert_count_instruction]. *)
Definition insert_count (e : encoder) (n : N) : rres encoder :=
  rbind (increment_acked (n_table e) n) (fun t => recalc (with_table t e)).
Fixpoint remove_refs (t : table) (l : list N) : rres table := match l with [] => Good t | i :: l' => rbind (remove_ref t i) (fun t' => remove_refs t' l') end.
(** 178-212 [header_ack]: the oldest block is the last. *)
Definition header_ack (e : encoder) (s : N) : rres encoder :=
  match ub_get s (n_unacked e) with
  | None => Bad
  | Some b =>
      match rev b with
      | [] => Panic
      | refs :: older =>
          rbind (remove_refs (n_table e) refs) (fun t =>
          let acked := t_acked (n_table e) in
          let new_acked := fold_left (fun a i => if a <=? i then i + 1 else a) refs acked in
          let u := match older with [] => ub_del s (n_unacked e) | _ => ub_set s (rev older) (n_unacked e) end in
          let e1 := with_unacked u (with_table t e) in
          if acked <? new_acked then insert_count e1 (new_acked - acked) else Good e1)
      end
  end.
(** 214-234 [stream_cancellation]. *)
Definition stream_cancellation (e : encoder) (s : N) : rres encoder :=
  match ub_get s (n_unacked e) with
  | None => Good e
  | Some b =>
      match b with
      | [] => Panic
      | _ =>
          rbind (remove_refs (n_table e) (concat b)) (fun t =>
          let e1 := with_unacked (ub_del s (n_unacked e)) (with_table t e) in
          if blocks_on (t_acked t) b then if n_cnt e =? 0 then Panic else Good (with_cnt (n_cnt e - 1) e1) else Good e1)
      end
  end.
(** 236-266 [call_instruction]. *)
Definition call_instruction (e : encoder) (i : dinstr) : rres encoder :=
  match i with
  | DIncrement n => if n =? 0 then Bad else insert_count e n
  | DAck s => header_ack e s
  | DCancel s => stream_cancellation e s
  end.
Fixpoint call_all (e : encoder) (l : list dinstr) : rres encoder := match l with [] => Good e | i :: l' => rbind (call_instruction e i) (fun e' => call_all e' l') end.
(** 133-153 [receive]: what the stream has; a reading error comes after the instructions before it. *)
Definition enc_receive (e : encoder) (bs : list N) : rres encoder :=
  let '(l, r, f) := d_feed (n_reader e) bs in
  rbind (call_all (with_reader r e) l) (fun e' => match f with FOk => Good e' | FErr => Bad | FPanic => Panic end).

(** What the transport does with the encoder stream: the answers of [stream_send_atomic] to come (false: nothing sent, or an error; the assertion at 572 that only two errors occur is not modelled)
    and the bytes sent.  The byte with the stream's type, the first one, is left out. *)
Definition io := (list bool * list N)%type.
Definition send (x : io) (b : list N) : io * bool :=
  match fst x with true :: l => ((l, snd x ++ b), true) | false :: l => ((l, snd x), false) | [] => ((@nil bool, snd x), false) end.
(** 327-354 [maybe_send_change_capacity]; the last component: no error. *)
Definition change_capacity (e : encoder) (x : io) : rres (encoder * io * bool) :=
  match n_next e with
  | None => Good (e, x, true)
  | Some cap =>
      rbind (if cap <? t_cap (n_table e) then can_evict_to (n_table e) cap else Good true) (fun ok =>
      if negb ok then Good (e, x, false)
      else match e_marshal (n_huff e) (ECapacity cap) with
           | None => Panic
           | Some w =>
               let '(x', sent) := send x w in
               if negb sent then Good (e, x', false)
               else match set_capacity (n_table e) cap with
                    | Good t => Good (with_next None (with_entries (cap / 32) (with_table t e)), x', true)
                    | _ => Panic
                    end
           end)
  end.
(** 361-380 [send_encoder_updates]. *)
Definition send_updates (e : encoder) (x : io) : rres (encoder * io * bool) :=
  match n_local e with
  | NoStream => Good (e, x, true)
  | Uninit => let '(x', sent) := send x [] in if negb sent then Good (e, x', false) else change_capacity (with_local Init e) x'
  | Init => change_capacity e x
  end.
(** 284-320 [send_and_insert]. *)
Definition send_and_insert (e : encoder) (x : io) (name value : list N) : rres (encoder * io * option N) :=
  rbind (insert_possible (n_table e) (lenN name + lenN value + 32)) (fun ok =>
  if negb ok then Good (e, x, None)
  else match e_marshal (n_huff e) (EInsertLiteral name value) with
       | None => Panic
       | Some w =>
           match n_local e with
           | NoStream => Good (e, x, None)
           | _ =>
               let '(x', sent) := send x w in
               if negb sent then Good (e, x', None)
               else match insert (n_table e) name value with Good (t, i) => Good (with_table t e, x', Some i) | _ => Panic end
           end
       end).
(** 382-392 [is_stream_blocker]. *)
Definition is_blocker (e : encoder) (s : N) : rres bool :=
  match ub_get s (n_unacked e) with None => Good false | Some [] => Panic | Some b => Good (blocks_on (t_acked (n_table e)) b) end.
Definition memN (i : N) (l : list N) : bool := existsb (N.eqb i) l.
(** 444-501, the loop over the headers: encoder, transport, header block, references, and whether inserting is given up. *)
Record est := mkS { s_enc : encoder; s_io : io; s_h : henc; s_refs : list N; s_off : bool }.
Definition enc_ref (e : encoder) (refs : list N) (i : N) : rres (encoder * list N) :=
  if memN i refs then Good (e, refs) else rbind (add_ref (n_table e) i) (fun t => Good (with_table t e, i :: refs)).
Definition enc_field (can_track can_block : bool) (s : est) (hd : header) : rres est :=
  let '(name, value) := hd in
  let e := s_enc s in
  let f := if can_track then lookup (n_table e) name value can_block
           else match static_lookup name value with Some (i, b) => Some (mkFd i true b) | None => None end in
  match f with
  | Some r =>
      rbind (if f_match r then Good (if f_static r then h_static (s_h s) (f_index r) else h_dynamic (s_h s) (f_index r))
             else h_name_ref (s_h s) (f_static r) (f_index r) value) (fun h' =>
      if f_static r then Good (mkS e (s_io s) h' (s_refs s) (s_off s))
      else rbind (enc_ref e (s_refs s) (f_index r)) (fun '(e', refs') => Good (mkS e' (s_io s) h' refs' (s_off s))))
  | None =>
      if can_block && negb (s_off s) then
        rbind (send_and_insert e (s_io s) name value) (fun '(e', x', r) =>
        match r with
        | Some i => rbind (add_ref (n_table e') i) (fun t => Good (mkS (with_table t e') x' (h_dynamic (s_h s) i) (if memN i (s_refs s) then s_refs s else i :: s_refs s) (s_off s)))
        | None => rbind (h_name_literal (s_h s) name value) (fun h' => Good (mkS e' x' h' (s_refs s) true))
        end)
      else rbind (h_name_literal (s_h s) name value) (fun h' => Good (mkS e (s_io s) h' (s_refs s) (s_off s)))
  end.
Fixpoint enc_fields (can_track can_block : bool) (s : est) (l : list header) : rres est :=
  match l with [] => Good s | h :: l' => rbind (enc_field can_track can_block s h) (fun s' => enc_fields can_track can_block s' l') end.
(** 404-526 [encode_header_block]; what follows the loop: the prefix, the count of blocked streams (16 bits), the block remembered. *)
Definition encode_block (e0 : encoder) (x0 : io) (l : list header) (sid : N) : rres (encoder * io * list N) :=
  rbind (send_updates e0 x0) (fun '(e1, x1, ok) =>
  rbind (is_blocker e1 sid) (fun was =>
  let can_track := was || (match ub_get sid (n_unacked e1) with Some _ => true | None => false end) || (lenN (n_unacked e1) <? n_maxt e1) in
  let can_block := was || (can_track && (n_cnt e1 <? n_maxb e1)) in
  rbind (enc_fields can_track can_block (mkS e1 x1 (h_new (t_base (n_table e1)) (n_huff e1) (n_max_entries e1)) [] (negb ok)) l) (fun s =>
  rbind (h_prefix (s_h s)) (fun bytes =>
  let e2 := s_enc s in
  rbind (if negb was && existsb (fun i => t_acked (n_table e2) <=? i) (s_refs s) then
           if n_maxb e2 <? n_cnt e2 then Panic else if 65536 <=? n_cnt e2 + 1 then Panic else Good (with_cnt (n_cnt e2 + 1) e2)
         else Good e2) (fun e3 =>
  let e4 := match s_refs s with
            | [] => e3
            | refs => with_unacked (ub_set sid (refs :: match ub_get sid (n_unacked e3) with Some b => b | None => [] end) (n_unacked e3)) e3
            end in
  Good (e4, s_io s, bytes)))))).

(** *** decoder.rs *)
(** 24-36 [Decoder]; 43-59 [new].  [d_out] is the send buffer, without the byte for the stream's type; statistics are left out. *)
Record decoder := mkD { d_reader : estate; d_table : table; d_acked : N; d_max_entries : N; d_out : list N; d_local : bool; d_max_table : N; d_maxb : N; d_blocked : list (N * N) }.
Definition dec_new (max_table maxb : N) : decoder := mkD SInstr (table_new false) 0 (N.shiftr max_table 5) [] false max_table maxb [].
Definition dwith_table (t : table) (d : decoder) : decoder := mkD (d_reader d) t (d_acked d) (d_max_entries d) (d_out d) (d_local d) (d_max_table d) (d_maxb d) (d_blocked d).
(** 104-145 [execute_instruction], [set_capacity]. *)
Definition execute (d : decoder) (i : einstr) : rres decoder :=
  match i with
  | ECapacity v => if d_max_table d <? v then Bad else rbind (set_capacity (d_table d) v) (fun t => Good (dwith_table t d))
  | EInsertStatic i v => rbind (insert_with_name_ref (d_table d) true i v) (fun '(t, _) => Good (dwith_table t d))
  | EInsertDynamic i v => rbind (insert_with_name_ref (d_table d) false i v) (fun '(t, _) => Good (dwith_table t d))
  | EInsertLiteral n v => rbind (insert (d_table d) n v) (fun '(t, _) => Good (dwith_table t d))
  | EDuplicate i => rbind (duplicate (d_table d) i) (fun '(t, _) => Good (dwith_table t d))
  end.
Fixpoint execute_all (d : decoder) (l : list einstr) : rres decoder := match l with [] => Good d | i :: l' => rbind (execute d i) (fun d' => execute_all d' l') end.
(** 73-102 [receive]: the streams no longer blocked. *)
Definition dec_receive (d : decoder) (bs : list N) : rres (decoder * list N) :=
  let '(l, r, f) := e_feed (d_reader d) bs in
  rbind (execute_all (mkD r (d_table d) (d_acked d) (d_max_entries d) (d_out d) (d_local d) (d_max_table d) (d_maxb d) (d_blocked d)) l) (fun d' =>
  match f with
  | FErr => Bad | FPanic => Panic
  | FOk =>
      let base := t_base (d_table d') in
      if t_base (d_table d) =? base then Good (d', [])
      else Good (mkD (d_reader d') (d_table d') (d_acked d') (d_max_entries d') (d_out d') (d_local d') (d_max_table d') (d_maxb d') (filter (fun p => negb (snd p <=? base)) (d_blocked d')),
                 map fst (filter (fun p => snd p <=? base) (d_blocked d')))
  end).
(** 154-159 [cancel_stream]. *)
Definition cancel_stream (d : decoder) (s : N) : decoder :=
  if 0 <? t_cap (d_table d) then
    mkD (d_reader d) (d_table d) (d_acked d) (d_max_entries d) (d_out d ++ d_marshal (DCancel s)) (d_local d) (d_max_table d) (d_maxb d) (filter (fun p => negb (fst p =? s)) (d_blocked d))
  else d.
(** 169-187 [send]; [n]: how many bytes the transport takes; the subtraction panics below zero. *)
Definition dec_send (d : decoder) (n : nat) : rres (decoder * list N) :=
  if t_base (d_table d) <? d_acked d then Panic
  else
    let k := t_base (d_table d) - d_acked d in
    let out := if 0 <? k then d_out d ++ d_marshal (DIncrement k) else d_out d in
    let acked := if 0 <? k then t_base (d_table d) else d_acked d in
    let m := if d_local d then n else O in
    Good (mkD (d_reader d) (d_table d) acked (d_max_entries d) (skipn m out) (d_local d) (d_max_table d) (d_maxb d) (d_blocked d), firstn m out).
(** 246-252 [add_send_stream]. *)
Definition dec_add_stream (d : decoder) : rres decoder :=
  if d_local d then Panic else Good (mkD (d_reader d) (d_table d) (d_acked d) (d_max_entries d) (d_out d) true (d_max_table d) (d_maxb d) (d_blocked d)).
(** 147-152 [header_ack]; 206-241 [decode_header_block]: None while blocked. *)
Definition dec_block (d : decoder) (bs : list N) (s : N) : rres (decoder * option (list header)) :=
  rbind (decode_block (d_table d) (d_max_entries d) bs) (fun r =>
  match r with
  | Blocked req =>
      if existsb (fun p => fst p =? s) (d_blocked d) then Good (d, None)
      else if d_maxb d <=? lenN (d_blocked d) then Bad
      else Good (mkD (d_reader d) (d_table d) (d_acked d) (d_max_entries d) (d_out d) (d_local d) (d_max_table d) (d_maxb d) (d_blocked d ++ [(s, req)]), None)
  | Headers req l =>
      if req =? 0 then Good (d, Some l)
      else Good (mkD (d_reader d) (d_table d) (N.max (d_acked d) req) (d_max_entries d) (d_out d ++ d_marshal (DAck s)) (d_local d) (d_max_table d) (d_maxb d) (d_blocked d), Some l)
  end).
