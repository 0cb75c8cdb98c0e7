(** QPACK strings and integers: neqo-qpack/src/prefix.rs, qpack_send_buf.rs, reader.rs, huffman.rs,
    huffman_decode_helper.rs, encoder_instructions.rs and decoder_instructions.rs. *)
From Verif Require Import Base Lib QpTables.
Open Scope N_scope.
Open Scope list_scope.
Import ListNotations.

(** A result; [Panic] is an assertion, an overflow or an index out of range. *)
Inductive rres (A : Type) := Good (a : A) | Bad | Panic.
Arguments Good {A}. Arguments Bad {A}. Arguments Panic {A}.
Definition rbind {A B} (x : rres A) (f : A -> rres B) : rres B := match x with Good a => f a | Bad => Bad | Panic => Panic end.

(** *** prefix.rs *)
(** 7-13 [Prefix]: the bits, how many, and the mask; 43-45 [cmp_prefix]. *)
Record prefix := mkP { p_val : N; p_len : N; p_mask : N }.
Definition cmp_prefix (p : prefix) (b : N) : bool := N.land b (p_mask p) =? p_val p.
(** 16-33 [new]; the assertions. *)
Definition prefix_new (v len : N) : option prefix :=
  if (len <=? 7) && ((len =? 0) || (N.land v (2 ^ (8 - len) - 1) =? 0)) then
    Some (mkP v len (if len =? 0 then 255 else (2 ^ len - 1) * 2 ^ (8 - len)))
  else None.
(** 48-75 [create_prefix!]. *)
Definition mkp (v len : N) : prefix := mkP v len ((2 ^ len - 1) * 2 ^ (8 - len)).
(** 77-142: the prefixes. *)
Definition NO_PREFIX := mkP 0 0 255.
Definition DECODER_HEADER_ACK := mkp 128 1.
Definition DECODER_STREAM_CANCELLATION := mkp 64 2.
Definition DECODER_INSERT_COUNT_INCREMENT := mkp 0 2.
Definition ENCODER_CAPACITY := mkp 32 3.
Definition ENCODER_INSERT_WITH_NAME_REF_STATIC := mkp 192 2.
Definition ENCODER_INSERT_WITH_NAME_REF_DYNAMIC := mkp 128 2.
Definition ENCODER_INSERT_WITH_NAME_LITERAL := mkp 64 2.
Definition ENCODER_DUPLICATE := mkp 0 3.
Definition BASE_PREFIX_POSITIVE := mkp 0 1.
Definition BASE_PREFIX_NEGATIVE := mkp 128 1.
Definition HEADER_FIELD_INDEX_STATIC := mkp 192 2.
Definition HEADER_FIELD_INDEX_DYNAMIC := mkp 128 2.
Definition HEADER_FIELD_INDEX_DYNAMIC_POST := mkp 16 4.
Definition HEADER_FIELD_LITERAL_NAME_REF_STATIC := mkP 80 4 208.
Definition HEADER_FIELD_LITERAL_NAME_REF_DYNAMIC := mkP 64 4 208.
Definition HEADER_FIELD_LITERAL_NAME_REF_DYNAMIC_POST := mkP 0 5 240.
Definition HEADER_FIELD_LITERAL_NAME_LITERAL := mkP 32 4 224.

(** *** Integers *)
(** qpack_send_buf.rs:31-35 and reader.rs:167-171: the largest value of the first byte. *)
Definition first_max (len : N) : N := if len =? 0 then 255 else 2 ^ (8 - len) - 1.
(** qpack_send_buf.rs:46-58: seven bits at a time; a u64 has at most ten such groups. *)
Fixpoint int_tail (fuel : nat) (v : N) : list N :=
  match fuel with
  | O => []
  | S f => let b := N.land v 127 in let v' := N.shiftr v 7 in
           if 0 <? v' then N.lor b 128 :: int_tail f v' else [b]
  end.
(** qpack_send_buf.rs:30-60 [encode_prefixed_encoded_int]; [!first_byte_max] of a u8. *)
Definition encode_int (p : prefix) (v : N) : list N :=
  let m := first_max (p_len p) in
  if v <? m then [N.lor (N.land (p_val p) (255 - m)) v]
  else N.lor (p_val p) m :: int_tail 10 (v - m).
(** reader.rs:151-155 [IntReader]; 165-179 [new]. *)
Record ireader := mkI { i_val : N; i_cnt : N; i_done : bool }.
Definition int_new (b len : N) : ireader :=
  let m := first_max len in let v := N.land b m in mkI v 0 (v <? m).
(** reader.rs:204-224 [read] from the bytes that are there. *)
Inductive ires := IOk (v : N) (rest : list N) | IMore (r : ireader) | IOverflow | IPanic.
Definition int_byte (r : ireader) (b : N) : rres ireader :=
  if (i_cnt r =? 63) && ((1 <? b) || ((b =? 1) && (N.shiftr (i_val r) 63 =? 1))) then Bad
  else
    let v := i_val r + N.shiftl (N.land b 127) (i_cnt r) mod 2 ^ 64 in
    if 2 ^ 64 <=? v then Panic
    else let c := i_cnt r + 7 in Good (mkI v c ((N.land b 128 =? 0) || (64 <=? c))).
Fixpoint int_read (r : ireader) (bs : list N) : ires :=
  if i_done r then IOk (i_val r) bs
  else match bs with
       | [] => IMore r
       | b :: bs' => match int_byte r b with Good r' => int_read r' bs' | Bad => IOverflow | Panic => IPanic end
       end.

(** *** Huffman *)
(** huffman.rs:117-161 [encode]: what is left of a byte, and the byte; [expect] fails with None. *)
Fixpoint full_bytes (fuel : nat) (len v : N) (out : list N) : list N * N :=
  match fuel with
  | O => (out, len)
  | S f => if 8 <=? len then full_bytes f (len - 8) v (out ++ [N.land (N.shiftr v (len - 8)) 255]) else (out, len)
  end.
Definition put_char (c : N) (s : list N * N * N) : option (list N * N * N) :=
  let '(out, room, saved) := s in
  match nth_error HUFFMAN (N.to_nat c) with
  | None => None
  | Some (v, len) =>
      if len <? room then Some (out, room - len, N.lor saved (N.shiftl (N.land v 255) (room - len) mod 256))
      else
        let x := N.shiftr v (len - room) in
        if 256 <=? x then None
        else
          let '(out2, len2) := full_bytes 4 (len - room) v (out ++ [N.lor saved x]) in
          if 0 <? len2 then
            let y := N.land v (2 ^ len2 - 1) in
            if 256 <=? y then None else Some (out2, 8 - len2, N.shiftl y (8 - len2) mod 256)
          else Some (out2, 8, 0)
  end.
Fixpoint put_chars (l : list N) (s : list N * N * N) : option (list N * N * N) :=
  match l with [] => Some s | c :: l' => match put_char c s with Some s' => put_chars l' s' | None => None end end.
Definition huffman_encode (l : list N) : option (list N) :=
  match put_chars l ([], 8, 0) with
  | Some (out, room, saved) => Some (if room <? 8 then out ++ [N.lor saved (2 ^ room - 1)] else out)
  | None => None
  end.

(** huffman_decode_helper.rs:16-19 [HuffmanDecoderNode]: no node, a leaf, an inner node. *)
Inductive tree := TNil | TLeaf (v : N) | TNode (zero one : tree).
Definition is_nil (t : tree) : bool := match t with TNil => true | _ => false end.
(** 26-61 [make_huffman_tree]: the loop over the table; the last component: returned early. *)
Fixpoint scan_table (l : list (N * N)) (i prefix len : N) (found : bool) (n0 n1 : tree) : bool * tree * tree * bool :=
  match l with
  | [] => (found, n0, n1, false)
  | (v, vl) :: l' =>
      if vl <=? len then scan_table l' (i + 1) prefix len found n0 n1
      else if negb (N.shiftr v (vl - len) =? prefix) then scan_table l' (i + 1) prefix len found n0 n1
      else if vl =? len + 1 then
        let one := N.odd v in
        let m0 := if one then n0 else TLeaf i in
        let m1 := if one then TLeaf i else n1 in
        if negb (is_nil (if one then m0 else m1)) then (true, m0, m1, true)
        else scan_table l' (i + 1) prefix len true m0 m1
      else scan_table l' (i + 1) prefix len true n0 n1
  end.
Fixpoint make_tree (fuel : nat) (prefix len : N) : tree :=
  match fuel with
  | O => TNil
  | S f =>
      let '(found, n0, n1, early) := scan_table HUFFMAN 0 prefix len false TNil TNil in
      if early then TNode n0 n1
      else if found then
        TNode (if is_nil n0 then make_tree f (prefix * 2) (len + 1) else n0)
              (if is_nil n1 then make_tree f (prefix * 2 + 1) (len + 1) else n1)
      else TNode n0 n1
  end.
Definition root : tree := make_tree 32 0 0.

(** huffman.rs:13-27 [BitReader]; 29-43 [read_bit]: at the end it has moved on. *)
Record breader := mkB { b_in : list N; b_off : nat; b_bit : N }.
Definition read_bit (r : breader) : breader * option bool :=
  if Nat.eqb (length (b_in r)) (b_off r) then (r, None)
  else
    let r1 := if b_bit r =? 0 then mkB (b_in r) (S (b_off r)) 8 else r in
    if (b_bit r =? 0) && Nat.eqb (b_off r1) (length (b_in r)) then (mkB (b_in r) (b_off r1) 0, None)
    else (mkB (b_in r) (b_off r1) (b_bit r1 - 1), Some (N.testbit (nth (b_off r1) (b_in r) 0) (b_bit r1 - 1))).
(** 45-62 [verify_ending]. *)
Definition verify_ending (r : breader) (i : N) : option breader :=
  let k := i + b_bit r in
  if 7 <? k then None
  else if Nat.eqb (length (b_in r)) 0 then Some r
  else if negb (Nat.eqb (b_off r) (length (b_in r))) then None
  else if N.land (nth (length (b_in r) - 1) (b_in r) 0) (2 ^ k - 1) =? 2 ^ k - 1 then Some (mkB (b_in r) (b_off r) 0)
  else None.
(** 64-66 [has_more_data]. *)
Definition has_more (r : breader) : bool :=
  negb (Nat.eqb (length (b_in r)) 0) && (negb (Nat.eqb (b_off r) (length (b_in r))) || negb (b_bit r =? 0)).
(** 90-111 [decode_character]: a symbol, or the end. *)
Inductive hres := HSym (v : N) (r : breader) | HEnd (r : breader) | HErr.
Definition ending (r : breader) (i : N) : hres := match verify_ending r i with Some r' => HEnd r' | None => HErr end.
Fixpoint walk (t : tree) (r : breader) (i : N) : hres :=
  match t with
  | TLeaf v => HSym v r
  | TNil => HErr
  | TNode a b =>
      match read_bit r with
      | (r1, None) => ending r1 i
      | (r1, Some false) => match a with TNil => ending r1 (i + 1) | _ => walk a r1 (i + 1) end
      | (r1, Some true) => match b with TNil => ending r1 (i + 1) | _ => walk b r1 (i + 1) end
      end
  end.
(** 77-88 [decode]; a symbol takes a bit, so there are no more symbols than bits. *)
Fixpoint decode_loop (fuel : nat) (r : breader) : rres (list N) :=
  if negb (has_more r) then Good []
  else match fuel with
       | O => Panic
       | S f =>
           match walk root r 0 with
           | HSym v r' => if v <? 256 then rbind (decode_loop f r') (fun l => Good (v :: l)) else Bad
           | HEnd r' => decode_loop f r'
           | HErr => Bad
           end
       end.
Definition huffman_decode (l : list N) : rres (list N) := decode_loop (8 * length l + 2) (mkB l 0 8).

(** *** Literals *)
(** reader.rs:253 [MAX_LEN]. *)
Definition MAX_LEN : N := 393216.
(** qpack_send_buf.rs:63-82 [encode_literal]. *)
Definition encode_literal (huff : bool) (p : prefix) (v : list N) : option (list N) :=
  match prefix_new (if huff then N.lor (p_val p) (N.shiftr 128 (p_len p)) else p_val p) (p_len p + 1) with
  | None => None
  | Some rp =>
      if huff then match huffman_encode v with Some e => Some (encode_int rp (lenN e) ++ e) | None => None end
      else Some (encode_int rp (lenN v) ++ v)
  end.
(** reader.rs:57-91, 98-103: reading a header block that is all there; every failure is one error. *)
Definition buf_int (len : N) (bs : list N) : rres (N * list N) :=
  match bs with
  | [] => Bad
  | b :: bs' => match int_read (int_new b len) bs' with IOk v r => Good (v, r) | IMore _ => Bad | IOverflow => Bad | IPanic => Panic end
  end.
(** reader.rs:116-147 [read_literal_from_buffer], [slice]. *)
Definition buf_literal (len : N) (bs : list N) : rres (list N * list N) :=
  match bs with
  | [] => Bad
  | b :: bs' =>
      match int_read (int_new b (len + 1)) bs' with
      | IOk n r =>
          if MAX_LEN <? n then Bad
          else if lenN r <? n then Bad
          else
            let lit := firstn (N.to_nat n) r in
            let rest := skipn (N.to_nat n) r in
            if negb (N.land b (N.shiftr 128 len) =? 0) then rbind (huffman_decode lit) (fun v => Good (v, rest))
            else Good (lit, rest)
      | IMore _ => Bad | IOverflow => Bad | IPanic => Panic
      end
  end.
(** reader.rs:227-247 [LiteralReader]: what it waits for; [LLit]: the length and what has come.  261-272, [Default]. *)
Inductive lstate := LHuff | LLen (r : ireader) | LLit (n : N) (got : list N).
Record lreader := mkL { l_state : lstate; l_huff : bool }.
Definition lit_default : lreader := mkL LHuff false.
Definition lit_first (b len : N) : lreader := mkL (LLen (int_new b (len + 1))) (negb (N.land b (N.shiftr 128 len) =? 0)).
(** reader.rs:288-337 [read]. *)
Inductive lres := LOk (v : list N) (rest : list N) | LMore (l : lreader) | LErr | LPanic.
Definition lit_body (huff : bool) (n : N) (got bs : list N) : lres :=
  let k := N.min (n - lenN got) (lenN bs) in
  let got' := got ++ firstn (N.to_nat k) bs in
  if lenN got' =? n then
    if huff then match huffman_decode got' with Good v => LOk v (skipn (N.to_nat k) bs) | Bad => LErr | Panic => LPanic end
    else LOk got' (skipn (N.to_nat k) bs)
  else LMore (mkL (LLit n got') huff).
Definition lit_len (huff : bool) (r : ireader) (bs : list N) : lres :=
  match int_read r bs with
  | IOk n rest => if MAX_LEN <? n then LErr else lit_body huff n [] rest
  | IMore r' => LMore (mkL (LLen r') huff)
  | IOverflow => LErr
  | IPanic => LPanic
  end.
Definition lit_read (l : lreader) (bs : list N) : lres :=
  match l_state l with
  | LHuff => match bs with [] => LMore l | b :: bs' => lit_len (negb (N.land b 128 =? 0)) (int_new b 1) bs' end
  | LLen r => lit_len (l_huff l) r bs
  | LLit n got => lit_body (l_huff l) n got bs
  end.

(** *** Encoder instructions (encoder_instructions.rs) *)
(** 98-118 [DecodedEncoderInstruction]; 55-82 [marshal]. *)
Inductive einstr := ECapacity (v : N) | EInsertStatic (i : N) (v : list N) | EInsertDynamic (i : N) (v : list N)
| EInsertLiteral (n v : list N) | EDuplicate (i : N).
Definition oapp (a b : option (list N)) : option (list N) := match a, b with Some x, Some y => Some (x ++ y) | _, _ => None end.
Definition e_marshal (huff : bool) (i : einstr) : option (list N) :=
  match i with
  | ECapacity v => Some (encode_int ENCODER_CAPACITY v)
  | EInsertStatic i v => oapp (Some (encode_int ENCODER_INSERT_WITH_NAME_REF_STATIC i)) (encode_literal huff NO_PREFIX v)
  | EInsertDynamic i v => oapp (Some (encode_int ENCODER_INSERT_WITH_NAME_REF_DYNAMIC i)) (encode_literal huff NO_PREFIX v)
  | EInsertLiteral n v => oapp (encode_literal huff ENCODER_INSERT_WITH_NAME_LITERAL n) (encode_literal huff NO_PREFIX v)
  | EDuplicate i => Some (encode_int ENCODER_DUPLICATE i)
  end.
(** 83-96 [EncoderInstructionReaderState], with the parts of the instruction read so far. *)
Inductive ekind := KCapacity | KStatic | KDynamic | KLiteral | KDuplicate.
Inductive estate := SInstr | SInt (k : ekind) (r : ireader) | SLit1 (k : ekind) (i : N) (l : lreader) | SLit2 (n : list N) (l : lreader).
(** 164-193 [decode_instruction_from_byte]; the last case is unreachable. *)
Definition e_kind (b : N) : option ekind :=
  if cmp_prefix ENCODER_INSERT_WITH_NAME_REF_STATIC b then Some KStatic
  else if cmp_prefix ENCODER_INSERT_WITH_NAME_REF_DYNAMIC b then Some KDynamic
  else if cmp_prefix ENCODER_INSERT_WITH_NAME_LITERAL b then Some KLiteral
  else if cmp_prefix ENCODER_CAPACITY b then Some KCapacity
  else if cmp_prefix ENCODER_DUPLICATE b then Some KDuplicate
  else None.
(** 195-226 [decode_instruction_type]. *)
Definition e_first (b : N) : option estate :=
  match e_kind b with
  | None => None
  | Some KCapacity => Some (SInt KCapacity (int_new b (p_len ENCODER_CAPACITY)))
  | Some KDuplicate => Some (SInt KDuplicate (int_new b (p_len ENCODER_CAPACITY)))
  | Some KStatic => Some (SInt KStatic (int_new b (p_len ENCODER_INSERT_WITH_NAME_REF_STATIC)))
  | Some KDynamic => Some (SInt KDynamic (int_new b (p_len ENCODER_INSERT_WITH_NAME_REF_STATIC)))
  | Some KLiteral => Some (SLit1 KLiteral 0 (lit_first b (p_len ENCODER_INSERT_WITH_NAME_LITERAL)))
  end.
(** 233-303 [read_instructions]: an instruction, or the state in which it waits. *)
Inductive eres := EOk (i : einstr) (rest : list N) | EMore (s : estate) | EErr | EPanic.
Definition e_lit2 (n : list N) (l : lreader) (bs : list N) : eres :=
  match lit_read l bs with
  | LOk v rest => EOk (EInsertLiteral n v) rest | LMore l' => EMore (SLit2 n l') | LErr => EErr | LPanic => EPanic
  end.
Definition e_lit1 (k : ekind) (i : N) (l : lreader) (bs : list N) : eres :=
  match lit_read l bs with
  | LOk v rest =>
      match k with
      | KStatic => EOk (EInsertStatic i v) rest
      | KDynamic => EOk (EInsertDynamic i v) rest
      | KLiteral => e_lit2 v lit_default rest
      | _ => EPanic
      end
  | LMore l' => EMore (SLit1 k i l') | LErr => EErr | LPanic => EPanic
  end.
Definition e_int (k : ekind) (r : ireader) (bs : list N) : eres :=
  match int_read r bs with
  | IOk v rest =>
      match k with
      | KCapacity => EOk (ECapacity v) rest
      | KDuplicate => EOk (EDuplicate v) rest
      | KStatic | KDynamic => e_lit1 k v lit_default rest
      | KLiteral => EPanic
      end
  | IMore r' => EMore (SInt k r') | IOverflow => EErr | IPanic => EPanic
  end.
Definition e_read (s : estate) (bs : list N) : eres :=
  match s with
  | SInstr =>
      match bs with
      | [] => EMore SInstr
      | b :: bs' =>
          match e_first b with
          | Some (SInt k r) => e_int k r bs'
          | Some (SLit1 k i l) => e_lit1 k i l bs'
          | _ => EPanic
          end
      end
  | SInt k r => e_int k r bs
  | SLit1 k i l => e_lit1 k i l bs
  | SLit2 n l => e_lit2 n l bs
  end.
(** decoder.rs:86-94, the loop of [process_instructions]: all instructions in the bytes; the last component: the error, after which the connection closes and the state does not matter. *)
Inductive fin := FOk | FErr | FPanic.
Fixpoint e_all (fuel : nat) (s : estate) (bs : list N) : list einstr * estate * fin :=
  match fuel with
  | O => ([], s, FPanic)
  | S f =>
      match e_read s bs with
      | EOk i rest => let '(l, s', e) := e_all f SInstr rest in (i :: l, s', e)
      | EMore s' => ([], s', FOk)
      | EErr => ([], SInstr, FErr)
      | EPanic => ([], SInstr, FPanic)
      end
  end.
Definition e_feed (s : estate) (bs : list N) : list einstr * estate * fin := e_all (length bs + 2) s bs.

(** *** Decoder instructions (decoder_instructions.rs) *)
(** 23-34 [DecoderInstruction]; 56-69 [marshal]. *)
Inductive dinstr := DIncrement (n : N) | DAck (x : N) | DCancel (x : N).
Definition d_marshal (i : dinstr) : list N :=
  match i with
  | DIncrement n => encode_int DECODER_INSERT_COUNT_INCREMENT n
  | DAck x => encode_int DECODER_HEADER_ACK x
  | DCancel x => encode_int DECODER_STREAM_CANCELLATION x
  end.
(** 37-53 [get_instruction], and reader.rs:185-192 [IntReader::make]; the last case is unreachable. *)
Inductive dkind := GAck | GCancel | GIncrement.
Definition d_kind (b : N) : option (dkind * ireader) :=
  if cmp_prefix DECODER_HEADER_ACK b then Some (GAck, int_new b 1)
  else if cmp_prefix DECODER_STREAM_CANCELLATION b then Some (GCancel, int_new b 2)
  else if cmp_prefix DECODER_INSERT_COUNT_INCREMENT b then Some (GIncrement, int_new b 2)
  else None.
Inductive dstate := DInstr | DInt (k : dkind) (r : ireader).
Inductive dres := DOk (i : dinstr) (rest : list N) | DMore (s : dstate) | DErr | DPanic.
Definition d_int (k : dkind) (r : ireader) (bs : list N) : dres :=
  match int_read r bs with
  | IOk v rest => DOk (match k with GAck => DAck v | GCancel => DCancel v | GIncrement => DIncrement v end) rest
  | IMore r' => DMore (DInt k r') | IOverflow => DErr | IPanic => DPanic
  end.
(** 97-144 [read_instructions]. *)
Definition d_read (s : dstate) (bs : list N) : dres :=
  match s with
  | DInstr => match bs with
              | [] => DMore DInstr
              | b :: bs' => match d_kind b with Some (k, r) => d_int k r bs' | None => DPanic end
              end
  | DInt k r => d_int k r bs
  end.
(** encoder.rs:141-155 [read_instructions]. *)
Fixpoint d_all (fuel : nat) (s : dstate) (bs : list N) : list dinstr * dstate * fin :=
  match fuel with
  | O => ([], s, FPanic)
  | S f =>
      match d_read s bs with
      | DOk i rest => let '(l, s', e) := d_all f DInstr rest in (i :: l, s', e)
      | DMore s' => ([], s', FOk)
      | DErr => ([], DInstr, FErr)
      | DPanic => ([], DInstr, FPanic)
      end
  end.
Definition d_feed (s : dstate) (bs : list N) : list dinstr * dstate * fin := d_all (length bs + 2) s bs.
