(** Model of neqo-common/src/codec.rs: [Decoder] and [Encoder]. *)
From Verif Require Import Base.

(** codec.rs:14 [MAX_VARINT]. *)
Definition MAX_VARINT : N := 2 ^ 62 - 1.

(* ------------------------------------------------------------------ *)
(** ** Decoder *)

(** codec.rs:17-20 [struct Decoder { buf, offset }]. *)
Record decoder := mkDec { dbuf : list N; doff : nat }.

(** codec.rs:25-27 [Decoder::new]. *)
Definition dec_new (b : list N) : decoder := mkDec b 0.

(** codec.rs:31-33 [remaining]: [buf.len() - offset].  The Rust subtraction cannot
    underflow when [offset <= buf.len()], which every operation preserves (proved). *)
Definition dec_remaining (d : decoder) : nat := length (dbuf d) - doff d.

(** codec.rs:179-183 [as_ref]: the bytes not yet read, [&buf[offset..]]. *)
Definition dec_rest (d : decoder) : list N := skipn (doff d) (dbuf d).

Definition dec_advance (d : decoder) (n : nat) : decoder := mkDec (dbuf d) (doff d + n).

(** codec.rs:46-49 [skip]: panics ([None]) when fewer than [n] bytes remain. *)
Definition dec_skip (n : nat) (d : decoder) : option decoder :=
  if Nat.leb n (dec_remaining d) then Some (dec_advance d n) else None.

(** codec.rs:76-84 [skip_while]: [position(|v| v != predicate)]. *)
Fixpoint run_len (p : N) (l : list N) : nat :=
  match l with
  | [] => O
  | b :: r => if b =? p then S (run_len p r) else O
  end.
Definition dec_skip_while (p : N) (d : decoder) : option nat * decoder :=
  let until := run_len p (dec_rest d) in
  match dec_skip until d with
  | Some d' => (Some until, d')
  | None => (None, d) (* would be a panic; proved unreachable *)
  end.

(** codec.rs:88-94 [peek_byte]. *)
Definition dec_peek (d : decoder) : option N :=
  if Nat.ltb (dec_remaining d) 1 then None else nth_error (dbuf d) (doff d).

(** codec.rs:97-104 [decode(n)]. *)
Definition dec_bytes (n : nat) (d : decoder) : option (list N) * decoder :=
  if Nat.ltb (dec_remaining d) n then (None, d)
  else (Some (firstn n (skipn (doff d) (dbuf d))), dec_advance d n).

(** codec.rs:106-121 [decode_n(n)], [1 <= n <= 8]; both branches read [n] big-endian
    bytes. *)
Definition dec_n (n : nat) (d : decoder) : option N * decoder :=
  if Nat.ltb (dec_remaining d) n then (None, d)
  else (Some (be_val (firstn n (skipn (doff d) (dbuf d)))), dec_advance d n).

(** codec.rs:129-132 [decode_uint::<T>] for [u8,u16,u32,u64]: [n = size_of::<T>()];
    the conversion cannot fail for unsigned types. *)
Definition dec_uint (n : nat) (d : decoder) : option N * decoder := dec_n n d.

(** codec.rs:135-144 [decode_varint].  [?] keeps the already advanced position. *)
Definition dec_varint (d : decoder) : option N * decoder :=
  match dec_n 1 d with
  | (None, d1) => (None, d1)
  | (Some b1, d1) =>
      let more (k : nat) (sh : N) :=
        match dec_n k d1 with
        | (None, d2) => (None, d2)
        | (Some r, d2) => (Some (N.lor (N.shiftl (N.land b1 63) sh) r), d2)
        end in
      let top := N.shiftr b1 6 in
      if top =? 0 then (Some b1, d1)
      else if top =? 1 then more 1%nat 8
      else if top =? 2 then more 3%nat 24
      else more 7%nat 56
  end.

(** codec.rs:147-151 [decode_remainder]. *)
Definition dec_remainder (d : decoder) : list N * decoder :=
  (skipn (doff d) (dbuf d), mkDec (dbuf d) (length (dbuf d))).

(** codec.rs:153-162 [decode_checked] on a 64-bit target (usize::try_from never
    fails). *)
Definition dec_checked (n : option N) (d : decoder) : option (list N) * decoder :=
  match n with
  | None => (None, d)
  | Some l =>
      (* compare in [N] first: the length may be astronomically large *)
      if N.of_nat (dec_remaining d) <? l then (None, d)
      else dec_bytes (N.to_nat l) d
  end.

(** codec.rs:165-168 [decode_vec(n)]. *)
Definition dec_vec (n : nat) (d : decoder) : option (list N) * decoder :=
  let '(len, d1) := dec_n n d in dec_checked len d1.

(** codec.rs:171-174 [decode_vvec]. *)
Definition dec_vvec (d : decoder) : option (list N) * decoder :=
  let '(len, d1) := dec_varint d in dec_checked len d1.

(* ------------------------------------------------------------------ *)
(** ** Encoder *)

(** codec.rs:213-219 [struct Encoder { buf, start }]; [buf] holds [start] bytes that
    were there before the encoder was created. The growable [Vec<u8>] buffer is
    modelled (the fixed [Cursor] buffer panics when full, codec.rs:548-562). *)
Record encoder := mkEnc { ebuf : list N; estart : nat }.

(** codec.rs:490-497 and 564-572. *)
Definition enc_new (pre : list N) : encoder := mkEnc pre (length pre).

(** codec.rs:505-509 [as_ref]. *)
Definition enc_ref (e : encoder) : list N := skipn (estart e) (ebuf e).
(** codec.rs:243-245 [len]. *)
Definition enc_len (e : encoder) : nat := length (ebuf e) - estart e.

(** codec.rs:265-270 [encode], 277-282 [encode_byte]. *)
Definition enc_bytes (l : list N) (e : encoder) : encoder := mkEnc (ebuf e ++ l) (estart e).
Definition enc_byte (b : N) (e : encoder) : encoder := enc_bytes [b] e.

(** codec.rs:289-296 [encode_uint(n, v)]: panics unless [1 <= n <= 8]; silently drops
    the bytes of [v] above the low [n]. *)
Definition enc_uint (n : nat) (v : N) (e : encoder) : option encoder :=
  if (Nat.ltb 0 n && Nat.leb n 8)%bool then Some (enc_bytes (be_bytes n v) e) else None.

(** codec.rs:303-315: the bytes [encode_varint] appends; [None] is the panic. *)
Definition varint_bytes (v : N) : option (list N) :=
  if v <? 2 ^ 6 then Some [v mod 2 ^ 8]
  else if v <? 2 ^ 14 then Some (be_bytes 2 (N.lor (v mod 2 ^ 16) (N.shiftl 1 14)))
  else if v <? 2 ^ 30 then Some (be_bytes 4 (N.lor (v mod 2 ^ 32) (N.shiftl 2 30)))
  else if v <? 2 ^ 62 then Some (be_bytes 8 (N.lor v (N.shiftl 3 62)))
  else None.
Definition enc_varint (v : N) (e : encoder) : option encoder :=
  match varint_bytes v with Some l => Some (enc_bytes l e) | None => None end.

(** codec.rs:438-446 [varint_len]; [None] is the panic. *)
Definition varint_len (v : N) : option N :=
  if v <? 2 ^ 6 then Some 1
  else if v <? 2 ^ 14 then Some 2
  else if v <? 2 ^ 30 then Some 4
  else if v <? 2 ^ 62 then Some 8
  else None.

(** codec.rs:327-329 [encode_vec(n, v)]. *)
Definition enc_vec (n : nat) (v : list N) (e : encoder) : option encoder :=
  match enc_uint n (lenN v) e with Some e1 => Some (enc_bytes v e1) | None => None end.

(** codec.rs:358-360 [encode_vvec(v)]. *)
Definition enc_vvec (v : list N) (e : encoder) : option encoder :=
  match enc_varint (lenN v) e with Some e1 => Some (enc_bytes v e1) | None => None end.

(** codec.rs:454-456 [vvec_len]. *)
Definition vvec_len (n : N) : option N :=
  match varint_len n with Some k => Some (k + n) | None => None end.

(** codec.rs:412-417 [pad_to(len, v)]. *)
Definition enc_pad_to (len : nat) (v : N) (e : encoder) : encoder :=
  let target := (estart e + len)%nat in
  if Nat.ltb (length (ebuf e)) target
  then mkEnc (ebuf e ++ repeat v (target - length (ebuf e))) (estart e)
  else e.

(** codec.rs [Buffer for Vec<u8>]::write_at: [self[pos] = data], panics out of range. *)
Definition write_at (pos : nat) (b : N) (l : list N) : option (list N) :=
  if Nat.ltb pos (length l) then Some (firstn pos l ++ b :: skipn (S pos) l) else None.

Fixpoint write_run (pos : nat) (bs : list N) (l : list N) : option (list N) :=
  match bs with
  | [] => Some l
  | b :: r => match write_at pos b l with Some l' => write_run (S pos) r l' | None => None end
  end.

(** codec.rs:340-351 [encode_vec_with(n, f)].  The closure is modelled as one that
    appends [body].  [None] covers the failed [assert!] and the checked subtraction
    at line 344. *)
Definition enc_vec_with (n : nat) (body : list N) (e : encoder) : option encoder :=
  let start := length (ebuf e) in
  let e1 := enc_bytes body (enc_pad_to n 0 e) in
  let total := length (ebuf e1) in
  if Nat.ltb total (start + n) then None
  else
    let len := N.of_nat (total - start - n) in
    if len <? 2 ^ (8 * N.of_nat n) then
      match write_run start (be_bytes n len) (ebuf e1) with
      | Some b => Some (mkEnc b (estart e1))
      | None => None
      end
    else None.

(** codec.rs [Buffer for Vec<u8>]::rotate_right(start, count):
    [self[start..].rotate_right(count)]; panics when [count] exceeds the slice. *)
Definition rotate_right (start count : nat) (l : list N) : option (list N) :=
  let pre := firstn start l in
  let s := skipn start l in
  if Nat.ltb (length s) count then None
  else Some (pre ++ skipn (length s - count) s ++ firstn (length s - count) s).

(** codec.rs:367-404 [encode_vvec_with(f)], closure modelled as appending [body]. *)
Definition enc_vvec_with (body : list N) (e : encoder) : option encoder :=
  let start := length (ebuf e) in
  let e1 := enc_bytes body (enc_bytes [0] e) in
  let v := N.of_nat (length (ebuf e1) - start - 1) in
  match write_at start (N.land v 255) (ebuf e1) with
  | None => None
  | Some b =>
      let e2 := mkEnc b (estart e1) in
      let fin (count : nat) (bits : N) :=
        match enc_uint count (N.lor (N.shiftr v 8) bits) e2 with
        | None => None
        | Some e3 =>
            match rotate_right start count (ebuf e3) with
            | Some b3 => Some (mkEnc b3 (estart e3))
            | None => None
            end
        end in
      if v <? 2 ^ 6 then Some e2
      else if v <? 2 ^ 14 then fin 1%nat (N.shiftl 1 6)
      else if v <? 2 ^ 30 then fin 3%nat (N.shiftl 2 22)
      else if v <? 2 ^ 62 then fin 7%nat (N.shiftl 3 54)
      else None
  end.

(* ------------------------------------------------------------------ *)
(** ** Incremental decoders: neqo-common/src/incrdecoder.rs *)

(** incrdecoder.rs:11-15. *)
Record incr_uint := mkIU { iu_v : N; iu_remaining : option nat }.
Definition iu_default : incr_uint := mkIU 0 None.

(** incrdecoder.rs:19-21 [min_remaining]. *)
Definition iu_min_remaining (s : incr_uint) : nat :=
  match iu_remaining s with Some r => r | None => 1 end.

(** incrdecoder.rs:28-57 [consume].  Outer [None] is the panic ([unreachable!] at line
    39 on an empty decoder; [debug_assert!(n > 0)] of decode_n when asked for 0
    bytes).  The shift is on u64, so it is taken modulo 2^64. *)
Definition iu_consume (s : incr_uint) (d : decoder) : option (option N * incr_uint * decoder) :=
  match iu_remaining s with
  | Some r =>
      let amount := Nat.min r (dec_remaining d) in
      if Nat.eqb amount 0 then None
      else
        let v1 := if Nat.ltb amount 8
                  then (N.shiftl (iu_v s) (8 * N.of_nat amount)) mod 2 ^ 64
                  else iu_v s in
        match dec_n amount d with
        | (None, d1) => Some (None, mkIU v1 (Some r), d1)
        | (Some x, d1) =>
            let v2 := N.lor v1 x in
            let r' := (r - amount)%nat in
            Some (if Nat.eqb r' 0 then Some v2 else None, mkIU v2 (Some r'), d1)
        end
  | None =>
      match dec_uint 1 d with
      | (None, _) => None
      | (Some b, d1) =>
          let v := N.land b 63 in
          let top := N.shiftr b 6 in
          let rem := if top =? 0 then 0%nat else if top =? 1 then 1%nat
                     else if top =? 2 then 3%nat else 7%nat in
          Some (if Nat.eqb rem 0 then Some v else None, mkIU v (Some rem), d1)
      end
  end.

(** incrdecoder.rs:65-83. *)
Record incr_buf := mkIB { ib_v : list N; ib_remaining : nat }.
Definition ib_new (n : nat) : incr_buf := mkIB [] n.

(** incrdecoder.rs:90-96 [consume]; [mem::take] leaves an empty vector. *)
Definition ib_consume (s : incr_buf) (d : decoder) : option (list N) * incr_buf * decoder :=
  let amount := Nat.min (ib_remaining s) (dec_remaining d) in
  match dec_bytes amount d with
  | (None, d1) => (None, s, d1)
  | (Some b, d1) =>
      let v := ib_v s ++ b in
      let r := (ib_remaining s - amount)%nat in
      if Nat.eqb r 0 then (Some v, mkIB [] r, d1) else (None, mkIB v r, d1)
  end.

(** incrdecoder.rs:99-126 [IncrementalDecoderIgnore]; the state is [remaining]. *)
Definition ii_consume (s : nat) (d : decoder) : bool * nat * decoder :=
  let amount := Nat.min s (dec_remaining d) in
  let '(_, d1) := dec_bytes amount d in
  let r := (s - amount)%nat in
  (Nat.eqb r 0, r, d1).
