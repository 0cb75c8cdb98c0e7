(** Bits, most significant first, and the code of a string. *)
From Verif Require Import Base Lib QpTables.
Open Scope N_scope.
Open Scope list_scope.
Import ListNotations.

Fixpoint bits (n : nat) (v : N) : list bool :=
  match n with O => [] | S k => N.testbit v (N.of_nat k) :: bits k v end.
Definition bytes_bits (l : list N) : list bool := flat_map (bits 8) l.
(** The code of a symbol (RFC 7541, appendix B), 256 being the end of a string. *)
Definition code (c : N) : list bool := match nth_error HUFFMAN (N.to_nat c) with Some (v, n) => bits (N.to_nat n) v | None => [] end.
(** A string in Huffman code: the codes of its bytes, then ones to the end of the byte. *)
Definition is_code (s e : list N) : Prop := exists k, (k < 8)%nat /\ bytes_bits e = flat_map code s ++ repeat true k.

(** Integers (RFC 7541, section 5.1): the bytes after the first, seven bits each, the last without the high bit. *)
Fixpoint tail_value (l : list N) : N := match l with [] => 0 | b :: l' => b mod 128 + 128 * tail_value l' end.
Fixpoint is_tail (l : list N) : Prop := match l with [] => False | [b] => b < 128 | b :: l' => 128 <= b /\ is_tail l' end.
(** The bytes [b :: bs] start with the number [v], on an [n] bit prefix, and [rest] follows. *)
Definition is_int (n : N) (b : N) (bs : list N) (v : N) (rest : list N) : Prop :=
  let m := 2 ^ n - 1 in
  (b mod 2 ^ n < m /\ v = b mod 2 ^ n /\ bs = rest) \/
  (b mod 2 ^ n = m /\ exists tl, bs = tl ++ rest /\ is_tail tl /\ (length tl <= 10)%nat /\ v = m + tail_value tl).
