(** A view of [Decoder] (neqo-common/src/codec.rs:17-183) as functions on the bytes
    not yet read.  [CodecProofs.v] proves that each agrees with the buffer/offset
    model of [CodecModel.v]; the models of parsers that use a [Decoder] and stop at the
    first failure are written with these. *)
From Verif Require Import Base CodecModel.

(** codec.rs:97-104 *)
Definition rd_bytes (n : N) (l : list N) : option (list N * list N) :=
  if lenN l <? n then None else Some (firstnN n l, skipnN n l).

(** codec.rs:106-132 *)
Definition rd_n (n : nat) (l : list N) : option (N * list N) :=
  if Nat.ltb (length l) n then None else Some (be_val (firstn n l), skipn n l).

(** codec.rs:135-144, in arithmetic form *)
Definition rd_varint (l : list N) : option (N * list N) :=
  match l with
  | [] => None
  | b :: r =>
      let k := if b <? 64 then 0%nat else if b <? 128 then 1%nat
               else if b <? 192 then 3%nat else 7%nat in
      if Nat.ltb (length r) k then None
      else Some ((b mod 64) * 256 ^ N.of_nat k + be_val (firstn k r), skipn k r)
  end.

(** codec.rs:165-168 *)
Definition rd_vec (n : nat) (l : list N) : option (list N * list N) :=
  match rd_n n l with Some (k, r) => rd_bytes k r | None => None end.

(** codec.rs:171-174 *)
Definition rd_vvec (l : list N) : option (list N * list N) :=
  match rd_varint l with Some (k, r) => rd_bytes k r | None => None end.
