(** Datagrams joined into one run of bytes. *)
From Coq Require Import NArith List.
From Verif Require Import UdModel.
Import ListNotations.

(** The rule of segmentation offloading: all but the last have the same size; the last may be smaller; none is empty. *)
Inductive joined (n : nat) : list (list N) -> Prop :=
| joined_one d : d <> [] -> (length d <= n)%nat -> joined n [d]
| joined_more d r : length d = n -> joined n r -> joined n (d :: r).
(** What a network may do to datagrams sent: nothing but give them, with their ECN bits, to the receiver's system, which may join some that follow each
    other, are alike and obey the rule, into one buffer (with anything after them). *)
Inductive arrives (local : N) : list dg -> list (meta * list N) -> Prop :=
| arrives_none : arrives local [] []
| arrives_empty m buf ds bufs : m_len m = 0%nat \/ m_stride m = 0%nat -> arrives local ds bufs -> arrives local ds ((m, buf) :: bufs)
| arrives_some src ecn n xs rest ds bufs : (0 < n)%nat -> joined n xs -> arrives local ds bufs ->
    arrives local (map (mkDg src local (match ecn with Some e => e | None => 0%N end)) xs ++ ds) ((mkMeta src (length (concat xs)) n ecn, concat xs ++ rest) :: bufs).
