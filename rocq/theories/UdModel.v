(** Batches of datagrams and the UDP socket: /repo/neqo-common/src/datagram.rs [Batch] and /repo/neqo-udp/src/lib.rs. *)
From Coq Require Import NArith List Bool PeanoNat.
Import ListNotations.

(** datagram.rs 17-25 [Datagram]: addresses are opaque numbers; the TOS byte. *)
Record dg := mkDg { g_src : N; g_dst : N; g_tos : N; g_data : list N }.
(** 159-165 [Batch]. *)
Record batch := mkB { b_src : N; b_dst : N; b_tos : N; b_size : nat; b_data : list N }.
(** What [slice::chunks] does; [fuel] is the length of the list. A size of zero panics in Rust; here it gives up. *)
Fixpoint chunks_f (fuel n : nat) (l : list N) : list (list N) :=
  match fuel with
  | O => []
  | S f => match l with [] => [] | _ => firstn n l :: chunks_f f n (skipn n l) end
  end.
Definition chunks (n : nat) (l : list N) : list (list N) := chunks_f (length l) n l.
(** 181-192 [From<Datagram>]; None: the expectation fails. *)
Definition of_datagram (d : dg) : option batch :=
  match g_data d with [] => None | _ => Some (mkB (g_src d) (g_dst d) (g_tos d) (length (g_data d)) (g_data d)) end.
(** 242-244 [num_datagrams]. *)
Definition num_datagrams (b : batch) : nat := (length (b_data b) / b_size b + if Nat.eqb (length (b_data b) mod b_size b) 0 then 0 else 1)%nat.
(** 246-253 [iter]. *)
Definition iter (b : batch) : list dg := map (mkDg (b_src b) (b_dst b) (b_tos b)) (chunks (b_size b) (b_data b)).
(** 27-40 [TryFrom<Batch>]. *)
Definition to_datagram (b : batch) : option dg := if Nat.eqb (num_datagrams b) 1 then Some (mkDg (b_src b) (b_dst b) (b_tos b) (b_data b)) else None.

(** neqo-udp lib.rs 60-106 [send_inner]: what is handed to the operating system (the two ECN bits of the TOS byte, none if zero), and what is made of its
    answer. *)
Record transmit := mkT { t_dst : N; t_ecn : option N; t_data : list N; t_seg : nat }.
Definition ecn_of_bits (b : N) : option N := let e := (b mod 4)%N in if (e =? 0)%N then None else Some e.
Definition transmit_of (b : batch) : transmit := mkT (b_dst b) (ecn_of_bits (b_tos b)) (b_data b) (b_size b).
Inductive answer := Sent | TooBig | NoBuffers | Fails (e : N).
Definition send_result (a : answer) : option N := match a with Sent | TooBig | NoBuffers => None | Fails e => Some e end.
(** 144-180 [recv_inner]: each buffer filled, with how many bytes of it, how long a datagram is, from where and with which ECN bits. *)
Record meta := mkMeta { m_addr : N; m_len : nat; m_stride : nat; m_ecn : option N }.
(** 195-236 [DatagramIter::next], to the end: the datagrams given; None: a panic (the length is beyond the buffer; an empty datagram). *)
Definition from_slice (src dst tos : N) (d : list N) : option dg := match d with [] => None | _ => Some (mkDg src dst tos d) end.
Fixpoint all {A} (l : list (option A)) : option (list A) :=
  match l with [] => Some [] | None :: _ => None | Some x :: r => match all r with Some xs => Some (x :: xs) | None => None end end.
Fixpoint received (local : N) (bufs : list (meta * list N)) : option (list dg) :=
  match bufs with
  | [] => Some []
  | (m, buf) :: r =>
      if Nat.eqb (m_len m) 0 || Nat.eqb (m_stride m) 0 then received local r
      else if Nat.ltb (length buf) (m_len m) then None
      else
        match all (map (from_slice (m_addr m) local (match m_ecn m with Some e => e | None => 0%N end)) (chunks (m_stride m) (firstn (m_len m) buf))), received local r with
        | Some a, Some b => Some (a ++ b)
        | _, _ => None
        end
  end.
