(** Vocabulary for stating flow control properties over traces. *)
From Coq Require Import Sorted.
From Verif Require Import Base CodecModel FcModel.

(** Sum and maximum of what happened to a sender. *)
Fixpoint s_limit (l : N) (ops : list sop) : N :=
  match ops with [] => l | SUpdate x :: r => s_limit (N.max l x) r | _ :: r => s_limit l r end.
Fixpoint s_used (ops : list sop) : N :=
  match ops with [] => 0 | SConsume n :: r => n + s_used r | _ :: r => s_used r end.
(** How often a frame reporting [l] was declared lost. *)
Fixpoint s_lost (l : N) (ops : list sop) : nat :=
  match ops with [] => O | SLost x :: r => if x =? l then S (s_lost l r) else s_lost l r | _ :: r => s_lost l r end.

(** The limit the peer has been told, last. *)
Fixpoint last_limit (l : N) (outs : list rout) : N :=
  match outs with [] => l | RFrame v :: r => last_limit v r | _ :: r => last_limit l r end.
(** All limits advertised. *)
Fixpoint limits (outs : list rout) : list N :=
  match outs with [] => [] | RFrame v :: r => v :: limits r | _ :: r => limits r end.
(** What the peer has used: for a connection the sum of the new bytes accepted, for a stream
    the largest offset accepted. *)
Fixpoint used_by_peer (k : rkind) (a : N) (ops : list rop) (outs : list rout) : N :=
  match ops, outs with
  | RConsume n :: ops', RAccept _ :: outs' =>
      used_by_peer k (match k with RStream => N.max a n | _ => a + n end) ops' outs'
  | _ :: ops', _ :: outs' => used_by_peer k a ops' outs'
  | _, _ => a
  end.
(** What the application has read or discarded. *)
Fixpoint retired_total (ops : list rop) : N :=
  match ops with [] => 0 | RRetire n :: r => n + retired_total r | _ :: r => retired_total r end.

(** The application never sets a window below the one in effect. *)
Fixpoint only_raises (k : rkind) (s : rfc) (ops : list rop) : Prop :=
  match ops with
  | [] => True
  | o :: r =>
      (match o with RSetMax m => rf_max_active s <= m | _ => True end) /\
      match rstep k s o with Some (s', _) => only_raises k s' r | None => True end
  end.
(** How the callers use the receive side: they retire what was consumed, counts are below
    2^62, windows below [w], and [w] times the clock in microseconds fits 64 bits. *)
Fixpoint calls_ok (w : N) (k : rkind) (s : rfc) (ops : list rop) : Prop :=
  match ops with
  | [] => True
  | o :: r =>
      (match o with
       | RSetMax m => rf_max_active s <= m <= w
       | RConsume n => n < 2 ^ 62
       | RRetire n => rf_retired s + n <= rf_consumed s
       | RWrite now _ _ => w * (now / 1000) < 2 ^ 64
       | _ => True
       end) /\
      match rstep k s o with Some (s', _) => calls_ok w k s' r | None => True end
  end.

(** Stream identifiers: the first [n] of a type and initiator (RFC 9000, 2.1). *)
Definition ids (t : stype) (r : role) (n : nat) : list N :=
  map (fun i => 4 * N.of_nat i + (match t with BiDi => 0 | UniDi => 2 end) + (match r with Client => 0 | Server => 1 end)) (seq 0 n).
Fixpoint opened (l : list (option N)) : list N :=
  match l with [] => [] | Some i :: r => i :: opened r | None :: r => opened r end.
Fixpoint l_limit (l : N) (ops : list lop) : N :=
  match ops with [] => l | LMaxStreams x :: r => l_limit (N.max l x) r | LOpen :: r => l_limit l r end.
Fixpoint created (outs : list mout) : list N :=
  match outs with [] => [] | MCreated l :: r => l ++ created r | _ :: r => created r end.
Fixpoint m_limit (l : N) (outs : list mout) : N :=
  match outs with [] => l | MSent v :: r => m_limit v r | _ :: r => m_limit l r end.
Fixpoint m_retired (ops : list mop) : N :=
  match ops with [] => 0 | MRetire n :: r => n + m_retired r | _ :: r => m_retired r end.
(** Identifiers routed to this limit have its type and initiator; only streams that were
    created are retired. *)
Fixpoint m_ok (base : N) (s : rsl) (ops : list mop) : Prop :=
  match ops with
  | [] => True
  | o :: r =>
      (match o with
       | MFrame id => id mod 4 = base /\ id < 2 ^ 62
       | MRetire n => rf_retired (rl_fc s) + n <= rl_next s / 4
       | _ => True
       end) /\
      match mstep s o with Some (s', _) => m_ok base s' r | None => True end
  end.
