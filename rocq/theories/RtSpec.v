(** What the history of a send stream says about each offset. *)
From Verif Require Import Base RtModel.

(** [s = Some true]: acknowledged; [Some false]: in flight; [None]: to be sent. *)
Definition bstate := option bool.
(** The state the tracker gives to offset [b]. *)
Definition state_of (t : rt) (b : N) : bstate :=
  if b <? rt_acked t then Some true
  else match find (fun e => (fst e <=? b) && (b <? fst e + fst (snd e))) (rt_used t) with
       | Some e => Some (snd (snd e))
       | None => None
       end.

Definition covers (off len b : N) : Prop := off <= b < off + len.
Definition coversb (off len b : N) : bool := (off <=? b) && (b <? off + len).

(** The ideal bookkeeping, one byte at a time.  Sending and losing everything that is in flight
    is [TUnmarkSent]. *)
Definition ideal1 (o : rtop) (b : N) (s : bstate) : bstate :=
  match o with
  | TSent off len => if coversb off len b then match s with Some true => s | _ => Some false end else s
  | TAcked off len => if coversb off len b then Some true else s
  | TLost off len => if coversb off len b then match s with Some true => s | _ => None end else s
  | TUnmarkSent => match s with Some true => s | _ => None end
  | TQuery => s
  end.
Fixpoint ideal (ops : list rtop) (b : N) (s : bstate) : bstate :=
  match ops with [] => s | o :: r => ideal r b (ideal1 o b s) end.

(** [b] was in a range that was acknowledged. *)
Definition was_acked (ops : list rtop) (b : N) : Prop := exists off len, In (TAcked off len) ops /\ covers off len b.
(** [b] was sent, and nothing since declared it lost. *)
Definition sent_not_lost (ops : list rtop) (b : N) : Prop :=
  exists before off len after, ops = before ++ TSent off len :: after /\ covers off len b /\
    forall o, In o after -> match o with TLost off' len' => ~ covers off' len' b | TUnmarkSent => False | _ => True end.

(** What declaring a range lost also forgets: the bytes after it that belong to the same
    uninterrupted run in flight as the byte just before it. *)
Definition loses_too (S : N -> bstate) (off len b : N) : Prop :=
  0 < off /\ off + len <= b /\ forall c, off - 1 <= c <= b -> S c = Some false.

(** [(o, l)] describes the lowest run of offsets that are to be sent: it starts at [o] and has
    length [l], or no end if [l] is [None]. *)
Definition lowest_run (S : N -> bstate) (o : N) (l : option N) : Prop :=
  (forall b, b < o -> S b <> None) /\
  match l with
  | Some n => 0 < n /\ (forall b, o <= b < o + n -> S b = None) /\ S (o + n) <> None
  | None => forall b, o <= b -> S b = None
  end.

(** No range declared lost has in-flight bytes on both sides at that time. *)
Definition losses_at_edges (ops : list rtop) : Prop :=
  forall before off len after, ops = before ++ TLost off len :: after -> 0 < len -> 0 < off ->
    ideal before (off - 1) None = Some false -> ideal before (off + len) None = Some false -> False.
