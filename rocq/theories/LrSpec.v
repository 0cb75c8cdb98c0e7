(** Specification side of the loss recovery properties: what a caller may do, and what the outputs
    of a history say about the packets of one packet number space. *)
From Verif Require Import Base LrModel.

(** ** What the caller does *)

(** Ranges of an ACK frame: each is not empty, and they descend. *)
Fixpoint ranges_ok (prev : option N) (rs : list (N * N)) : Prop :=
  match rs with
  | [] => True
  | (lo, hi) :: rs' => lo <= hi /\ (match prev with Some s => hi < s | None => True end) /\ ranges_ok (Some lo) rs'
  end.
Definition in_ranges (rs : list (N * N)) (pn : N) : bool := existsb (fun r => (fst r <=? pn) && (pn <=? snd r)) rs.

Definition upd (f : space -> option N) (sp : space) (x : option N) (s : space) : option N :=
  if space_eqb s sp then x else f s.
(** The clock does not go back ([T]: the last time seen), packet numbers of a space increase
    ([last]), ACK ranges are as in an ACK frame, Initial and Handshake spaces are discarded at most
    once ([gone]) and the application space never, and packets are larger than 256 bytes. *)
Fixpoint uses (T : N) (last : space -> option N) (gone : spset) (ops : list lop) : Prop :=
  match ops with
  | [] => True
  | LSent _ t pn time _ _ _ _ :: ops' =>
      let sp := space_of t in
      T <= time /\ match last sp with Some x => x < pn | None => True end /\ uses time (upd last sp (Some pn)) gone ops'
  | LAck _ rs _ now _ _ :: ops' => T <= now /\ ranges_ok None rs /\ uses now last gone ops'
  | LTimeout now _ _ _ _ :: ops' => T <= now /\ uses now last gone ops'
  | LDiscard sp _ now :: ops' => T <= now /\ sp <> SpApp /\ sp_in sp gone = false /\ uses now last (sp_add sp gone) ops'
  | LProfile mtu _ _ _ :: ops' => ACK_ONLY_SIZE_LIMIT < mtu /\ uses T last gone ops'
  | (LDrop0 | LRetry | LMigrate) :: ops' => uses T last gone ops'
  end.
Definition allowed (ops : list lop) : Prop := uses 0 (fun _ => None) sp_none ops.

(** ** What the outputs say *)

Definition of_space (sp : space) (p : pkt) : bool := space_eqb (space_of (p_type p)) sp.
(** The numbers of the packets of space [sp] in a list. *)
Definition pns (sp : space) (l : list pkt) : list N := map p_pn (filter (of_space sp) l).
Definition hist := list (lop * lout).
Definition over (f : lout -> list N) (h : hist) : list N := flat_map (fun x => f (snd x)) h.
Definition ev_sent (l : list ccev) : list pkt := flat_map (fun e => match e with CcSent p => [p] | _ => [] end) l.
(** Numbers of the packets that were sent (in a space not yet discarded), acknowledged, declared
    lost, dropped with the state of their space, and forgotten some time after they were lost. *)
Definition sent_of sp := over (fun o => pns sp (ev_sent (o_cc o))).
Definition acked_of sp := over (fun o => pns sp (o_acked o)).
Definition lost_of sp := over (fun o => pns sp (filter is_lost (o_lost o))).
Definition dropped_of sp := over (fun o => pns sp (o_dropped o)).
Definition forgotten_of sp := over (fun o => pns sp (o_gone o)).
(** The packets that are tracked. *)
Definition tracked (sp : space) (r : lr) : list pkt := match get_sp sp r with Some s => l_pkts s | None => [] end.
Definition largest_acked (sp : space) (r : lr) : option N := match get_sp sp r with Some s => l_largest s | None => None end.

(** RFC 9002, 6.1: a packet is lost if a later one was acknowledged and it was sent either three
    packets before that one, or the loss delay ago. *)
Definition lost_by (now ld : N) (largest : option N) (p : pkt) : Prop :=
  match largest with
  | Some la => p_pn p < la /\ (p_pn p + 3 <= la \/ p_time p + ld <= now)
  | None => False
  end.

(** The packets that a PTO may choose from, and a way to say that [t] is a longest initial part of
    them that fits in [room] bytes. *)
Definition probe_candidate (p : pkt) : bool := negb (p_pto p) && negb (is_lost p).
Definition total_len (l : list pkt) : N := fold_right (fun p a => p_len p + a) 0 l.

(** State [r] and outputs [h] after the uses [ops] of a new loss recovery. *)
Definition reached (fast : N) (ops : list lop) (r : lr) (h : hist) : Prop :=
  allowed ops /\ lr_runs (lr_new fast) ops = Some (r, h).
(** The numbers of the packets of a space that an output reports lost, and those it asks to send
    again as probes. *)
Definition lost_in (sp : space) (out : lout) : list N := pns sp (filter is_lost (o_lost out)).
Definition probes_in (sp : space) (out : lout) : list N := pns sp (filter (fun p => negb (is_lost p)) (o_lost out)).
(** What identifies a packet and what was in it. *)
Definition ident (p : pkt) := (p_type p, p_pn p, p_ae p, p_time p, p_tokens p, p_len p, p_probe p).
Definition ev_acked (l : list ccev) : list pkt := flat_map (fun e => match e with CcAcked ps => ps | _ => [] end) l.
Definition ev_lost (l : list ccev) : list pkt := flat_map (fun e => match e with CcLost _ ps => ps | _ => [] end) l.
Definition ev_discarded (l : list ccev) : list pkt := flat_map (fun e => match e with CcDiscard p => [p] | _ => [] end) l.
