(** Specification side of the congestion control properties. *)
From Coq Require Import Sorted.
From Verif Require Import Base FcModel LrModel LrSpec CcModel.

(** ** Bytes in flight *)
(** The bytes that are in flight by the books of loss recovery: of the packets it tracks, those that
    elicit acknowledgement, were sent on the current path and were not declared lost. *)
Definition in_flight (l : list pkt) : N := total_len (filter (fun p => p_ae p && p_primary p && negb (is_lost p)) l).
Definition flight (r : lr) : N := in_flight (tracked SpInitial r) + in_flight (tracked SpHandshake r) + in_flight (tracked SpApp r).

(** The operations on loss recovery that operations on the whole connection amount to. *)
Definition lops (o : sop) : list lop :=
  match o with
  | SSent _ t pn time ae tokens len probe => [LSent true t pn time ae tokens len probe]
  | SAck sp rs delay now ld base _ => [LAck sp rs delay now ld base]
  | STimeout now ld base mtu keys _ => [LTimeout now ld base mtu keys]
  | SDrop0 => [LDrop0] | SRetry => [LRetry]
  | SDiscard sp base now => [LDiscard sp base now]
  | SProfile mtu avail paced rec => [LProfile mtu avail paced rec]
  | SMtu _ _ | SPath _ _ _ _ | SPrimary _ _ => []
  end.
(** SEARCH divides by the length of a bin, a fraction of the RTT: the RTT must not be below 3 ns. *)
Definition env_ok (e : env) : Prop := 0 < e_bfi e /\ 3 <= e_rtt e.
(** A new slow start and a new window adjustment. *)
Definition ss_fresh (s : sstart) : Prop := s = SsClassic \/ (exists a b, s = SsHy (hy_new a b)) \/ s = SsSearch se_new.
Definition wa_fresh (w : wadj) : Prop := w = NewReno \/ w = Cubic false.
(** Paths that are named exist ([n]: how many there are); loss recovery is told when the primary path
    changes; sizes are positive. *)
Fixpoint paths_ok (n : nat) (ops : list sop) : Prop :=
  match ops with
  | [] => True
  | o :: ops' =>
      match o with
      | SSent i _ _ _ _ _ _ _ => (i < n)%nat /\ paths_ok n ops'
      | SAck _ _ _ _ _ _ e | STimeout _ _ _ _ _ e => env_ok e /\ paths_ok n ops'
      | SMtu i m => (i < n)%nat /\ 0 < m /\ paths_ok n ops'
      | SPath ss wa m _ => ss_fresh ss /\ wa_fresh wa /\ 0 < m /\ paths_ok (S n) ops'
      | SPrimary i told => (i < n)%nat /\ told = true /\ paths_ok n ops'
      | _ => paths_ok n ops'
      end
  end.
Definition sys_allowed (ops : list sop) : Prop := allowed (flat_map lops ops) /\ paths_ok 1 ops.

(** ** Reactions to congestion *)
(** A controller reacts when one of its counters of congestion events goes up. *)
Definition reacted (c c' : cc) : Prop := c_nloss c + c_necn c < c_nloss c' + c_necn c'.
Definition sent_pns (ops : list cop) : list N := flat_map (fun o => match o with CSent p => [p_pn p] | _ => [] end) ops.
(** The packet that a report of congestion is about: the newest packet in flight, not an MTU probe, among
    the lost ones; the newest packet acknowledged with a congestion mark. *)
Definition trigger_of (o : cop) : option pkt :=
  match o with
  | CLost _ _ _ ps => match rev (filter (fun p => p_ae p && p_primary p && negb (p_probe p)) ps) with p :: _ => Some p | [] => None end
  | CEcn p => Some p
  | _ => None
  end.
(** The window is in use: there is no room for two more datagrams, or, in slow start, half of it is used. *)
Definition in_use (c : cc) : Prop :=
  cwnd c <= c_bif c + 2 * c_mtu c \/ (s_phase (c_cur c) = PSlow \/ s_phase (c_cur c) = PPersist) /\ cwnd c <= 2 * c_bif c + 1.
Definition acked_bytes (ps : list pkt) : N := total_len (filter cc_outstanding ps).

(** The state before the latest reaction to a loss is taken back. *)
Definition undone (c c' : cc) : Prop := c_spur c = true /\ c_nspur c' <> c_nspur c /\ exists s, c_stored c = Some s /\ cwnd c < s_cwnd s.
(** A lost packet was acknowledged after all, or an acknowledgement came when it was older than two PTO. *)
Definition forgiven (ops : list cop) (p : pkt) : Prop :=
  exists ps now pto rtt bfi, In (CAcked ps now pto rtt bfi) ops /\
    ((exists q, In q ps /\ p_pn q = p_pn p /\ p_type q = p_type p) \/ 2 * pto < now - p_time p).

(** RFC 9002, 7.6: two ack-eliciting packets were lost, and all packets between them, that were sent
    after the first RTT sample and after the largest acknowledged packet, more than the duration apart. *)
Definition persistent_congestion (first prev : option N) (pto : N) (lost : list pkt) : Prop :=
  exists f p q, first = Some f /\ In p lost /\ In q lost /\ cc_in_flight p = true /\ cc_in_flight q = true /\
    f <= p_time p /\ match prev with Some t => t <= p_time p | None => True end /\
    p_pn p <= p_pn q /\ (forall n, p_pn p <= n -> n <= p_pn q -> In n (map p_pn lost)) /\
    3 * pto < p_time q - p_time p.
(** Lost packets are reported in the order they were sent. *)
Definition in_order (ps : list pkt) : Prop := StronglySorted (fun a b => p_pn a < p_pn b /\ p_time a <= p_time b) ps.

(** ** HyStart++ *)
Inductive hop := HSent (pn : N) | HAck (rtt largest cwnd : N) | HReset.
Definition hy_step (h : hystart) (o : hop) : hystart * option N :=
  match o with HSent pn => (hy_sent pn h, None) | HAck rtt largest cwnd => hy_acked rtt largest cwnd h | HReset => (hy_reset h, None) end.
Fixpoint hy_run (h : hystart) (ops : list hop) : hystart := match ops with [] => h | o :: ops' => hy_run (fst (hy_step h o)) ops' end.
(** Rounds, by RFC 9406, 4.2: the RTT samples of the last round and of this one, and the packet whose
    acknowledgement ends it; and the number of rounds that end during some operations. *)
Record rounds := mkR { r_prev : list N; r_now : list N; r_end : option N }.
Definition r_step (r : rounds) (o : hop) : rounds :=
  match o with
  | HSent pn => mkR (r_prev r) (r_now r) (match r_end r with Some e => Some e | None => Some pn end)
  | HAck rtt largest _ =>
      match r_end r with
      | Some e => if e <=? largest then mkR (r_now r ++ [rtt]) [] None else mkR (r_prev r) (r_now r ++ [rtt]) (Some e)
      | None => mkR (r_prev r) (r_now r ++ [rtt]) None
      end
  | HReset => mkR [] [] None
  end.
Fixpoint r_run (r : rounds) (ops : list hop) : rounds := match ops with [] => r | o :: ops' => r_run (r_step r o) ops' end.
Definition r_new : rounds := mkR [] [] None.
Fixpoint round_ends (r : rounds) (ops : list hop) : N :=
  match ops with
  | [] => 0
  | o :: ops' =>
      (match o, r_end r with HAck _ largest _, Some e => if e <=? largest then 1 else 0 | _, _ => 0 end) + round_ends (r_step r o) ops'
  end.
Fixpoint minimum (l : list N) : option N :=
  match l with [] => None | x :: l' => Some (match minimum l' with Some m => N.min x m | None => x end) end.

(** ** SEARCH *)
Inductive xop := XSent (n : N) | XRecord (n : N) | XAck (rtt cwnd now : N) | XReset.
Definition se_step (s : search) (o : xop) : option (search * option N) :=
  match o with
  | XSent n => Some (se_on_sent n s, None)
  | XRecord n => Some (se_record n s, None)
  | XAck rtt cwnd now => se_acked_pkts rtt cwnd now s
  | XReset => Some (se_reset s, None)
  end.
(** The same with complete histories instead of ring buffers: the number of bytes acknowledged and sent
    so far at the end of every bin since the start; bins that were not recorded have no value.  [None]: a bin that
    has no value is read. *)
Record ideal := mkId {
  id_acked_at : N -> option N; id_sent_at : N -> option N; id_idx : option N; id_bin_end : option N;
  id_dur : N; id_acked : N; id_sent : N }.
Definition id_new : ideal := mkId (fun _ => None) (fun _ => None) None None 0 0 0.
Definition note (f : N -> option N) (k v : N) : N -> option N := fun i => if i =? k then Some v else f i.
(** The bins after [i], up to [j], have the value of bin [i]. *)
Definition fill (f : N -> option N) (i j : N) : N -> option N := fun k => if (i <? k) && (k <? j) then f i else f k.
Definition between (f : N -> option N) (a b : N) : option N :=
  match f a, f b with Some x, Some y => Some (y - x) | _, _ => None end.
(** Whether to leave slow start: over a window of ten bins, what was delivered is at least 26% less than what was sent one
    RTT earlier (interpolated between bins).  Too little history, or an RTT of 15 bins or more: no. *)
Definition id_evaluate (rtt cur : N) (s : ideal) : option bool :=
  let back := rtt / id_dur s in
  let fraction := (rtt mod id_dur s) * 100 / id_dur s in
  if cur <=? back + 10 then Some false
  else if 15 <=? back then Some false
  else
    let prev := cur - back in
    match between (id_acked_at s) (cur - 10) cur, between (id_sent_at s) (prev - 11) (prev - 1), between (id_sent_at s) (prev - 10) prev with
    | Some delivered, Some low, Some high =>
        let sent := (low * fraction + high * (100 - fraction)) / 100 in
        Some (if sent =? 0 then false else 26 <=? (sent - delivered) * 100 / sent)
    | _, _, _ => None
    end.
Definition id_start (rtt now : N) (s : ideal) : ideal :=
  let dur := rtt * 350 / 100 / 10 in
  mkId (note (fun _ => None) 0 (id_acked s)) (note (fun _ => None) 0 (id_sent s)) (Some 0) (Some (now + dur)) dur (id_acked s) (id_sent s).
Definition id_ack (rtt cwnd now : N) (s0 : ideal) : option (ideal * option N) :=
  let s := match id_idx s0 with None => id_start rtt now s0 | Some _ => s0 end in
  match id_idx s, id_bin_end s with
  | Some cur, Some e =>
      if now <=? e then Some (s, None)
      else
        let n := (now - e) / id_dur s + 1 in
        if 10 <? n then Some (mkId (id_acked_at s) (id_sent_at s) None (Some e) (id_dur s) 0 0, None)
        else
          let s' := mkId (note (fill (id_acked_at s) cur (cur + n)) (cur + n) (id_acked s)) (note (fill (id_sent_at s) cur (cur + n)) (cur + n) (id_sent s))
                      (Some (cur + n)) (Some (e + id_dur s * n)) (id_dur s) (id_acked s) (id_sent s) in
          match id_evaluate rtt (cur + n) s' with Some b => Some (s', if b then Some cwnd else None) | None => None end
  | _, _ => None
  end.
Definition id_step (s : ideal) (o : xop) : option (ideal * option N) :=
  match o with
  | XSent n => Some (mkId (id_acked_at s) (id_sent_at s) (id_idx s) (id_bin_end s) (id_dur s) (id_acked s) (N.min (2 ^ 64 - 1) (id_sent s + n)), None)
  | XRecord n => Some (mkId (id_acked_at s) (id_sent_at s) (id_idx s) (id_bin_end s) (id_dur s) (N.min (2 ^ 64 - 1) (id_acked s + n)) (id_sent s), None)
  | XAck rtt cwnd now => id_ack rtt cwnd now s
  | XReset => Some (mkId (id_acked_at s) (id_sent_at s) None (id_bin_end s) (id_dur s) 0 0, None)
  end.
(** What the operations return. *)
Fixpoint outs {S O} (step : S -> O -> option (S * option N)) (s : S) (ops : list O) : option (list (option N)) :=
  match ops with
  | [] => Some []
  | o :: ops' => match step s o with
                 | None => None
                 | Some (s', e) => match outs step s' ops' with Some l => Some (e :: l) | None => None end
                 end
  end.
Definition rtts_ok (ops : list xop) : Prop := forall rtt cwnd now, In (XAck rtt cwnd now) ops -> 3 <= rtt.
