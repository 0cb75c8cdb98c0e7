(** Model of the loss recovery: neqo-transport/src/recovery/sent.rs and recovery/mod.rs.

    Times and durations are numbers of nanoseconds.  The RTT estimate is not part of this model
    (see RttModel): what it yields ([loss_delay], [pto]) comes with each operation, so the theorems
    hold whatever it yields.  The calls to the path and its congestion controller are outputs
    ([ccev]); CcModel models their effect.  qlog events are left out. *)
From Verif Require Import Base FcModel.

(** packet/mod.rs: Type (those that are tracked); tracking.rs: PacketNumberSpace. *)
Inductive ptype := TInitial | TZeroRtt | THandshake | TShort.
Inductive space := SpInitial | SpHandshake | SpApp.
(** tracking.rs: From<packet::Type> for PacketNumberSpace. *)
Definition space_of (t : ptype) : space :=
  match t with TInitial => SpInitial | THandshake => SpHandshake | TZeroRtt | TShort => SpApp end.
Definition space_eqb (a b : space) : bool :=
  match a, b with SpInitial, SpInitial | SpHandshake, SpHandshake | SpApp, SpApp => true | _, _ => false end.

(** sent.rs:17-29 [LossTrigger], [LossInfo]. *)
Inductive trigger := TimeThreshold | ReorderingThreshold.
(** sent.rs:31-45 [Packet].  The recovery tokens are an opaque number, except whether there is a
    PmtudProbe among them. *)
Record pkt := mkPkt {
  p_type : ptype; p_pn : N; p_ae : bool; p_time : N; p_primary : bool; p_tokens : N;
  p_lost : option (N * trigger); p_pto : bool; p_len : N; p_probe : bool }.
(** sent.rs:48-69 [new]. *)
Definition pkt_new (t : ptype) (pn time : N) (ae : bool) (tokens len : N) (probe : bool) : pkt :=
  mkPkt t pn ae time true tokens None false len probe.
(** sent.rs:133-137 [clear_primary_path]. *)
Definition clear_primary (p : pkt) : pkt :=
  mkPkt (p_type p) (p_pn p) (p_ae p) (p_time p) false (p_tokens p) (p_lost p) (p_pto p) (p_len p) (p_probe p).
(** sent.rs:145-149 [lost], 151-166 [cc_outstanding], [cc_in_flight]. *)
Definition is_lost (p : pkt) : bool := match p_lost p with Some _ => true | None => false end.
Definition cc_in_flight (p : pkt) : bool := p_ae p && p_primary p.
Definition cc_outstanding (p : pkt) : bool := p_ae p && p_primary p && negb (is_lost p).
(** sent.rs:168-177 [declare_lost]: the packet and whether this is the first time. *)
Definition declare_lost (now : N) (t : trigger) (p : pkt) : pkt * bool :=
  if is_lost p then (p, false)
  else (mkPkt (p_type p) (p_pn p) (p_ae p) (p_time p) (p_primary p) (p_tokens p) (Some (now, t)) (p_pto p) (p_len p) (p_probe p), true).
(** sent.rs:179-185 [expired]. *)
Definition expired (now cd : N) (p : pkt) : bool :=
  match p_lost p with Some (t, _) => t + cd <=? now | None => false end.
(** sent.rs:199-209 [pto]. *)
Definition take_pto (p : pkt) : pkt * bool :=
  if p_pto p || is_lost p then (p, false)
  else (mkPkt (p_type p) (p_pn p) (p_ae p) (p_time p) (p_primary p) (p_tokens p) (p_lost p) true (p_len p) (p_probe p), true).

(** * Packets *)

(** [VecDeque::partition_point]: on a list in which all elements that satisfy [f] come first (the
    lists here are sorted by packet number), the number of these. *)
Fixpoint part_point (f : pkt -> bool) (l : list pkt) : nat :=
  match l with
  | [] => O
  | p :: l' => if f p then S (part_point f l') else O
  end.
(** sent.rs:230-236 [track]; [None]: the [debug_assert!]. *)
Definition track (p : pkt) (l : list pkt) : option (list pkt) :=
  match last (map (fun x => Some (p_pn x)) l) None with
  | Some pn => if pn <? p_pn p then Some (l ++ [p]) else None
  | None => Some (l ++ [p])
  end.
(** sent.rs:242-275 [take_ranges]: what is left and the packets taken, newest first; [None]: the
    [debug_assert!] that the ranges descend, or [drain] of a range that ends before it starts. *)
Fixpoint take_ranges_from (prev : option N) (rs : list (N * N)) (l : list pkt) : option (list pkt * list pkt) :=
  match rs with
  | [] => Some (l, [])
  | (lo, hi) :: rs' =>
      if match prev with Some s => hi <? s | None => true end then
        let i := part_point (fun p => p_pn p <? lo) l in
        let j := part_point (fun p => p_pn p <=? hi) l in
        if Nat.ltb j i then None
        else if Nat.eqb i j then take_ranges_from (Some lo) rs' l
        else
          let taken := rev (skipn i (firstn j l)) in
          match take_ranges_from (Some lo) rs' (firstn i l ++ skipn j l) with
          | Some (l', more) => Some (l', taken ++ more)
          | None => None
          end
      else None
  end.
Definition take_ranges (rs : list (N * N)) (l : list pkt) : option (list pkt * list pkt) := take_ranges_from None rs l.
(** sent.rs:282-297 [remove_expired]: what is left and what was removed; [None]: the
    [debug_assert!]. *)
Definition remove_expired (now cd : N) (l : list pkt) : option (list pkt * list pkt) :=
  match l with
  | [] => Some (l, [])
  | p :: _ =>
      if expired now cd p then
        let k := part_point (expired now cd) l in
        if forallb (fun p => negb (expired now cd p)) (skipn k l) then Some (skipn k l, firstn k l) else None
      else Some (l, [])
  end.

(** * LossRecoverySpace *)

(** recovery/mod.rs:33-47. *)
Definition PACKET_THRESHOLD : N := 3.
Definition ACK_ONLY_SIZE_LIMIT : N := 256.
Definition MAX_PTO_PACKET_COUNT : N := 2.
Definition MAX_OUTSTANDING_UNACK : N := 200.
Definition MIN_OUTSTANDING_UNACK : N := 16.
Definition FAST_PTO_SCALE : N := 100.

(** recovery/mod.rs:119-156 [LossRecoverySpace], [new]. *)
Record lsp := mkLsp {
  l_space : space; l_largest : option N; l_largest_time : option N; l_last_ae : option N;
  l_out : N; l_pkts : list pkt; l_ooo : option N }.
Definition lsp_new (sp : space) : lsp := mkLsp sp None None None 0 [] None.

(** recovery/mod.rs:179-208 [pto_base_time]; [None]: the [debug_assert!]. *)
Definition pto_base_time (s : lsp) : option (option N) :=
  if 0 <? l_out s then match l_last_ae s with Some t => Some (Some t) | None => None end
  else match l_space s with SpApp => Some None | _ => Some (l_last_ae s) end.
(** recovery/mod.rs:210-222 [on_packet_sent]. *)
Definition lsp_sent (p : pkt) (s : lsp) : option lsp :=
  match track p (l_pkts s) with
  | None => None
  | Some l =>
      Some (mkLsp (l_space s) (l_largest s) (l_largest_time s)
        (if p_ae p then Some (p_time p)
         else if negb (space_eqb (l_space s) SpApp) && match l_last_ae s with None => true | _ => false end then Some (p_time p)
         else l_last_ae s)
        (if p_ae p then l_out s + 1 else l_out s) l (l_ooo s))
  end.
(** recovery/mod.rs:224-240 [should_probe]. *)
Definition lsp_should_probe (pto now : N) (s : lsp) : bool :=
  let n := lenN (l_pkts s) in
  if MAX_OUTSTANDING_UNACK <=? n then match l_last_ae s with Some t => t + pto * 1 <? now | None => false end
  else if MIN_OUTSTANDING_UNACK <=? n then match l_last_ae s with Some t => t + pto * 2 <? now | None => false end
  else false.

Definition count_ae (l : list pkt) : N := lenN (filter p_ae l).
(** stats.rs: the counters that loss recovery uses. *)
Record lstats := mkLst { st_lost : N; st_bytes_lost : N; st_late : N; st_pto_ack : N }.
(** recovery/mod.rs:242-254 [remove_outstanding], [remove_packet], 256-283 [remove_acked]: the
    loop over the acknowledged packets; [None]: an underflow. *)
Fixpoint count_acked (l : list pkt) (out : N) (st : lstats) : option (N * lstats * bool) :=
  match l with
  | [] => Some (out, st, false)
  | p :: l' =>
      match (if p_ae p then csub out 1 else Some out) with
      | None => None
      | Some out' =>
          match (if is_lost p then match csub (st_lost st) 1, csub (st_bytes_lost st) (p_len p) with
                                   | Some a, Some b => Some (mkLst a b (st_late st + 1) (st_pto_ack st))
                                   | _, _ => None
                                   end
                 else Some st) with
          | None => None
          | Some st1 =>
              let st2 := if p_pto p then mkLst (st_lost st1) (st_bytes_lost st1) (st_late st1) (st_pto_ack st1 + 1) else st1 in
              match count_acked l' out' st2 with
              | None => None
              | Some (o, s, e) => Some (o, s, p_ae p || e)
              end
          end
      end
  end.
Definition with_pkts (l : list pkt) (out : N) (s : lsp) : lsp :=
  mkLsp (l_space s) (l_largest s) (l_largest_time s) (l_last_ae s) out l (l_ooo s).
Definition remove_acked (rs : list (N * N)) (s : lsp) (st : lstats) : option (lsp * list pkt * bool * lstats) :=
  match take_ranges rs (l_pkts s) with
  | None => None
  | Some (l, acked) =>
      match count_acked acked (l_out s) st with
      | None => None
      | Some (out, st', e) => Some (with_pkts l out s, acked, e, st')
      end
  end.
(** recovery/mod.rs:285-291 [remove_ignored]. *)
Definition remove_ignored (s : lsp) : lsp * list pkt := (with_pkts [] 0 s, l_pkts s).
(** recovery/mod.rs:293-298 [migrate]. *)
Definition lsp_migrate (s : lsp) : lsp := with_pkts (map clear_primary (l_pkts s)) (l_out s) s.
(** recovery/mod.rs:300-307 [remove_old_lost]; also what was removed. *)
Definition remove_old_lost (now cd : N) (s : lsp) : option (lsp * list pkt) :=
  match remove_expired now cd (l_pkts s) with
  | None => None
  | Some (l, gone) => match csub (l_out s) (count_ae gone) with Some out => Some (with_pkts l out s, gone) | None => None end
  end.
(** recovery/mod.rs:309-361 [detect_lost_packets], the loop: the packets, the newly lost ones and
    the time for the loss timer. *)
Fixpoint detect_loop (now ld la : N) (l : list pkt) : list pkt * list pkt * option N :=
  match l with
  | [] => ([], [], None)
  | p :: l' =>
      if p_pn p <? la then
        let trig := if p_time p + ld <=? now then Some TimeThreshold
                    else if p_pn p + PACKET_THRESHOLD <=? la then Some ReorderingThreshold else None in
        match trig with
        | None => (l, [], Some (p_time p))
        | Some t =>
            let '(p', first) := declare_lost now t p in
            let '(r, lost, ooo) := detect_loop now ld la l' in
            (p' :: r, (if first then p' :: lost else lost), ooo)
        end
      else (l, [], None)
  end.
Definition detect_lost (now ld cd : N) (s : lsp) : option (lsp * list pkt * list pkt) :=
  match remove_old_lost now cd s with
  | None => None
  | Some (s1, gone) =>
      match l_largest s1 with
      | None => Some (mkLsp (l_space s1) (l_largest s1) (l_largest_time s1) (l_last_ae s1) (l_out s1) (l_pkts s1) None, [], gone)
      | Some la =>
          let '(l, lost, ooo) := detect_loop now ld la (l_pkts s1) in
          Some (mkLsp (l_space s1) (l_largest s1) (l_largest_time s1) (l_last_ae s1) (l_out s1) l ooo, lost, gone)
      end
  end.

(** * Loss *)

(** Sets of packet number spaces. *)
Record spset := mkSet { in_i : bool; in_h : bool; in_a : bool }.
Definition sp_in (sp : space) (s : spset) : bool := match sp with SpInitial => in_i s | SpHandshake => in_h s | SpApp => in_a s end.
Definition sp_add (sp : space) (s : spset) : spset :=
  match sp with SpInitial => mkSet true (in_h s) (in_a s) | SpHandshake => mkSet (in_i s) true (in_a s) | SpApp => mkSet (in_i s) (in_h s) true end.
Definition sp_del (sp : space) (s : spset) : spset :=
  match sp with SpInitial => mkSet false (in_h s) (in_a s) | SpHandshake => mkSet (in_i s) false (in_a s) | SpApp => mkSet (in_i s) (in_h s) false end.
Definition sp_or (a b : spset) : spset := mkSet (in_i a || in_i b) (in_h a || in_h b) (in_a a || in_a b).
Definition sp_none : spset := mkSet false false false.
Definition sp_min (a b : space) : space :=
  match a, b with SpInitial, _ | _, SpInitial => SpInitial | SpHandshake, _ | _, SpHandshake => SpHandshake | _, _ => SpApp end.

(** recovery/mod.rs:421-477 [PtoState]. *)
Record ptost := mkPto { pt_space : space; pt_count : N; pt_packets : N; pt_probe : spset }.
Definition pto_new (sp : space) (probe : spset) : ptost := mkPto sp 1 MAX_PTO_PACKET_COUNT probe.
Definition pto_again (sp : space) (probe : spset) (s : ptost) : ptost :=
  mkPto (sp_min sp (pt_space s)) (pt_count s + 1) MAX_PTO_PACKET_COUNT (sp_or (pt_probe s) probe).
Definition pto_sent (sp : space) (s : ptost) : ptost :=
  if (pt_packets s <? MAX_PTO_PACKET_COUNT) && negb (space_eqb sp SpApp)
  then mkPto (pt_space s) (pt_count s) (pt_packets s) (sp_del sp (pt_probe s)) else s.

(** recovery/mod.rs:480-507 [Loss]. *)
Record lr := mkLr {
  r_confirmed : option N; r_pto : option ptost;
  r_i : option lsp; r_h : option lsp; r_a : option lsp;
  r_stats : lstats; r_fast : N }.
Definition lr_new (fast : N) : lr :=
  mkLr None None (Some (lsp_new SpInitial)) (Some (lsp_new SpHandshake)) (Some (lsp_new SpApp)) (mkLst 0 0 0 0) fast.
Definition get_sp (sp : space) (r : lr) : option lsp := match sp with SpInitial => r_i r | SpHandshake => r_h r | SpApp => r_a r end.
Definition set_sp (sp : space) (s : option lsp) (r : lr) : lr :=
  match sp with
  | SpInitial => mkLr (r_confirmed r) (r_pto r) s (r_h r) (r_a r) (r_stats r) (r_fast r)
  | SpHandshake => mkLr (r_confirmed r) (r_pto r) (r_i r) s (r_a r) (r_stats r) (r_fast r)
  | SpApp => mkLr (r_confirmed r) (r_pto r) (r_i r) (r_h r) s (r_stats r) (r_fast r)
  end.
Definition set_pto (p : option ptost) (r : lr) : lr := mkLr (r_confirmed r) p (r_i r) (r_h r) (r_a r) (r_stats r) (r_fast r).
Definition set_stats (st : lstats) (r : lr) : lr := mkLr (r_confirmed r) (r_pto r) (r_i r) (r_h r) (r_a r) st (r_fast r).
Definition all_spaces : list space := [SpInitial; SpHandshake; SpApp].

(** What the path is told: path.rs:955-1045 [packet_sent], [on_packets_lost], [on_packets_acked],
    [discard_packet]; and the RTT sample (sample, ack delay, confirmed). *)
Inductive ccev :=
| CcSent (p : pkt) | CcLost (prev : option N) (ps : list pkt) | CcAcked (ps : list pkt) | CcDiscard (p : pkt)
| CcRtt (sample delay : N) (confirmed : bool).

Definition sum_len (l : list pkt) : N := fold_right (fun p a => p_len p + a) 0 l.
(** recovery/mod.rs:518-522 [count_lost]. *)
Definition count_lost (l : list pkt) (st : lstats) : lstats :=
  mkLst (st_lost st + lenN l) (st_bytes_lost st + sum_len l) (st_late st) (st_pto_ack st).

(** recovery/mod.rs:829-854 [pto_period]; [base] is [rtt.pto(confirmed)].  [Duration::checked_mul]
    fails if the seconds do not fit in 64 bits. *)
Definition NANOS : N := 1000000000.
Definition pto_period (base : N) (r : lr) : N :=
  let cnt := match r_pto r with Some p => if pt_count p <? 2 ^ 32 then pt_count p else 0 | None => 0 end in
  let x := base * (r_fast r * 2 ^ N.min cnt 24) in
  if x <? 2 ^ 64 * NANOS then x / FAST_PTO_SCALE else 3600 * NANOS.

(** What an operation yields: packets acknowledged, lost and dropped, calls to the path, and (not
    visible in the code) the packets no longer tracked because they were declared lost long ago. *)
Record lout := mkOut { o_acked : list pkt; o_lost : list pkt; o_dropped : list pkt; o_gone : list pkt; o_cc : list ccev }.
Definition no_out : lout := mkOut [] [] [] [] [].

(** recovery/mod.rs:541-556 [on_packet_sent]; [prim]: whether the path is the primary path
    (path.rs:955-960). *)
Definition lr_sent (prim : bool) (p0 : pkt) (r : lr) : option (lr * lout) :=
  let sp := space_of (p_type p0) in
  let r1 := match r_pto r with Some s => set_pto (Some (pto_sent sp s)) r | None => r end in
  match get_sp sp r1 with
  | None => Some (r1, no_out)
  | Some s =>
      let p := if prim then p0 else clear_primary p0 in
      match lsp_sent p s with
      | None => None
      | Some s' => Some (set_sp sp (Some s') r1, mkOut [] [] [] [] [CcSent p])
      end
  end.

(** recovery/mod.rs:627-716 [on_ack_received], with 566-582 [rtt_sample].  [ld], [base] are
    [rtt.loss_delay()] and [rtt.pto(confirmed)] after the sample was taken. *)
Definition opt_lt (a : N) (b : option N) : bool := match b with Some x => x <? a | None => true end.
Definition lr_ack (sp : space) (rs : list (N * N)) (delay now ld base : N) (r : lr) : option (lr * lout) :=
  match get_sp sp r with
  | None => Some (r, no_out)
  | Some s =>
      match remove_acked rs s (r_stats r) with
      | None => None
      | Some (s1, acked, any, st) =>
          let r1 := set_stats st (set_sp sp (Some s1) r) in
          match acked with
          | [] => Some (r1, no_out)
          | big :: _ =>
              let prev := l_largest_time s1 in
              let newl := opt_lt (p_pn big) (l_largest s1) in
              let s2 := if newl then mkLsp (l_space s1) (Some (p_pn big)) (Some (p_time big)) (l_last_ae s1) (l_out s1) (l_pkts s1) (l_ooo s1) else s1 in
              let sample :=
                if newl && any && p_primary big && (p_time big <=? now)
                then [CcRtt (now - p_time big) delay (match r_confirmed r with Some t => t <? p_time big | None => false end)] else [] in
              match detect_lost now ld (pto_period base r1) s2 with
              | None => None
              | Some (s3, lost, gone) =>
                  let r2 := set_pto None (set_stats (count_lost lost st) (set_sp sp (Some s3) r1)) in
                  Some (r2, mkOut acked lost [] gone (sample ++ [CcLost prev lost; CcAcked acked]))
              end
          end
      end
  end.

(** recovery/mod.rs:524-539 [drop_0rtt]. *)
Definition lr_drop_0rtt (r : lr) : lr * lout :=
  match r_a r with
  | None => (r, no_out)
  | Some s =>
      match l_largest s with
      | Some _ => (r, no_out)
      | None => let '(s', d) := remove_ignored s in (set_sp SpApp (Some s') r, mkOut [] [] d [] (map CcDiscard d))
      end
  end.
(** recovery/mod.rs:718-735 [retry]. *)
Definition ignore_sp (o : option lsp) : option lsp * list pkt :=
  match o with Some s => let '(s', d) := remove_ignored s in (Some s', d) | None => (None, []) end.
Definition lr_retry (r : lr) : lr * lout :=
  let '(i, di) := ignore_sp (r_i r) in let '(h, dh) := ignore_sp (r_h r) in let '(a, da) := ignore_sp (r_a r) in
  let d := di ++ dh ++ da in
  (mkLr (r_confirmed r) None i h a (r_stats r) (r_fast r), mkOut [] [] d [] (map CcDiscard d)).

(** recovery/mod.rs:862-868 [pto_time]; the outer [None] is a failed [debug_assert!]. *)
Definition pto_time (base : N) (sp : space) (r : lr) : option (option N) :=
  match get_sp sp r with
  | None => Some None
  | Some s => match pto_base_time s with
              | None => None
              | Some None => Some None
              | Some (Some t) => Some (Some (t + pto_period base r))
              end
  end.
(** recovery/mod.rs:884-901 [fire_pto]; [None]: the [debug_assert!]s in [PtoState]. *)
Definition fire_pto (sp : space) (probes : spset) (r : lr) : option lr :=
  if sp_in sp probes then
    Some (set_pto (Some (match r_pto r with Some s => pto_again sp probes s | None => pto_new sp probes end)) r)
  else None.
(** recovery/mod.rs:737-748 [confirm]. *)
Definition lr_confirm (base now : N) (r : lr) : option lr :=
  match r_confirmed r with
  | Some _ => None
  | None =>
      let r1 := mkLr (Some now) (r_pto r) (r_i r) (r_h r) (r_a r) (r_stats r) (r_fast r) in
      match pto_time base SpApp r1 with
      | None => None
      | Some (Some t) => if t <? now then fire_pto SpApp (sp_add SpApp sp_none) r1 else Some r1
      | Some None => Some r1
      end
  end.
(** recovery/mod.rs:750-758 [migrate]. *)
Definition lr_migrate (r : lr) : lr :=
  mkLr (r_confirmed r) (r_pto r) (option_map lsp_migrate (r_i r)) (option_map lsp_migrate (r_h r)) (option_map lsp_migrate (r_a r)) (r_stats r) (r_fast r).
(** recovery/mod.rs:760-779 [discard] and 370-387 [drop_space]; [None]: the assertions that the
    space is there and is not the application space.  [base]: [rtt.pto(true)]. *)
Definition lr_discard (sp : space) (base now : N) (r : lr) : option (lr * lout) :=
  match sp, get_sp sp r with
  | SpApp, _ | _, None => None
  | _, Some s =>
      let d := l_pkts s in
      let r1 := set_pto None (set_sp sp None r) in
      let out := mkOut [] [] d [] (map CcDiscard d) in
      match sp with
      | SpHandshake => match lr_confirm base now r1 with Some r2 => Some (r2, out) | None => None end
      | _ => Some (r1, out)
      end
  end.

(** recovery/mod.rs:820-827 [earliest_loss_time], 870-882 [earliest_pto], 781-799 [next_timeout].
    [possible]: [path.pto_possible()]. *)
Definition omin (a b : option N) : option N :=
  match a, b with Some x, Some y => Some (N.min x y) | Some x, None => Some x | None, y => y end.
Definition loss_start (o : option lsp) : option N := match o with Some s => l_ooo s | None => None end.
Definition earliest_loss (ld : N) (r : lr) : option N :=
  option_map (fun t => t + ld) (omin (loss_start (r_i r)) (omin (loss_start (r_h r)) (loss_start (r_a r)))).
Definition earliest_pto (base : N) (r : lr) : option (option N) :=
  match r_confirmed r with
  | Some _ => pto_time base SpApp r
  | None => match pto_time base SpInitial r, pto_time base SpHandshake r with
            | Some a, Some b => Some (omin a b)
            | _, _ => None
            end
  end.
Definition next_timeout (possible : bool) (ld base : N) (r : lr) : option (option N) :=
  if possible then match earliest_pto base r with Some p => Some (omin (earliest_loss ld r) p) | None => None end
  else Some (earliest_loss ld r).

(** recovery/mod.rs:170-177 [pto_packets] with [take_while] (recovery/mod.rs:945-958): [filter_map]
    marks a packet before [take_while] looks at it.  The packets, those returned, the size so far. *)
Fixpoint pto_loop (limit size : N) (l : list pkt) : list pkt * list pkt * N :=
  match l with
  | [] => ([], [], size)
  | p :: l' =>
      let '(p', b) := take_pto p in
      if b then
        if size + p_len p <=? limit then
          let '(r, t, n) := pto_loop limit (size + p_len p) l' in (p' :: r, p' :: t, n)
        else (p' :: l', [], size + p_len p)
      else let '(r, t, n) := pto_loop limit size l' in (p :: r, t, n)
  end.
Definition pto_space_packets (limit size : N) (sp : space) (r : lr) : lr * list pkt * N :=
  match get_sp sp r with
  | None => (r, [], size)
  | Some s => let '(l, t, n) := pto_loop limit size (l_pkts s) in (set_sp sp (Some (with_pkts l (l_out s) s)) r, t, n)
  end.
(** recovery/mod.rs:588-625 [maybe_prime_handshake_pto]. *)
Definition maybe_prime (now : N) (keys : bool) (r : lr) : lr :=
  if keys then
    match r_pto r with
    | Some p =>
        if space_eqb (pt_space p) SpInitial then
          match r_i r with
          | Some i =>
              match l_largest i, r_h r with
              | Some _, Some h =>
                  match l_last_ae h, l_largest h with
                  | None, None => set_sp SpHandshake (Some (mkLsp (l_space h) None (l_largest_time h) (Some now) (l_out h) (l_pkts h) (l_ooo h))) r
                  | _, _ => r
                  end
              | _, _ => r
              end
          | None => r
          end
        else r
    | None => r
    end
  else r.
(** recovery/mod.rs:903-969 [maybe_fire_pto]. *)
Definition fire_set (base now : N) (r : lr) : option (option space * spset * spset) :=
  fold_left (fun acc sp =>
    match acc with
    | None => None
    | Some (ps, allow, retr) =>
        match pto_time base sp r with
        | None => None
        | Some None => Some (ps, allow, retr)
        | Some (Some t) =>
            let allow := sp_add sp allow in
            if now <? t then Some (ps, allow, retr)
            else
              let retr := sp_add sp retr in
              let retr := match sp with SpHandshake => sp_add SpInitial retr | _ => retr end in
              Some (match ps with Some x => Some x | None => Some sp end, allow, retr)
        end
    end) all_spaces (Some (None, sp_none, sp_none)).
Definition pto_collect (limit : N) (retr : spset) (r : lr) : lr * list pkt :=
  let go sp (x : lr * list pkt * N) :=
    let '(r, l, n) := x in
    if sp_in sp retr then let '(r', t, n') := pto_space_packets limit n sp r in (r', l ++ t, n') else x in
  fst (go SpApp (go SpHandshake (go SpInitial (r, [], 0)))).
Definition maybe_fire_pto (base now mtu : N) (keys : bool) (r : lr) : option (lr * list pkt) :=
  match fire_set base now r with
  | None => None
  | Some (None, _, _) => Some (r, [])
  | Some (Some sp, allow, retr) =>
      let '(r1, l) := pto_collect (MAX_PTO_PACKET_COUNT * mtu) retr r in
      match fire_pto sp allow r1 with
      | None => None
      | Some r2 => Some (match sp with SpInitial => maybe_prime now keys r2 | _ => r2 end, l)
      end
  end.
(** recovery/mod.rs:971-1012 [timeout]. *)
Definition timeout_space (now ld cd : N) (sp : space) (x : lr * lout) : option (lr * lout) :=
  let '(r, o) := x in
  match get_sp sp r with
  | None => Some x
  | Some s =>
      match detect_lost now ld cd s with
      | None => None
      | Some (s', lost, gone) =>
          Some (set_sp sp (Some s') r,
                mkOut [] (o_lost o ++ lost) [] (o_gone o ++ gone) (o_cc o ++ [CcLost (l_largest_time s') lost]))
      end
  end.
Definition obind {A B} (x : option A) (f : A -> option B) : option B := match x with Some a => f a | None => None end.
Definition lr_timeout (now ld base mtu : N) (keys : bool) (r : lr) : option (lr * lout) :=
  let cd := pto_period base r in
  obind (timeout_space now ld cd SpInitial (r, no_out)) (fun x =>
  obind (timeout_space now ld cd SpHandshake x) (fun x =>
  obind (timeout_space now ld cd SpApp x) (fun '(r1, o) =>
  let r2 := set_stats (count_lost (o_lost o) (r_stats r1)) r1 in
  obind (maybe_fire_pto base now mtu keys r2) (fun '(r3, l) =>
  Some (r3, mkOut [] (o_lost o ++ l) [] (o_gone o) (o_cc o)))))).

(** recovery/mod.rs:50-117 [SendProfile], 1014-1047 [send_profile] and 459-467.  [avail]:
    [min(cwnd_avail, amplification_limit)]; [paced]: whether the pacer asks to wait; [rec]:
    [recovery_packet].  [None]: the [debug_assert!] on the MTU. *)
Record profile := mkProf { pf_limit : N; pf_probe : spset; pf_paced : bool }.
Definition prof_limited (limit : N) : profile := mkProf (N.max (ACK_ONLY_SIZE_LIMIT - 1) limit) sp_none false.
Definition prof_paced : profile := mkProf (ACK_ONLY_SIZE_LIMIT - 1) sp_none true.
Definition prof_pto (mtu : N) (probe : spset) : option profile :=
  if ACK_ONLY_SIZE_LIMIT <? mtu then Some (mkProf mtu probe false) else None.
Definition ack_only (p : profile) : bool := pf_limit p <? ACK_ONLY_SIZE_LIMIT.
Definition send_profile (mtu avail : N) (paced rec : bool) (r : lr) : option (lr * profile) :=
  let rest := if mtu <? avail then Some (r, if paced then prof_paced else prof_limited mtu)
              else if rec then option_map (pair r) (prof_pto mtu (mkSet true true true))
              else Some (r, prof_limited avail) in
  match r_pto r with
  | Some p =>
      if 0 <? pt_packets p
      then option_map (pair (set_pto (Some (mkPto (pt_space p) (pt_count p) (pt_packets p - 1) (pt_probe p))) r)) (prof_pto mtu (pt_probe p))
      else rest
  | None => rest
  end.

(** ** Uses *)
Inductive lop :=
| LSent (prim : bool) (t : ptype) (pn time : N) (ae : bool) (tokens len : N) (probe : bool)
| LAck (sp : space) (rs : list (N * N)) (delay now ld base : N)
| LTimeout (now ld base mtu : N) (keys : bool)
| LDrop0 | LRetry | LMigrate
| LDiscard (sp : space) (base now : N)
| LProfile (mtu avail : N) (paced rec : bool).
Definition lr_step (r : lr) (o : lop) : option (lr * lout) :=
  match o with
  | LSent prim t pn time ae tokens len probe => lr_sent prim (pkt_new t pn time ae tokens len probe) r
  | LAck sp rs delay now ld base => lr_ack sp rs delay now ld base r
  | LTimeout now ld base mtu keys => lr_timeout now ld base mtu keys r
  | LDrop0 => Some (lr_drop_0rtt r)
  | LRetry => Some (lr_retry r)
  | LMigrate => Some (lr_migrate r, no_out)
  | LDiscard sp base now => lr_discard sp base now r
  | LProfile mtu avail paced rec => match send_profile mtu avail paced rec r with Some (r', _) => Some (r', no_out) | None => None end
  end.
Fixpoint lr_runs (r : lr) (ops : list lop) : option (lr * list (lop * lout)) :=
  match ops with
  | [] => Some (r, [])
  | o :: ops' =>
      match lr_step r o with
      | None => None
      | Some (r1, out) => match lr_runs r1 ops' with Some (r2, h) => Some (r2, (o, out) :: h) | None => None end
      end
  end.
