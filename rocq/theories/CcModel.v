(** Model of the congestion controller: neqo-transport/src/cc/{classic_cc,new_reno,cubic,
    classic_slow_start,hystart,search}.rs, and its use by loss recovery and the paths
    (path.rs, recovery/mod.rs).

    Times and durations are numbers of nanoseconds; sizes are unbounded numbers (overflow of [usize]
    is not modelled).  Cubic computes in floating point how many bytes must be acknowledged for the
    next increase; that number comes with the operation here ([bfi]), so the theorems hold for
    whatever Cubic computes as long as it is positive.  Logging, qlog and the statistics other than
    the counters of congestion events are left out. *)
From Verif Require Import Base FcModel LrModel.

(** * HyStart++ *)
(** hystart.rs:64-77 constants. *)
Definition MIN_RTT_THRESH : N := 4000000.
Definition MAX_RTT_THRESH : N := 16000000.
Definition MIN_RTT_DIVISOR : N := 8.
Definition N_RTT_SAMPLE : N := 8.
Definition CSS_GROWTH_DIVISOR : N := 4.
Definition CSS_ROUNDS : N := 5.
Definition NON_PACED_L : N := 8.
(** hystart.rs:40-58 [HyStart]; [hy_paced]: the limit is [usize::MAX]; [hy_entry]: the baseline mode is
    [EntryThreshold]. *)
Record hystart := mkHy {
  hy_paced : bool; hy_entry : bool; hy_last : option N; hy_cur : option N; hy_count : N;
  hy_end : option N; hy_base : option N; hy_rounds : N }.
(** hystart.rs:79-101 [new]. *)
Definition hy_new (paced entry : bool) : hystart := mkHy paced entry None None 0 None None 0.
(** hystart.rs:193-204 [on_packet_sent], [reset]; 146-155 [maybe_set_window_end]. *)
Definition hy_sent (pn : N) (h : hystart) : hystart :=
  match hy_end h with
  | Some _ => h
  | None => mkHy (hy_paced h) (hy_entry h) (hy_last h) (hy_cur h) (hy_count h) (Some pn) (hy_base h) (hy_rounds h)
  end.
Definition hy_reset (h : hystart) : hystart := hy_new (hy_paced h) (hy_entry h).
(** hystart.rs:105-111 [collect_rtt_sample], 131-140 [start_next_round]. *)
Definition hy_collect (rtt : N) (h : hystart) : hystart :=
  mkHy (hy_paced h) (hy_entry h) (hy_last h) (Some (match hy_cur h with Some c => N.min c rtt | None => rtt end))
    (hy_count h + 1) (hy_end h) (hy_base h) (hy_rounds h).
Definition hy_next (h : hystart) : hystart :=
  mkHy (hy_paced h) (hy_entry h) (hy_cur h) None 0 None (hy_base h) (hy_rounds h).
(** hystart.rs:228-340 [on_packets_acked]: entering and leaving CSS. *)
Definition hy_thresh (last : N) : N := N.max MIN_RTT_THRESH (N.min (last / MIN_RTT_DIVISOR) MAX_RTT_THRESH).
Definition hy_css (h : hystart) : hystart :=
  let enough := N_RTT_SAMPLE <=? hy_count h in
  match hy_base h, hy_cur h, hy_last h with
  | None, Some cur, Some last =>
      if enough && (last + hy_thresh last <=? cur)
      then mkHy (hy_paced h) (hy_entry h) (hy_last h) (hy_cur h) 0 (hy_end h)
             (Some (if hy_entry h then last + hy_thresh last else cur)) (hy_rounds h)
      else h
  | Some base, Some cur, _ =>
      if enough && (cur <? base)
      then mkHy (hy_paced h) (hy_entry h) (hy_last h) (hy_cur h) (hy_count h) (hy_end h) None 0
      else h
  | _, _, _ => h
  end.
Definition hy_acked (rtt largest cwnd : N) (h : hystart) : hystart * option N :=
  let h1 := hy_css (hy_collect rtt h) in
  match hy_end h1 with
  | None => (h1, None)
  | Some e =>
      if largest <? e then (h1, None)
      else
        let h2 := hy_next h1 in
        match hy_base h2 with
        | None => (h2, None)
        | Some _ =>
            let h3 := mkHy (hy_paced h2) (hy_entry h2) (hy_last h2) (hy_cur h2) (hy_count h2) (hy_end h2) (hy_base h2) (hy_rounds h2 + 1) in
            (h3, if CSS_ROUNDS <=? hy_rounds h3 then Some cwnd else None)
        end
  end.
(** hystart.rs:342-371 [calc_cwnd_increase]. *)
Definition hy_increase (new_acked mtu : N) (h : hystart) : N :=
  let i := if hy_paced h then new_acked else N.min (NON_PACED_L * mtu) new_acked in
  match hy_base h with Some _ => i / CSS_GROWTH_DIVISOR | None => i end.

(** * SEARCH *)
(** search.rs:68-89 constants. *)
Definition WINDOW_SIZE_FACTOR : N := 350.
Definition W : N := 10.
Definition EXTRA_BINS : N := 15.
Definition NUM_ACKED_BINS : N := W + 1.
Definition NUM_SENT_BINS : N := NUM_ACKED_BINS + EXTRA_BINS.
Definition THRESH : N := 26.
Definition SCALE : N := 100.
(** search.rs:42-60 [Search]; the arrays of bins are functions from slot to value. *)
Record search := mkSe {
  se_acked_bins : N -> N; se_sent_bins : N -> N; se_idx : option N; se_bin_end : option N;
  se_dur : N; se_acked : N; se_sent : N; se_init : option N }.
(** search.rs:92-103 [new]. *)
Definition se_new : search := mkSe (fun _ => 0) (fun _ => 0) None None 0 0 0 None.
Definition put (f : N -> N) (k v : N) : N -> N := fun i => if i =? k then v else f i.
(** search.rs:110-128 [initialize]; [None]: the [debug_assert!]. *)
Definition se_initialize (rtt now : N) (s : search) : option search :=
  let dur := rtt * WINDOW_SIZE_FACTOR / SCALE / W in
  if dur =? 0 then None
  else Some (mkSe (put (se_acked_bins s) 0 (se_acked s)) (put (se_sent_bins s) 0 (se_sent s)) (Some 0) (Some (now + dur))
               dur (se_acked s) (se_sent s) (Some rtt)).
(** search.rs:453-460 [reset]. *)
Definition se_reset (s : search) : search :=
  mkSe (se_acked_bins s) (se_sent_bins s) None (se_bin_end s) (se_dur s) 0 0 (se_init s).
(** search.rs:173-180: the loop that propagates the value of a bin to [n] skipped bins after [i]. *)
Fixpoint se_skip (n : nat) (size from i : N) (f : N -> N) : N -> N :=
  match n with
  | O => f
  | S n' => se_skip n' size from (i + 1) (put f (i mod size) (f (from mod size)))
  end.
(** search.rs:137-197 [update_bins]: called when both options are set. *)
Definition se_update (now cur bin_end : N) (s : search) : search * option N :=
  let passed := (now - bin_end) / se_dur s + 1 in
  if W <? passed then (se_reset s, None)
  else
    let a := se_skip (N.to_nat (passed - 1)) NUM_ACKED_BINS cur (cur + 1) (se_acked_bins s) in
    let b := se_skip (N.to_nat (passed - 1)) NUM_SENT_BINS cur (cur + 1) (se_sent_bins s) in
    let cur' := cur + passed in
    (mkSe (put a (cur' mod NUM_ACKED_BINS) (se_acked s)) (put b (cur' mod NUM_SENT_BINS) (se_sent s)) (Some cur')
       (Some (bin_end + se_dur s * passed)) (se_dur s) (se_acked s) (se_sent s) (se_init s), Some cur').
(** search.rs:205-235 [calc_prev_idx], [compute_delv], [compute_sent]. *)
Definition se_prev_idx (rtt cur : N) (s : search) : N * N :=
  (cur - rtt / se_dur s, (rtt mod se_dur s) * SCALE / se_dur s).
Definition se_delv (old new : N) (s : search) : N := se_acked_bins s (new mod NUM_ACKED_BINS) - se_acked_bins s (old mod NUM_ACKED_BINS).
Definition se_sent_between (old new fraction : N) (s : search) : N :=
  let low := se_sent_bins s ((new - 1) mod NUM_SENT_BINS) - se_sent_bins s ((old - 1) mod NUM_SENT_BINS) in
  let high := se_sent_bins s (new mod NUM_SENT_BINS) - se_sent_bins s (old mod NUM_SENT_BINS) in
  (low * fraction + high * (SCALE - fraction)) / SCALE.
(** search.rs:241-282 [evaluate]: whether to exit. *)
Definition se_evaluate (rtt cur : N) (s : search) : bool :=
  let '(prev, fraction) := se_prev_idx rtt cur s in
  if prev <=? W then false
  else if EXTRA_BINS <=? cur - prev then false
  else
    let delv := se_delv (cur - W) cur s in
    let sent := se_sent_between (prev - W) prev fraction s in
    if sent =? 0 then false
    else THRESH <=? (sent - delv) * SCALE / sent.
(** search.rs:376-443 [on_packets_acked]. *)
Definition se_acked_pkts (rtt cwnd now : N) (s0 : search) : option (search * option N) :=
  match (match se_idx s0 with None => se_initialize rtt now s0 | Some _ => Some s0 end) with
  | None => None
  | Some s =>
      match se_idx s, se_bin_end s with
      | Some cur, Some e =>
          if now <=? e then Some (s, None)
          else match se_update now cur e s with
               | (s', None) => Some (s', None)
               | (s', Some cur') => Some (s', if se_evaluate rtt cur' s' then Some cwnd else None)
               end
      | _, _ => Some (s, None)
      end
  end.
(** search.rs:445-451 [record_acked_bytes], [on_packet_sent]; saturating at [u64::MAX]. *)
Definition U64MAX : N := 2 ^ 64 - 1.
Definition se_record (n : N) (s : search) : search :=
  mkSe (se_acked_bins s) (se_sent_bins s) (se_idx s) (se_bin_end s) (se_dur s) (N.min U64MAX (se_acked s + n)) (se_sent s) (se_init s).
Definition se_on_sent (n : N) (s : search) : search :=
  mkSe (se_acked_bins s) (se_sent_bins s) (se_idx s) (se_bin_end s) (se_dur s) (se_acked s) (N.min U64MAX (se_sent s + n)) (se_init s).

(** * Slow start and window adjustment *)
Inductive sstart := SsClassic | SsHy (h : hystart) | SsSearch (s : search).
(** classic_cc.rs:113-149 [SlowStart]: dispatch; classic_slow_start.rs:37-50. *)
Definition ss_sent (pn len : N) (s : sstart) : sstart :=
  match s with SsClassic => SsClassic | SsHy h => SsHy (hy_sent pn h) | SsSearch x => SsSearch (se_on_sent len x) end.
Definition ss_record (n : N) (s : sstart) : sstart := match s with SsSearch x => SsSearch (se_record n x) | _ => s end.
Definition ss_acked (rtt largest cwnd now : N) (s : sstart) : option (sstart * option N) :=
  match s with
  | SsClassic => Some (SsClassic, None)
  | SsHy h => let '(h', e) := hy_acked rtt largest cwnd h in Some (SsHy h', e)
  | SsSearch x => match se_acked_pkts rtt cwnd now x with Some (x', e) => Some (SsSearch x', e) | None => None end
  end.
Definition ss_increase (new_acked mtu : N) (s : sstart) : N := match s with SsHy h => hy_increase new_acked mtu h | _ => new_acked end.
Definition ss_reset (s : sstart) : sstart := match s with SsClassic => SsClassic | SsHy h => SsHy (hy_reset h) | SsSearch x => SsSearch (se_reset x) end.

(** new_reno.rs, cubic.rs; [saved]: whether Cubic has a stored state (cubic.rs:478-495). *)
Inductive wadj := NewReno | Cubic (saved : bool).
(** new_reno.rs:30-39 and cubic.rs:282-404 [bytes_for_cwnd_increase]. *)
Definition wa_bytes (bfi cwnd : N) (w : wadj) : N := match w with NewReno => cwnd | Cubic _ => bfi end.
(** new_reno.rs:41-50 and cubic.rs:421-470 [reduce_cwnd]. *)
Definition wa_reduce (ecn : bool) (cwnd acked : N) (w : wadj) : N * N :=
  match w with
  | NewReno => (cwnd / 2, acked / 2)
  | Cubic _ => let b := if ecn then 85 else 70 in (cwnd * b / 100, acked * b / 100)
  end.
Definition wa_save (w : wadj) : wadj := match w with NewReno => NewReno | Cubic _ => Cubic true end.
(** [None]: the [debug_assert!] in [restore_undo_state]. *)
Definition wa_restore (w : wadj) : option wadj :=
  match w with NewReno => Some NewReno | Cubic true => Some (Cubic false) | Cubic false => None end.

(** * ClassicCongestionController *)

(** classic_cc.rs:32-76 [Phase]. *)
Inductive phase := PSlow | PAvoid | PRecStart | PRecovery | PPersist.
Definition transient (p : phase) : bool := match p with PRecStart | PPersist => true | _ => false end.
Definition in_recovery (p : phase) : bool := match p with PRecStart | PRecovery => true | _ => false end.
Definition in_slow_start (p : phase) : bool := match p with PSlow => true | _ => false end.
(** classic_cc.rs:156-166 [State]. *)
Record ccst := mkSt { s_phase : phase; s_cwnd : N; s_acked : N; s_ssthresh : option N; s_rec : option N }.
Definition st_phase (p : phase) (s : ccst) : ccst := mkSt p (s_cwnd s) (s_acked s) (s_ssthresh s) (s_rec s).
(** classic_cc.rs:189-227 [ClassicCongestionController]; [c_lost]: [maybe_lost_packets] as (packet
    number, type, time sent); [c_fal]: [first_app_limited]; [c_mtu]: [pmtud.plpmtu()]; the counters
    are [cc_stats.congestion_events]. *)
Record cc := mkCc {
  c_ss : sstart; c_wa : wadj; c_bif : N; c_lost : list (N * ptype * N); c_fal : option N; c_mtu : N;
  c_cur : ccst; c_stored : option ccst; c_spur : bool; c_nloss : N; c_necn : N; c_nspur : N }.
Definition with_cur (s : ccst) (c : cc) : cc :=
  mkCc (c_ss c) (c_wa c) (c_bif c) (c_lost c) (c_fal c) (c_mtu c) s (c_stored c) (c_spur c) (c_nloss c) (c_necn c) (c_nspur c).
Definition with_bif (b : N) (c : cc) : cc :=
  mkCc (c_ss c) (c_wa c) b (c_lost c) (c_fal c) (c_mtu c) (c_cur c) (c_stored c) (c_spur c) (c_nloss c) (c_necn c) (c_nspur c).
Definition with_lost (l : list (N * ptype * N)) (c : cc) : cc :=
  mkCc (c_ss c) (c_wa c) (c_bif c) l (c_fal c) (c_mtu c) (c_cur c) (c_stored c) (c_spur c) (c_nloss c) (c_necn c) (c_nspur c).
Definition with_ss (s : sstart) (c : cc) : cc :=
  mkCc s (c_wa c) (c_bif c) (c_lost c) (c_fal c) (c_mtu c) (c_cur c) (c_stored c) (c_spur c) (c_nloss c) (c_necn c) (c_nspur c).
Definition with_fal (f : option N) (c : cc) : cc :=
  mkCc (c_ss c) (c_wa c) (c_bif c) (c_lost c) f (c_mtu c) (c_cur c) (c_stored c) (c_spur c) (c_nloss c) (c_necn c) (c_nspur c).
Definition with_mtu (m : N) (c : cc) : cc :=
  mkCc (c_ss c) (c_wa c) (c_bif c) (c_lost c) (c_fal c) m (c_cur c) (c_stored c) (c_spur c) (c_nloss c) (c_necn c) (c_nspur c).
(** classic_cc.rs:29, 614-616 [cwnd_initial]; 268-270 [cwnd_min]; 252-266 [cwnd], [bytes_in_flight],
    [cwnd_avail]. *)
Definition cwnd_initial (mtu : N) : N := N.min (10 * mtu) (N.max (2 * mtu) 14720).
Definition cwnd_min (c : cc) : N := c_mtu c * 2.
Definition cwnd (c : cc) : N := s_cwnd (c_cur c).
Definition cwnd_avail (c : cc) : N := cwnd c - c_bif c.
(** classic_cc.rs:623-642 [new]. *)
Definition cc_new (ss : sstart) (wa : wadj) (mtu : N) (spur : bool) : cc :=
  mkCc ss wa 0 [] None mtu (mkSt PSlow (cwnd_initial mtu) 0 None None) None spur 0 0 0.

(** classic_cc.rs:868-880 [after_recovery_start]. *)
Definition after_rec (p : pkt) (c : cc) : bool :=
  negb (transient (s_phase (c_cur c))) && match s_rec (c_cur c) with Some pn => pn <=? p_pn p | None => true end.
(** classic_cc.rs:884-955 [on_congestion_event]; also whether it reacted. *)
Definition congestion_event (ecn : bool) (p : pkt) (c : cc) : cc * bool :=
  if after_rec p c then
    let s := c_cur c in
    let '(w, a) := wa_reduce ecn (s_cwnd s) (s_acked s) (c_wa c) in
    let w' := N.max w (cwnd_min c) in
    (mkCc (c_ss c) (if ecn then c_wa c else wa_save (c_wa c)) (c_bif c) (c_lost c) (c_fal c) (c_mtu c)
       (mkSt PRecStart w' a (Some w') (s_rec s)) (if ecn then c_stored c else Some s) (c_spur c)
       (if ecn then c_nloss c else c_nloss c + 1) (if ecn then c_necn c + 1 else c_necn c) (c_nspur c), true)
  else (c, false).

(** classic_cc.rs:738-751 [cleanup_maybe_lost_packets]. *)
Definition cleanup (now pto : N) (c : cc) : cc := with_lost (filter (fun x => now - snd x <=? pto * 2) (c_lost c)) c.
(** classic_cc.rs:753-790 [on_spurious_congestion_event]; [None]: see [wa_restore]. *)
Definition on_spurious (c : cc) : option cc :=
  match c_stored c with
  | None => Some c
  | Some s =>
      let c1 := mkCc (c_ss c) (c_wa c) (c_bif c) (c_lost c) (c_fal c) (c_mtu c) (c_cur c) None (c_spur c) (c_nloss c) (c_necn c) (c_nspur c + 1) in
      if s_cwnd s <=? cwnd c then Some c1
      else if negb (c_spur c) then Some c1
      else match wa_restore (c_wa c) with
           | None => None
           | Some w => Some (mkCc (c_ss c) w (c_bif c) (c_lost c) (c_fal c) (c_mtu c) s None (c_spur c) (c_nloss c) (c_necn c) (c_nspur c + 1))
           end
  end.
(** classic_cc.rs:703-734 [detect_spurious_congestion_event]. *)
Definition ptype_eqb (a b : ptype) : bool :=
  match a, b with TInitial, TInitial | TZeroRtt, TZeroRtt | THandshake, THandshake | TShort, TShort => true | _, _ => false end.
Definition same_key (p : pkt) (x : N * ptype * N) : bool := (p_pn p =? fst (fst x)) && ptype_eqb (p_type p) (snd (fst x)).
Definition detect_spurious (ps : list pkt) (c : cc) : option cc :=
  match c_lost c with
  | [] => Some c
  | l =>
      let l' := filter (fun x => negb (existsb (fun p => same_key p x) ps)) l in
      match l' with [] => on_spurious (with_lost l' c) | _ => Some (with_lost l' c) end
  end.

(** classic_cc.rs:305-336: the loop over the acknowledged packets: the controller, whether the window
    was not in use, and the number of bytes newly acknowledged. *)
Fixpoint ack_loop (ps : list pkt) (c : cc) (limited : bool) (acked : N) : cc * bool * N :=
  match ps with
  | [] => (c, limited, acked)
  | p :: ps' =>
      if cc_outstanding p then
        let limited' := match c_fal c with Some f => if p_pn p <? f then false else limited | None => limited end in
        let c1 := with_bif (c_bif c - p_len p) c in
        if after_rec p c1 then
          let c2 := if in_recovery (s_phase (c_cur c1)) then with_cur (st_phase PAvoid (c_cur c1)) c1 else c1 in
          ack_loop ps' c2 limited' (acked + p_len p)
        else ack_loop ps' c1 limited' acked
      else ack_loop ps' c limited acked
  end.
(** classic_cc.rs:358-403: slow start. *)
Definition grow_slow (largest rtt now new_acked : N) (c : cc) : option cc :=
  let s := c_cur c in
  if match s_ssthresh s with None => true | Some t => s_cwnd s <? t end then
    match ss_acked rtt largest (s_cwnd s) now (c_ss c) with
    | None => None
    | Some (ss', Some e) => Some (with_cur (mkSt PAvoid e (s_acked s) (Some e) (s_rec s)) (with_ss ss' c))
    | Some (ss', None) =>
        let w := s_cwnd s + ss_increase new_acked (c_mtu c) ss' in
        Some (with_cur (match s_ssthresh s with
                        | Some t => if t <=? w then mkSt PAvoid t (s_acked s) (Some t) (s_rec s)
                                    else mkSt (s_phase s) w (s_acked s) (s_ssthresh s) (s_rec s)
                        | None => mkSt (s_phase s) w (s_acked s) (s_ssthresh s) (s_rec s)
                        end) (with_ss ss' c))
    end
  else Some c.
(** classic_cc.rs:405-425: congestion avoidance; [None]: the [debug_assert!]. *)
Definition grow_avoid (bfi new_acked : N) (c : cc) : option cc :=
  let s := c_cur c in
  if match s_ssthresh s with None => false | Some t => t <=? s_cwnd s end then
    let b := wa_bytes bfi (s_cwnd s) (c_wa c) in
    if b =? 0 then None
    else
      let a := N.min (s_acked s) b + new_acked in
      Some (with_cur (mkSt (s_phase s) (s_cwnd s + a / b * c_mtu c) (a mod b) (s_ssthresh s) (s_rec s)) c)
  else Some c.
(** classic_cc.rs:284-444 [on_packets_acked].  [pto]: [rtt_est.pto(true)]; [rtt]: [rtt_est.latest_rtt()].
    [None]: an assertion, or no packet. *)
Definition cc_acked (ps : list pkt) (now pto rtt bfi : N) (c : cc) : option cc :=
  match ps with
  | [] => None
  | big :: _ =>
      obind (detect_spurious ps (cleanup now pto c)) (fun c1 =>
      let '(c2, limited, new_acked) := ack_loop ps c1 true 0 in
      let c3 := if in_slow_start (s_phase (c_cur c2)) then with_ss (ss_record new_acked (c_ss c2)) c2 else c2 in
      if limited then Some c3
      else obind (grow_slow (p_pn big) rtt now new_acked c3) (grow_avoid bfi new_acked))
  end.

(** classic_cc.rs:463-491: the loop over the lost packets; [None]: the [debug_assert!] that the packet
    was not declared lost before. *)
Fixpoint lost_loop (ps : list pkt) (c : cc) : option cc :=
  match ps with
  | [] => Some c
  | p :: ps' =>
      if cc_in_flight p then
        let c1 := with_bif (c_bif c - p_len p) c in
        if p_probe p then lost_loop ps' c1
        else if existsb (same_key p) (c_lost c1) then None
        else lost_loop ps' (with_lost ((p_pn p, p_type p, p_time p) :: c_lost c1) c1)
      else lost_loop ps' c
  end.
(** classic_cc.rs:792-865 [detect_persistent_congestion]: the scan; [None]: the [expect]. *)
Fixpoint pc_scan (period : N) (last start : option N) (ps : list pkt) : option bool :=
  match ps with
  | [] => Some false
  | p :: ps' =>
      let start' := if match last with Some l => negb (p_pn p =? l + 1) | None => true end then None else start in
      if cc_in_flight p then
        match start' with
        | Some t => if p_time p <? t then None
                    else if period <? p_time p - t then Some true
                    else pc_scan period (Some (p_pn p)) start' ps'
        | None => pc_scan period (Some (p_pn p)) (Some (p_time p)) ps'
        end
      else pc_scan period (Some (p_pn p)) start' ps'
  end.
Fixpoint skip_while {A} (f : A -> bool) (l : list A) : list A :=
  match l with [] => [] | x :: l' => if f x then skip_while f l' else l end.
Definition persistent (first prev : option N) (pto : N) (ps : list pkt) (c : cc) : option cc :=
  match first with
  | None => Some c
  | Some f =>
      let cutoff := match prev with Some t => N.max f t | None => f end in
      match pc_scan (pto * 3) None None (skip_while (fun p => p_time p <? cutoff) ps) with
      | None => None
      | Some false => Some c
      | Some true =>
          let s := c_cur c in
          Some (with_ss (ss_reset (c_ss c)) (with_cur (mkSt PPersist (cwnd_min c) 0 (s_ssthresh s) (s_rec s)) c))
      end
  end.
Definition non_probe (ps : list pkt) : list pkt := filter (fun p => negb (p_probe p)) ps.
Definition last_of {A} (l : list A) : option A := match rev l with x :: _ => Some x | [] => None end.
(** classic_cc.rs:447-532 [on_packets_lost]. *)
Definition cc_lost (first prev : option N) (pto : N) (ps : list pkt) (c : cc) : option cc :=
  match ps with
  | [] => Some c
  | _ =>
      obind (lost_loop ps c) (fun c1 =>
      match last_of (filter cc_in_flight (non_probe ps)) with
      | None => Some c1
      | Some p => persistent first prev pto (non_probe ps) (fst (congestion_event false p c1))
      end)
  end.
(** classic_cc.rs:539-546 [on_ecn_ce_received]. *)
Definition cc_ecn (p : pkt) (c : cc) : cc := fst (congestion_event true p c).
(** classic_cc.rs:548-568 [discard] ([None]: the [assert!]), [discard_in_flight]. *)
Definition cc_discard (p : pkt) (c : cc) : option cc :=
  if cc_outstanding p then (if p_len p <=? c_bif c then Some (with_bif (c_bif c - p_len p) c) else None) else Some c.
Definition cc_zero (c : cc) : cc := with_bif 0 c.
(** classic_cc.rs:957-972 [app_limited]. *)
Definition app_limited (c : cc) : bool :=
  if cwnd c <=? c_bif c then false
  else if in_slow_start (s_phase (c_cur c)) then c_bif c <? cwnd c / 2
  else c_bif c + c_mtu c * 2 <? cwnd c.
(** classic_cc.rs:570-611 [on_packet_sent], [recovery_packet]. *)
Definition cc_sent (p : pkt) (c : cc) : cc :=
  let s := c_cur c in
  let c1 := match s_phase s with
            | PPersist => with_cur (mkSt PSlow (s_cwnd s) (s_acked s) (s_ssthresh s) (Some (p_pn p))) c
            | PRecStart => with_cur (mkSt PRecovery (s_cwnd s) (s_acked s) (s_ssthresh s) (Some (p_pn p))) c
            | _ => c
            end in
  if cc_in_flight p then
    let c2 := if in_slow_start (s_phase (c_cur c1)) then with_ss (ss_sent (p_pn p) (p_len p) (c_ss c1)) c1 else c1 in
    let c3 := if app_limited c2 then c2 else with_fal (Some (p_pn p + 1)) c2 in
    with_bif (c_bif c3 + p_len p) c3
  else c1.
Definition recovery_packet (c : cc) : bool := match s_phase (c_cur c) with PRecStart => true | _ => false end.

(** ** Uses of one controller *)
Inductive cop :=
| CSent (p : pkt)
| CAcked (ps : list pkt) (now pto rtt bfi : N)
| CLost (first prev : option N) (pto : N) (ps : list pkt)
| CEcn (p : pkt)
| CDiscard (p : pkt)
| CZero
| CMtu (mtu : N).
Definition cc_step (c : cc) (o : cop) : option cc :=
  match o with
  | CSent p => Some (cc_sent p c)
  | CAcked ps now pto rtt bfi => cc_acked ps now pto rtt bfi c
  | CLost first prev pto ps => cc_lost first prev pto ps c
  | CEcn p => Some (cc_ecn p c)
  | CDiscard p => cc_discard p c
  | CZero => Some (cc_zero c)
  | CMtu m => Some (with_mtu m c)
  end.
Fixpoint cc_runs (c : cc) (ops : list cop) : option cc :=
  match ops with
  | [] => Some c
  | o :: ops' => match cc_step c o with Some c' => cc_runs c' ops' | None => None end
  end.

(** ** Loss recovery and the controllers of the paths *)

(** What the path knows when loss recovery calls it: [pto], the latest RTT, when the first RTT sample was
    taken, whether an ACK frame reported new ECN-CE marks (path.rs:1078-1124), the time, and what Cubic
    computes. *)
Record env := mkEnv { e_now : N; e_pto : N; e_rtt : N; e_first : option N; e_ce : bool; e_bfi : N }.
(** path.rs:1078-1124 [on_packets_acked], [on_packets_lost], 1053-1075 [discard_packet]. *)
Definition cops_of (e : env) (ev : ccev) : list cop :=
  match ev with
  | CcSent p => [CSent p]
  | CcLost prev ps => [CLost (e_first e) prev (e_pto e) ps]
  | CcAcked ps => (if e_ce e then match ps with p :: _ => [CEcn p] | [] => [] end else []) ++ [CAcked ps (e_now e) (e_pto e) (e_rtt e) (e_bfi e)]
  | CcDiscard p => [CDiscard p]
  | CcRtt _ _ _ => []
  end.
(** A connection: loss recovery, the controllers of its paths, and which path is primary.  That unused
    paths are removed is left out. *)
Record sys := mkSys { y_lr : lr; y_paths : list cc; y_prim : nat }.
Fixpoint upd_nth {A} (i : nat) (x : A) (l : list A) : list A :=
  match l, i with
  | [], _ => []
  | _ :: l', O => x :: l'
  | y :: l', S i' => y :: upd_nth i' x l'
  end.
Inductive sop :=
| SSent (i : nat) (t : ptype) (pn time : N) (ae : bool) (tokens len : N) (probe : bool)
| SAck (sp : space) (rs : list (N * N)) (delay now ld base : N) (e : env)
| STimeout (now ld base mtu : N) (keys : bool) (e : env)
| SDrop0 | SRetry
| SDiscard (sp : space) (base now : N)
| SProfile (mtu avail : N) (paced rec : bool)
| SMtu (i : nat) (mtu : N)
| SPath (ss : sstart) (wa : wadj) (mtu : N) (spur : bool)
| SPrimary (i : nat) (told : bool).
Definition no_env : env := mkEnv 0 0 0 None false 0.
Definition lift (y : sys) (i : nat) (x : option (lr * lout)) (e : env) : option sys :=
  match x with
  | None => None
  | Some (r, out) =>
      match nth_error (y_paths y) i with
      | None => None
      | Some c => match cc_runs c (flat_map (cops_of e) (o_cc out)) with
                  | None => None
                  | Some c' => Some (mkSys r (upd_nth i c' (y_paths y)) (y_prim y))
                  end
      end
  end.
(** Sending on a path: path.rs:1045-1050 [packet_sent]; what loss recovery reports goes to the primary
    path.  path.rs:671-678 [set_primary]: the path that was primary drops its bytes in flight; [told]: whether
    loss recovery is told ([Loss::migrate], connection/mod.rs:2193, 3507). *)
Definition sys_step (y : sys) (o : sop) : option sys :=
  match o with
  | SSent i t pn time ae tokens len probe =>
      lift y i (lr_sent (Nat.eqb i (y_prim y)) (pkt_new t pn time ae tokens len probe) (y_lr y)) no_env
  | SAck sp rs delay now ld base e => lift y (y_prim y) (lr_ack sp rs delay now ld base (y_lr y)) e
  | STimeout now ld base mtu keys e => lift y (y_prim y) (lr_timeout now ld base mtu keys (y_lr y)) e
  | SDrop0 => lift y (y_prim y) (Some (lr_drop_0rtt (y_lr y))) no_env
  | SRetry => lift y (y_prim y) (Some (lr_retry (y_lr y))) no_env
  | SDiscard sp base now => lift y (y_prim y) (lr_discard sp base now (y_lr y)) no_env
  | SProfile mtu avail paced rec => lift y (y_prim y) (lr_step (y_lr y) (LProfile mtu avail paced rec)) no_env
  | SMtu i m => match nth_error (y_paths y) i with
                | None => None
                | Some c => Some (mkSys (y_lr y) (upd_nth i (with_mtu m c) (y_paths y)) (y_prim y))
                end
  | SPath ss wa m spur => Some (mkSys (y_lr y) (y_paths y ++ [cc_new ss wa m spur]) (y_prim y))
  | SPrimary i told =>
      match nth_error (y_paths y) (y_prim y), nth_error (y_paths y) i with
      | Some c, Some _ => if Nat.eqb i (y_prim y) then Some y
                          else Some (mkSys (if told then lr_migrate (y_lr y) else y_lr y) (upd_nth (y_prim y) (cc_zero c) (y_paths y)) i)
      | _, _ => None
      end
  end.
Fixpoint sys_runs (y : sys) (ops : list sop) : option sys :=
  match ops with
  | [] => Some y
  | o :: ops' => match sys_step y o with Some y' => sys_runs y' ops' | None => None end
  end.
Definition sys_new (fast : N) (ss : sstart) (wa : wadj) (mtu : N) (spur : bool) : sys :=
  mkSys (lr_new fast) [cc_new ss wa mtu spur] O.
