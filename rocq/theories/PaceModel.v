(** Model of the pacer: neqo-transport/src/pace.rs, and of its use in neqo-transport/src/sender.rs.
    Times and durations are nanoseconds; sizes are 64 bits wide. *)
From Verif Require Import Base Lib FcModel LrModel CcModel.
Local Open Scope Z_scope.

Definition U64 : Z := 2 ^ 64 - 1.
Definition ISIZE : Z := 2 ^ 63 - 1.
(** rtt.rs:26 [GRANULARITY]; pace.rs:54 [SPEEDUP]. *)
Definition GRAN : Z := 1000000.
Definition SPEEDUP : Z := 2.
(** pace.rs:30-43 [Pacer]. *)
Record pacer := mkPacer { pc_on : bool; pc_t : Z; pc_m : Z; pc_c : Z; pc_p : Z }.
(** pace.rs:66-76 [new]; [None]: an assertion fails. *)
Definition pc_new (on : bool) (now m p : Z) : option pacer :=
  if (p <=? m) && (m <=? ISIZE) then Some (mkPacer on now m m p) else None.
(** pace.rs:78-84 [mtu], [set_mtu]. *)
Definition pc_set_mtu (p : Z) (x : pacer) : pacer := mkPacer (pc_on x) (pc_t x) (pc_m x) (pc_c x) p.
(** saturating_mul on u64. *)
Definition smul (a b : Z) : Z := Z.min U64 (a * b).
(** pace.rs:90-129 [next]; [None]: division by zero.  [Duration::as_nanos] is cut to 64 bits. *)
Definition pc_next (rtt cwnd : Z) (x : pacer) : option Z :=
  if pc_p x <=? pc_c x then Some (pc_t x)
  else
    let deficit := pc_p x - pc_c x in
    let divisor := smul cwnd SPEEDUP in
    if divisor =? 0 then None
    else
      let w := smul (Z.min U64 rtt) deficit / divisor in
      if w <? GRAN then Some (pc_t x) else Some (pc_t x + w).
(** pace.rs:141-146 [bytes_for]; [None] if the RTT is zero. *)
Definition bytes_for (cwnd rtt elapsed : Z) : option Z :=
  let r := Z.min U64 rtt in
  if r =? 0 then None else Some (smul (Z.min U64 elapsed) (smul cwnd SPEEDUP) / r).
(** pace.rs:151-153 [rate]. *)
Definition pc_rate (cwnd rtt : Z) : option Z := bytes_for cwnd rtt 1000000000.
(** isize::saturating_add, saturating_sub. *)
Definition sadd (a b : Z) : Z := Z.max (- ISIZE - 1) (Z.min ISIZE (a + b)).
(** pace.rs:162-185 [spend]. *)
Definition pc_spend (now rtt cwnd count : Z) (x : pacer) : pacer :=
  if pc_on x then
    let incr := match bytes_for cwnd rtt (Z.max 0 (now - pc_t x)) with Some b => b | None => pc_m x end in
    mkPacer (pc_on x) now (pc_m x) (Z.min (pc_m x) (sadd (sadd (pc_c x) (Z.min ISIZE incr)) (- Z.min ISIZE count))) (pc_p x)
  else mkPacer (pc_on x) now (pc_m x) (pc_c x) (pc_p x).

(** Using a pacer: a packet is sent, the packet size changes. *)
Inductive pop := PSend (now rtt cwnd count : Z) | PMtu (p : Z).
Definition pc_step (x : pacer) (o : pop) : pacer :=
  match o with PSend now rtt cwnd count => pc_spend now rtt cwnd count x | PMtu p => pc_set_mtu p x end.
Definition pc_runs (x : pacer) (ops : list pop) : pacer := fold_left pc_step ops x.

(** sender.rs:32-37 [PacketSender]: a controller and a pacer (what it does for MTU discovery and
    statistics is left out). *)
Record sender := mkSender { sd_cc : cc; sd_pacer : pacer }.
(** sender.rs:28 [PACING_BURST_SIZE], 40-110 [new]. *)
Definition BURST : Z := 2.
Definition sd_new (on : bool) (now : Z) (c : cc) : option sender :=
  match pc_new on now (Z.of_N (c_mtu c) * BURST) (Z.of_N (c_mtu c)) with Some x => Some (mkSender c x) | None => None end.
(** sender.rs:226-230 [on_packet_sent]: the pacer is charged before the controller sees the packet. *)
Definition sd_sent (p : pkt) (rtt : Z) (s : sender) : sender :=
  mkSender (cc_sent p (sd_cc s)) (pc_spend (Z.of_N (p_time p)) rtt (Z.of_N (cwnd (sd_cc s))) (Z.of_N (p_len p)) (sd_pacer s)).
(** sender.rs:232-236 [next_paced]; the outer [None] is a division by zero. *)
Definition sd_next (rtt : Z) (s : sender) : option (option Z) :=
  if (0 <? c_bif (sd_cc s))%N then
    match pc_next rtt (Z.of_N (cwnd (sd_cc s))) (sd_pacer s) with Some t => Some (Some t) | None => None end
  else Some None.
(** sender.rs:154-164 [maybe_update_pacer_mtu], after discovery has changed the MTU (166-180
    [on_packets_acked], 182-208 [on_packets_lost]). *)
Definition sd_mtu (m : N) (s : sender) : sender :=
  mkSender (with_mtu m (sd_cc s)) (if Z.of_N m =? pc_p (sd_pacer s) then sd_pacer s else pc_set_mtu (Z.of_N m) (sd_pacer s)).
