(** Model of ECN validation: neqo-transport/src/ecn.rs. *)
From Verif Require Import Base Lib.

(** ecn.rs:17-24 [TEST_COUNT], [TEST_COUNT_INITIAL_PHASE]. *)
Definition TEST_COUNT : N := 10.
Definition TEST_COUNT_INITIAL_PHASE : N := 3.
(** ecn.rs:146-151 [ValidationError]; 28-47 [ValidationState]. *)
Inductive verr := BlackHole | Bleaching | UnsentEct1.
Inductive vstate := NotStarted | Testing (sent acked lost : N) | Unknown | Failed (e : verr) | Capable.
(** ecn.rs:78-127 [Count]; the count of unmarked packets comes first. *)
Record count := mkCount { k_not : N; k_ect0 : N; k_ect1 : N; k_ce : N }.
Definition csub (a b : count) : count :=
  mkCount (k_not a - k_not b) (k_ect0 a - k_ect0 b) (k_ect1 a - k_ect1 b) (k_ce a - k_ce b).
(** [Stats::ecn_path_validation]: how many paths are in each final state. *)
Record outcomes := mkOc { oc_capable : N; oc_black : N; oc_bleach : N; oc_ect1 : N }.
Definition oc_fail (e : verr) (o : outcomes) : outcomes :=
  match e with
  | BlackHole => mkOc (oc_capable o) (oc_black o + 1) (oc_bleach o) (oc_ect1 o)
  | Bleaching => mkOc (oc_capable o) (oc_black o) (oc_bleach o + 1) (oc_ect1 o)
  | UnsentEct1 => mkOc (oc_capable o) (oc_black o) (oc_bleach o) (oc_ect1 o + 1)
  end.
(** ecn.rs:158-169 [Info], with the statistics it updates. *)
Record info := mkInfo { i_state : vstate; i_largest : N; i_base : count; i_oc : outcomes }.
Definition zero_count : count := mkCount 0 0 0 0.
Definition info_new (o : outcomes) : info := mkInfo NotStarted 0 zero_count o.
(** ecn.rs:49-68 [ValidationState::set]; [None]: a failed debug assertion, or a counter below zero. *)
Definition set_state (new : vstate) (i : info) : option info :=
  match (match i_state i with
         | Failed _ => None
         | Capable => if oc_capable (i_oc i) =? 0 then None else Some (mkOc (oc_capable (i_oc i) - 1) (oc_black (i_oc i)) (oc_bleach (i_oc i)) (oc_ect1 (i_oc i)))
         | _ => Some (i_oc i)
         end) with
  | None => None
  | Some o =>
      let o' := match new with
                | Failed e => oc_fail e o
                | Capable => mkOc (oc_capable o + 1) (oc_black o) (oc_bleach o) (oc_ect1 o)
                | _ => o
                end in
      Some (mkInfo new (i_largest i) (i_base i) o')
  end.
(** ecn.rs:172-184 [start]. *)
Definition ecn_start (i : info) : option info := match i_state i with NotStarted => set_state (Testing 0 0 0) i | _ => Some i end.
(** ecn.rs:186-194 [set_baseline], [baseline]. *)
Definition ecn_set_base (k : count) (i : info) : info := mkInfo (i_state i) (i_largest i) k (i_oc i).
Definition with_state (s : vstate) (i : info) : info := mkInfo s (i_largest i) (i_base i) (i_oc i).
(** ecn.rs:200-209 [on_packet_sent]. *)
Definition ecn_sent (n : N) (i : info) : option info :=
  match i_state i with
  | Testing s a l => let i' := with_state (Testing (s + n) a l) i in if TEST_COUNT <=? s + n then set_state Unknown i' else Some i'
  | _ => Some i
  end.
(** ecn.rs:212-214 [disable_ecn]. *)
Definition ecn_disable (e : verr) (i : info) : option info := set_state (Failed e) i.
(** ecn.rs:265-331 [validate_ack_ecn_and_update].  A packet is its number and whether it was sent with
    ECT(0); [None]: no packet, or a panic of [set_state]. *)
Definition ecn_validate (pkts : list (N * bool)) (ack : option count) (i : info) : option info :=
  match pkts with
  | [] => None
  | (pn, _) :: _ =>
      if pn <=? i_largest i then Some i
      else match i_state i with
           | NotStarted | Testing _ _ _ | Failed _ => Some i
           | _ =>
               match ack with
               | None => ecn_disable Bleaching i
               | Some k =>
                   let newly := lenN (filter (fun p : N * bool => snd p) pkts) in
                   let d := csub k (i_base i) in
                   match (if k_ect0 d + k_ce d <? newly then ecn_disable Bleaching i
                          else if 0 <? k_ect1 d then ecn_disable UnsentEct1 i
                          else match i_state i with Capable => Some i | _ => set_state Capable i end) with
                   | None => None
                   | Some i' => Some (mkInfo (i_state i') pn k (i_oc i'))
                   end
               end
           end
  end.
(** ecn.rs:219-233 [on_packets_acked]: also says whether there are new congestion marks. *)
Definition ecn_acked (pkts : list (N * bool)) (ack : option count) (i : info) : option (info * bool) :=
  match ecn_validate pkts ack i with
  | None => None
  | Some i' => Some (i', match i_state i' with Capable => 0 <? k_ce (csub (i_base i') (i_base i)) | _ => false end)
  end.
(** ecn.rs:236-244 [acked_ecn]; 247-263 [lost_ecn]. *)
Definition ecn_mark_acked (i : info) : info := match i_state i with Testing s a l => with_state (Testing s (a + 1) l) i | _ => i end.
Definition ecn_mark_lost (i : info) : option info :=
  match i_state i with
  | Testing s a l => let i' := with_state (Testing s a (l + 1)) i in
                     if (a =? 0) && (l + 1 =? TEST_COUNT_INITIAL_PHASE) then ecn_disable BlackHole i' else Some i'
  | _ => Some i
  end.
(** ecn.rs:333-348 [is_marking], [ecn_mark]. *)
Definition is_marking (i : info) : bool := match i_state i with Testing _ _ _ | Capable => true | _ => false end.
(** path.rs:831-840: the path could not be validated while marking: ECN is disabled. *)
Definition ecn_black (i : info) : option info := if is_marking i then ecn_disable BlackHole i else Some i.

Inductive eop := EStart | EBase (k : count) | ESent (n : N) | EAcked (pkts : list (N * bool)) (ack : option count) | EMarkAcked | EMarkLost | EBlack.
(** The result: the state and whether congestion is signalled. *)
Definition ecn_step (i : info) (o : eop) : option (info * bool) :=
  let quiet x := match x with Some i' => Some (i', false) | None => None end in
  match o with
  | EStart => quiet (ecn_start i)
  | EBase k => quiet (Some (ecn_set_base k i))
  | ESent n => quiet (ecn_sent n i)
  | EAcked pkts ack => ecn_acked pkts ack i
  | EMarkAcked => quiet (Some (ecn_mark_acked i))
  | EMarkLost => quiet (ecn_mark_lost i)
  | EBlack => quiet (ecn_black i)
  end.
Fixpoint ecn_runs (i : info) (ops : list eop) : option info :=
  match ops with
  | [] => Some i
  | o :: ops' => match ecn_step i o with Some (i', _) => ecn_runs i' ops' | None => None end
  end.
