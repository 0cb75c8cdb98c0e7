(** Model of network paths: neqo-transport/src/path.rs.  The contents of a challenge (8 bytes) are one number;
    addresses, round trip time and congestion state are left out.  Times are nanoseconds. *)
From Verif Require Import Base Lib.

(** path.rs:38, 585 *)
Definition MAX_PATHS : N := 15.
Definition MAX_PROBES : N := 3.
Definition USIZE_MAX : N := 18446744073709551615.
(** recovery/mod.rs:42 [ACK_ONLY_SIZE_LIMIT] less one. *)
Definition ACK_ROOM : N := 255.
(** path.rs:487-507 [ProbeState]. *)
Inductive pstate := PValid | PNeed (count : N) | PProbing (count data : N) (mtu : bool) (sent : N) | PFailed.
(** path.rs:527-576 [Path].  [p_id] stands for the identity of the shared object; [p_cid]: the number of the
    remote connection ID and whether it is empty; [p_mark]: [ecn_info.is_marking()]. *)
Record path := mkP { p_id : N; p_cid : option (N * bool); p_prim : bool; p_state : pstate; p_valid : option N;
  p_chal : option N; p_mark : bool; p_mtu : N; p_recv : N; p_sent : N }.
(** path.rs:590-640 [temporary]. *)
Definition p_new (id mtu : N) : path := mkP id None false (PNeed 0) None None false mtu 0 0.
Definition with_state (s : pstate) (p : path) : path := mkP (p_id p) (p_cid p) (p_prim p) s (p_valid p) (p_chal p) (p_mark p) (p_mtu p) (p_recv p) (p_sent p).
Definition with_cid (c : option (N * bool)) (p : path) : path := mkP (p_id p) c (p_prim p) (p_state p) (p_valid p) (p_chal p) (p_mark p) (p_mtu p) (p_recv p) (p_sent p).
Definition with_mark (m : bool) (p : path) : path := mkP (p_id p) (p_cid p) (p_prim p) (p_state p) (p_valid p) (p_chal p) m (p_mtu p) (p_recv p) (p_sent p).
Definition with_mtu (m : N) (p : path) : path := mkP (p_id p) (p_cid p) (p_prim p) (p_state p) (p_valid p) (p_chal p) (p_mark p) m (p_recv p) (p_sent p).
(** path.rs:671-678 [set_primary]; the congestion state is left out. *)
Definition set_primary (b : bool) (p : path) : path := mkP (p_id p) (p_cid p) b (p_state p) (p_valid p) (p_chal p) (p_mark p) (p_mtu p) (p_recv p) (p_sent p).
(** path.rs:682-686 [set_valid]. *)
Definition set_valid (now : N) (p : path) : path := mkP (p_id p) (p_cid p) (p_prim p) PValid (Some now) (p_chal p) (p_mark p) (p_mtu p) (p_recv p) (p_sent p).
Definition is_valid (p : path) : bool := match p_valid p with Some _ => true | None => false end.
(** path.rs:711-715 [update]. *)
Definition update (now : N) (p : path) : path :=
  mkP (p_id p) (p_cid p) (p_prim p) (p_state p) (match p_valid p with Some _ => Some now | None => None end) (p_chal p) (p_mark p) (p_mtu p) (p_recv p) (p_sent p).
(** path.rs:818-821 [challenged]. *)
Definition challenged (d : option N) (p : path) : path := mkP (p_id p) (p_cid p) (p_prim p) (p_state p) (p_valid p) d (p_mark p) (p_mtu p) (p_recv p) (p_sent p).
(** path.rs:1035-1042 [add_received], [add_sent]. *)
Definition add_received (n : N) (p : path) : path := mkP (p_id p) (p_cid p) (p_prim p) (p_state p) (p_valid p) (p_chal p) (p_mark p) (p_mtu p) (N.min USIZE_MAX (p_recv p + n)) (p_sent p).
Definition add_sent (n : N) (p : path) : path := mkP (p_id p) (p_cid p) (p_prim p) (p_state p) (p_valid p) (p_chal p) (p_mark p) (p_mtu p) (p_recv p) (N.min USIZE_MAX (p_sent p + n)).
(** path.rs:823-846 [probe]. *)
Definition probe (p : path) : path :=
  let count := match p_state p with PProbing c _ _ _ => c + 1 | PNeed c => c | _ => 0 end in
  if MAX_PROBES <=? count then (if p_mark p then with_state (PNeed 0) (with_mark false p) else with_state PFailed p)
  else with_state (PNeed count) p.
(** path.rs:798-816 [path_response]. *)
Definition p_response (d now : N) (p : path) : path * bool :=
  match p_state p with
  | PProbing _ data mtu _ => if d =? data then (let p' := set_valid now p in if mtu then p' else probe p', true) else (p, false)
  | _ => (p, false)
  end.
(** path.rs:849-851 [has_probe]. *)
Definition has_probe (p : path) : bool := match p_chal p with Some _ => true | None => match p_state p with PNeed _ => true | _ => false end end.
(** path.rs:853-911 [write_frames]: the frames written, with [room] bytes left in the packet; [rand]: the random challenge. *)
Inductive pframe := PathResponse (d : N) | PathChallenge (d : N).
Definition p_challenge (rand : N) (mtu : bool) (now : N) (p : path) : path * list pframe :=
  match p_state p with PNeed c => (with_state (PProbing c rand mtu now) p, [PathChallenge rand]) | _ => (p, []) end.
Definition p_write (room rand : N) (mtu : bool) (now : N) (p : path) : path * list pframe :=
  if room <? 9 then (p, [])
  else match p_chal p with
       | Some d => let p' := challenged None p in
                   if room - 9 <? 9 then (p', [PathResponse d]) else let '(p2, l) := p_challenge rand mtu now p' in (p2, PathResponse d :: l)
       | None => p_challenge rand mtu now p
       end.
(** path.rs:940-967 [process_timeout]; says whether the path is kept. *)
Definition p_timeout (now pto : N) (p : path) : path * bool :=
  let p1 := match p_state p with PProbing _ _ _ sent => if sent + pto <=? now then probe p else p | _ => p end in
  (p1, match p_state p1 with
       | PFailed => false
       | PValid => if p_prim p1 then true else match p_valid p1 with Some v => now <? v + pto * (2 * MAX_PROBES + 1) | None => false end
       | _ => true
       end).
(** path.rs:973-979 [next_timeout]. *)
Definition p_next (pto : N) (p : path) : option N := match p_state p with PProbing _ _ _ sent => Some (sent + pto) | _ => None end.
(** path.rs:1135-1157 [amplification_limit]. *)
Definition amp_limit (p : path) : N :=
  match p_state p with
  | PFailed => 0
  | _ => if is_valid p then USIZE_MAX
         else if USIZE_MAX <? p_recv p * 3 then USIZE_MAX
         else (if p_recv p * 3 =? 0 then p_mtu p * 5 else p_recv p * 3) - p_sent p
  end.
(** path.rs:1129-1132 [pto_possible]. *)
Definition pto_possible (p : path) : bool := p_mtu p <=? amp_limit p.
(** recovery/mod.rs:1017-1048 [send_profile] and connection/mod.rs:2795-2812, 2932-2950: the most bytes
    [output_dgram_on_path] puts in a datagram.  [cwnd]: what congestion control allows; [pto], [rec]: whether a
    packet is due for a timeout or on entering recovery; [paced]: whether the pacer asks to wait; [pm]: the
    size of a path MTU probe, if one is needed. *)
Definition dgram_limit (p : path) (cwnd : N) (pto rec paced : bool) (pm : option N) : N :=
  match pm with
  | Some s => s
  | None =>
      if pto then p_mtu p
      else let limit := N.min cwnd (amp_limit p) in
           if p_mtu p <? limit then (if paced then ACK_ROOM else N.max ACK_ROOM (p_mtu p))
           else if rec then p_mtu p else N.max ACK_ROOM limit
  end.

(** What happens to one path. *)
Inductive pop :=
| OChallenged (d : N) | OResponse (d now : N) | OProbe | OWrite (room rand : N) (mtu : bool) (now : N) | OTimeout (now pto : N)
| OSetValid (now : N) | OUpdate (now : N) | OMark (b : bool) | OMtu (m : N) | OPrimary (b : bool) | ORecv (n : N)
| OSend (n cwnd : N) (pto rec paced : bool) (pm : option N).
(** What is seen: frames written, and whether the path was given up. *)
Record pout := mkOut { o_frames : list pframe; o_dead : bool }.
Definition quiet : pout := mkOut [] false.
(** [None]: not a datagram the code would make. *)
Definition p_step (p : path) (o : pop) : option (path * pout) :=
  match o with
  | OChallenged d => Some (challenged (Some d) p, quiet)
  | OResponse d now => Some (fst (p_response d now p), quiet)
  | OProbe => Some (probe p, quiet)
  | OWrite room rand mtu now => let '(p', l) := p_write room rand mtu now p in Some (p', mkOut l false)
  | OTimeout now pto => let '(p', b) := p_timeout now pto p in Some (p', mkOut [] (negb b))
  | OSetValid now => Some (set_valid now p, quiet)
  | OUpdate now => Some (update now p, quiet)
  | OMark b => Some (with_mark b p, quiet)
  | OMtu m => Some (with_mtu m p, quiet)
  | OPrimary b => Some (set_primary b p, quiet)
  | ORecv n => Some (add_received n p, quiet)
  | OSend n cwnd pto rec paced pm => if n <=? dgram_limit p cwnd pto rec paced pm then Some (add_sent n p, quiet) else None
  end.
Fixpoint p_run (p : path) (ops : list pop) : option (path * list (pop * pout)) :=
  match ops with
  | [] => Some (p, [])
  | o :: ops' => match p_step p o with
                 | None => None
                 | Some (p1, out) => match p_run p1 ops' with Some (p2, h) => Some (p2, (o, out) :: h) | None => None end
                 end
  end.

(** * All the paths of a connection *)
(** path.rs:49-67 [Paths]; the primary path and the migration target are named by identity. *)
Record paths := mkPs { ps_paths : list path; ps_prim : option N; ps_target : option N; ps_retire : list N }.
Definition ps_new : paths := mkPs [] None None [].
Definition find_id (i : N) (l : list path) : option path := find (fun p => p_id p =? i) l.
Definition upd (i : N) (f : path -> path) (l : list path) : list path := map (fun p => if p_id p =? i then f p else p) l.
(** path.rs:115-125 [retire]. *)
Definition retired (p : path) : list N := match p_cid p with Some (seq, false) => [seq] | _ => [] end.
Definition opt_eqb (a : option N) (i : N) : bool := match a with Some j => j =? i | None => false end.
(** [slice::swap(0, i)] where [i] is the index of the path named. *)
Fixpoint place (i : N) (x : path) (l : list path) : list path := match l with [] => [] | y :: l' => if p_id y =? i then x :: l' else y :: place i x l' end.
Definition swap0 (i : N) (l : list path) : list path :=
  match l with
  | [] => []
  | x :: l' => if p_id x =? i then l else match find_id i l' with Some y => y :: place i x l' | None => l end
  end.
(** path.rs:172-196 [select_primary]; gives the old primary path. *)
Definition select_primary (i : N) (s : paths) : paths * option N :=
  let l := match ps_prim s with Some o => upd o (set_primary false) (ps_paths s) | None => ps_paths s end in
  match find_id i l with
  | None => (mkPs l (Some i) (ps_target s) (ps_retire s), None)
  | Some _ => (mkPs (upd i (set_primary true) (swap0 i l)) (Some i) (ps_target s) (ps_retire s), ps_prim s)
  end.
(** path.rs:127-170 [make_permanent]; [p]: the path as it is, with no connection ID. *)
Definition make_permanent (p : path) (cid : N * bool) (s : paths) : paths :=
  let s1 := if MAX_PATHS <=? lenN (ps_paths s)
            then match ps_paths s with
                 | x :: r :: l => mkPs (x :: l) (ps_prim s) (if opt_eqb (ps_target s) (p_id r) then None else ps_target s) (ps_retire s ++ retired r)
                 | _ => s
                 end
            else s in
  let s2 := mkPs (ps_paths s1 ++ [with_cid (Some cid) p]) (ps_prim s1) (ps_target s1) (ps_retire s1) in
  match ps_prim s2 with None => fst (select_primary (p_id p) s2) | Some _ => s2 end.
(** path.rs:202-221 [migrate]; [mark]: whether the path is marking after ECN validation was started. *)
Definition migrate (i : N) (force mark : bool) (now : N) (s : paths) : option paths :=
  match find_id i (ps_paths s) with
  | None => None
  | Some p =>
      let s0 := mkPs (upd i (with_mark mark) (ps_paths s)) (ps_prim s) (ps_target s) (ps_retire s) in
      let s1 := if force || is_valid p
                then let s' := fst (select_primary i (mkPs (upd i (set_valid now) (ps_paths s0)) (ps_prim s0) (ps_target s0) (ps_retire s0))) in
                     mkPs (ps_paths s') (ps_prim s') None (ps_retire s')
                else mkPs (ps_paths s0) (ps_prim s0) (Some i) (ps_retire s0) in
      Some (mkPs (upd i probe (ps_paths s1)) (ps_prim s1) (ps_target s1) (ps_retire s1))
  end.
(** path.rs:228-276 [process_timeout]; says whether there is a usable path.  The timer of path MTU discovery is left out. *)
Fixpoint sweep (now pto : N) (l : list path) : list path * list path :=
  match l with
  | [] => ([], [])
  | p :: l' => let '(p', b) := p_timeout now pto p in let '(k, d) := sweep now pto l' in if b then (p' :: k, d) else (k, p' :: d)
  end.
Definition ps_timeout (now pto : N) (s : paths) : paths * bool :=
  let '(keep, dead) := sweep now pto (ps_paths s) in
  let s1 := mkPs keep (ps_prim s) (ps_target s) (ps_retire s ++ flat_map retired dead) in
  if existsb p_prim dead
  then let s2 := mkPs keep None (ps_target s) (ps_retire s1) in
       match find is_valid (rev keep) with Some p => (fst (select_primary (p_id p) s2), true) | None => (s2, false) end
  else (s1, true).
(** path.rs:286-312 [handle_migration]; the port and path MTU discovery are left out. *)
Definition handle_migration (i now : N) (s : paths) : option paths :=
  match find_id i (ps_paths s) with
  | None => None
  | Some p =>
      if p_prim p then Some (mkPs (upd i (update now) (ps_paths s)) (ps_prim s) (ps_target s) (ps_retire s))
      else let '(s1, old) := select_primary i s in
           Some (match old with Some o => mkPs (upd o probe (ps_paths s1)) (ps_prim s1) (ps_target s1) (ps_retire s1) | None => s1 end)
  end.
(** path.rs:316-321 [select_path]. *)
Definition select_path (s : paths) : option N := match find has_probe (ps_paths s) with Some p => Some (p_id p) | None => ps_prim s end.
(** path.rs:327-354 [path_response]: the first path that takes it. *)
Fixpoint respond (d now : N) (l : list path) : list path * option N :=
  match l with
  | [] => ([], None)
  | p :: l' => let '(p', b) := p_response d now p in if b then (p' :: l', Some (p_id p)) else let '(r, o) := respond d now l' in (p' :: r, o)
  end.
Definition ps_response (d now : N) (s : paths) : paths :=
  let '(l, hit) := respond d now (ps_paths s) in
  let s1 := mkPs l (ps_prim s) (ps_target s) (ps_retire s) in
  match hit with
  | Some i => if opt_eqb (ps_target s) i then fst (select_primary i (mkPs l (ps_prim s) None (ps_retire s))) else s1
  | None => s1
  end.
(** path.rs:360-397 [retire_cids]: [released]: what the store gave up; [store]: what it still has, in order.
    [None]: the [debug_assert!] that the primary path gets a connection ID. *)
Fixpoint recid (prior : N) (l : list path) (store : list (N * bool)) : list path * list path * list N :=
  match l with
  | [] => ([], [], [])
  | p :: l' =>
      match p_cid p with
      | Some (seq, false) =>
          if seq <? prior
          then match store with
               | c :: store' => let '(k, d, r) := recid prior l' store' in (with_cid (Some c) p :: k, d, seq :: r)
               | [] => let '(k, d, r) := recid prior l' [] in (k, p :: d, seq :: r)
               end
          else let '(k, d, r) := recid prior l' store in (p :: k, d, r)
      | _ => let '(k, d, r) := recid prior l' store in (p :: k, d, r)
      end
  end.
Definition retire_cids (prior : N) (released : list N) (store : list (N * bool)) (s : paths) : option paths :=
  let '(keep, dead, r) := recid prior (ps_paths s) store in
  if existsb p_prim dead then None
  else Some (mkPs keep (ps_prim s) (if existsb (fun p => opt_eqb (ps_target s) (p_id p)) dead then None else ps_target s) (ps_retire s ++ released ++ r)).
(** path.rs:406-425 [write_frames]: RETIRE_CONNECTION_ID, the last first, while there is room; [k]: how many fit. *)
Definition retire_write (k : nat) (s : paths) : paths * list N :=
  let r := rev (ps_retire s) in (mkPs (ps_paths s) (ps_prim s) (ps_target s) (rev (skipn k r)), firstn k r).
(** path.rs:433-439 [lost_retire_cid], [acked_retire_cid]. *)
Definition retire_lost (n : N) (s : paths) : paths := mkPs (ps_paths s) (ps_prim s) (ps_target s) (ps_retire s ++ [n]).
Definition retire_acked (n : N) (s : paths) : paths := mkPs (ps_paths s) (ps_prim s) (ps_target s) (filter (fun x => negb (x =? n)) (ps_retire s)).

(** What happens to the paths.  [QPath]: something that happens to one path by itself (a frame or datagram received or
    sent on it, or its address validated in the handshake). *)
Inductive qop :=
| QPerm (p : path) (cid : N * bool) | QMigrate (i : N) (force mark : bool) (now : N) | QTimeout (now pto : N) | QHandle (i now : N)
| QResponse (d now : N) | QRetire (prior : N) (released : list N) (store : list (N * bool)) | QWrite (k : nat) | QLost (n : N) | QAcked (n : N)
| QPath (i : N) (o : pop).
(** What may happen to a path by itself. *)
Definition own_op (o : pop) : bool :=
  match o with OChallenged _ | OWrite _ _ _ _ | OSetValid _ | OMark _ | OMtu _ | ORecv _ | OSend _ _ _ _ _ _ => true | _ => false end.
Definition ps_step (s : paths) (o : qop) : option paths :=
  match o with
  | QPerm p cid => if existsb (fun q => p_id q =? p_id p) (ps_paths s) || p_prim p then None else Some (make_permanent p cid s)
  | QMigrate i force mark now => migrate i force mark now s
  | QTimeout now pto => Some (fst (ps_timeout now pto s))
  | QHandle i now => handle_migration i now s
  | QResponse d now => Some (ps_response d now s)
  | QRetire prior released store => retire_cids prior released store s
  | QWrite k => Some (fst (retire_write k s))
  | QLost n => Some (retire_lost n s)
  | QAcked n => Some (retire_acked n s)
  | QPath i o =>
      if own_op o then
        match find_id i (ps_paths s) with
        | None => None
        | Some p => match p_step p o with
                    | None => None
                    | Some (p', _) => Some (mkPs (upd i (fun _ => p') (ps_paths s)) (ps_prim s) (ps_target s) (ps_retire s))
                    end
        end
      else None
  end.
Fixpoint ps_run (s : paths) (ops : list qop) : option paths := match ops with [] => Some s | o :: ops' => match ps_step s o with Some s' => ps_run s' ops' | None => None end end.
