(** Which stream sends next: [SendStreams] and [OrderGroup] in neqo-transport/src/send_stream.rs.  What a stream writes
    into a packet is given by a [writer]; SsModel has the streams themselves. *)
From Verif Require Import Base Lib.
From Coq Require Import ZArith.
Open Scope N_scope.
Open Scope list_scope.
Import ListNotations.

(** send_stream.rs:1745-1760 [OrderGroup]: stream ids in order, and the position of the next one to visit. *)
Record og := mkOg { vec : list N; next : nat }.
Definition og_new : og := mkOg [] 0.
Definition memb (x : N) (l : list N) : bool := existsb (N.eqb x) l.
(** The place [binary_search] (1813, 1824) finds in a sorted list. *)
Fixpoint put (x : N) (l : list N) : list N :=
  match l with [] => [x] | y :: l' => if x <? y then x :: l else y :: put x l' end.
(** 1812-1818 [insert]: panics if present. *)
Definition og_insert (x : N) (g : og) : option og := if memb x (vec g) then None else Some (mkOg (put x (vec g)) (next g)).
(** 1822-1828 [remove]: panics if absent. *)
Definition og_remove (x : N) (g : og) : option og :=
  if memb x (vec g) then Some (mkOg (filter (fun y => negb (y =? x)) (vec g)) (next g)) else None.
(** 1775-1784 [iter]: makes the position valid. *)
Definition og_iter (g : og) : og := if Nat.leb (length (vec g)) (next g) then mkOg (vec g) 0 else g.
(** 1831-1844 [OrderGroupIter::next] and 1804-1808 [update_next]; the outer option is an index out of range. *)
Definition it_next (g : og) (started : option nat) : option (option (og * option nat * N)) :=
  if match started with Some a => Nat.eqb a (next g) | None => false end || match vec g with [] => true | _ => false end then Some None
  else match nth_error (vec g) (next g) with
       | None => None
       | Some x => Some (Some (mkOg (vec g) (Nat.modulo (S (next g)) (length (vec g))), match started with Some _ => started | None => Some (next g) end, x))
       end.

(** 1851-1891 [PerGroupQueues]; the map from send order to queue is a list, the highest order first. *)
Record pgq := mkQ { ordered : list (Z * og); regular : og }.
Definition q_new : pgq := mkQ [] og_new.
(** 1857-1863 [group_mut] followed by a change [f] of the queue. *)
Fixpoint ord_upd (z : Z) (f : og -> option og) (l : list (Z * og)) : option (list (Z * og)) :=
  match l with
  | [] => match f og_new with Some g => Some [(z, g)] | None => None end
  | (y, g) :: l' =>
      if (z =? y)%Z then match f g with Some g' => Some ((y, g') :: l') | None => None end
      else if (y <? z)%Z then match f og_new with Some g' => Some ((z, g') :: l) | None => None end
      else match ord_upd z f l' with Some r => Some ((y, g) :: r) | None => None end
  end.
Definition q_upd (o : option Z) (f : og -> option og) (q : pgq) : option pgq :=
  match o with
  | Some z => match ord_upd z f (ordered q) with Some l => Some (mkQ l (regular q)) | None => None end
  | None => match f (regular q) with Some g => Some (mkQ (ordered q) g) | None => None end
  end.
(** 1865-1877 [remove_stream]: an empty queue goes away. *)
Fixpoint ord_remove (z : Z) (x : N) (l : list (Z * og)) : option (list (Z * og)) :=
  match l with
  | [] => Some []
  | (y, g) :: l' =>
      if (z =? y)%Z then
        match og_remove x g with
        | Some g' => Some (match vec g' with [] => l' | _ => (y, g') :: l' end)
        | None => None
        end
      else match ord_remove z x l' with Some r => Some ((y, g) :: r) | None => None end
  end.
Definition q_remove (o : option Z) (x : N) (q : pgq) : option pgq :=
  match o with
  | Some z => match ord_remove z x (ordered q) with Some l => Some (mkQ l (regular q)) | None => None end
  | None => match og_remove x (regular q) with Some g => Some (mkQ (ordered q) g) | None => None end
  end.
(** 1879-1883 [is_empty]. *)
Definition q_empty (q : pgq) : bool := match vec (regular q), ordered q with [], [] => true | _, _ => false end.

(** What the scheduler knows of a stream, and 1886-1932 [SendStreams]; maps that keep the order of insertion are lists. *)
Record strm := mkStrm { m_id : N; m_fair : bool; m_order : option Z; m_group : option N }.
Record sched := mkS { streams : list strm; groups : list (N * pgq); gnext : nat; fnext : nat }.
Definition s_new : sched := mkS [] [] 0 0.
(** 1937 [NULL_GROUP_ID]. *)
Definition NULL_GROUP : N := 0.
Definition get (x : N) (l : list strm) : option strm := List.find (fun t => m_id t =? x) l.
Definition upd (x : N) (f : strm -> strm) (l : list strm) : list strm := map (fun t => if m_id t =? x then f t else t) l.

(** Index of a group's queues with a default: [per_group.entry(gid).or_default()], then a change. *)
Fixpoint grp_upd (g : N) (f : pgq -> option pgq) (l : list (N * pgq)) : option (list (N * pgq)) :=
  match l with
  | [] => match f q_new with Some q => Some [(g, q)] | None => None end
  | (h, q) :: l' =>
      if h =? g then match f q with Some q' => Some ((h, q') :: l') | None => None end
      else match grp_upd g f l' with Some r => Some ((h, q) :: r) | None => None end
  end.
(** The same if the group exists: [per_group.get_mut(&gid)]. *)
Fixpoint grp_mod (g : N) (f : pgq -> option pgq) (l : list (N * pgq)) : option (list (N * pgq)) :=
  match l with
  | [] => Some []
  | (h, q) :: l' =>
      if h =? g then match f q with Some q' => Some ((h, q') :: l') | None => None end
      else match grp_mod g f l' with Some r => Some ((h, q) :: r) | None => None end
  end.
Definition with_groups (l : list (N * pgq)) (s : sched) : sched := mkS (streams s) l (gnext s) (fnext s).
Definition with_streams (l : list strm) (s : sched) : sched := mkS l (groups s) (gnext s) (fnext s).
(** 1955-1967 [insert_into_group]. *)
Definition insert_into_group (g x : N) (o : option Z) (s : sched) : option sched :=
  match grp_upd g (q_upd o (og_insert x)) (groups s) with Some l => Some (with_groups l s) | None => None end.
(** 1971-1986 [remove_from_group]. *)
Definition clamp (n len : nat) : nat := if Nat.leb len n then 0 else n.
Definition remove_from_group (g x : N) (o : option Z) (s : sched) : option sched :=
  match grp_mod g (q_remove o x) (groups s) with
  | None => None
  | Some l =>
      let l' := filter (fun e => negb ((fst e =? g) && q_empty (snd e))) l in
      Some (mkS (streams s) l' (if Nat.eqb (length l') (length l) then gnext s else clamp (gnext s) (length l')) (fnext s))
  end.

(** The outcome of a call: done, or one of the two errors. *)
Inductive res := Rok | RInvalidStreamId | RInvalidInput.
Definition set_group (g : option N) (t : strm) : strm := mkStrm (m_id t) (m_fair t) (m_order t) g.
Definition set_order (o : option Z) (t : strm) : strm := mkStrm (m_id t) (m_fair t) o (m_group t).
Definition set_fair (b : bool) (t : strm) : strm := mkStrm (m_id t) b (m_order t) (m_group t).
(** [a.or_else(|| was_fair.then_some(NULL_GROUP_ID))]. *)
Definition queue_of (g : option N) (fair : bool) : option N := match g with Some _ => g | None => if fair then Some NULL_GROUP else None end.
Definition opt_eqb {A} (eqb : A -> A -> bool) (a b : option A) : bool :=
  match a, b with Some x, Some y => eqb x y | None, None => true | _, _ => false end.

(** 1996-2043 [set_sendgroup]. *)
Definition set_sendgroup (x : N) (g : option N) (s : sched) : option (sched * res) :=
  match get x (streams s) with
  | None => Some (s, RInvalidStreamId)
  | Some t =>
      if opt_eqb N.eqb g (Some NULL_GROUP) then Some (s, RInvalidInput)
      else if opt_eqb N.eqb (m_group t) g then Some (s, Rok)
      else if match g with Some _ => negb (m_fair t) | None => false end then Some (s, RInvalidInput)
      else
        match match queue_of (m_group t) (m_fair t) with Some h => remove_from_group h x (m_order t) s | None => Some s end with
        | None => None
        | Some s1 =>
            let s2 := with_streams (upd x (set_group g) (streams s1)) s1 in
            match match queue_of g (m_fair t) with Some h => insert_into_group h x (m_order t) s2 | None => Some s2 end with
            | None => None
            | Some s3 => Some (s3, Rok)
            end
        end
  end.
(** 2080-2126 [set_fairness]; 2107-2113: at the end if larger than the last, else by search. *)
Definition og_append (x : N) (g : og) : option og :=
  match List.rev (vec g) with
  | y :: _ => if y <? x then Some (mkOg (vec g ++ [x]) (next g)) else og_insert x g
  | [] => og_insert x g
  end.
Definition set_fairness (x : N) (b : bool) (s : sched) : option (sched * res) :=
  match get x (streams s) with
  | None => Some (s, RInvalidStreamId)
  | Some t =>
      let s1 := with_streams (upd x (set_fair b) (streams s)) s in
      if negb (m_fair t) && b then
        match m_group t with
        | Some _ => Some (s1, Rok)
        | None => match grp_upd NULL_GROUP (q_upd (m_order t) (og_append x)) (groups s1) with
                  | Some l => Some (with_groups l s1, Rok)
                  | None => None
                  end
        end
      else if m_fair t && negb b then
        match remove_from_group (match m_group t with Some g => g | None => NULL_GROUP end) x (m_order t) s1 with
        | Some s2 => Some (with_streams (upd x (set_group None) (streams s2)) s2, Rok)
        | None => None
        end
      else Some (s1, Rok)
  end.
(** 2050-2073 [set_sendorder]. *)
Definition set_sendorder (x : N) (o : option Z) (s : sched) : option (sched * res) :=
  match set_fairness x true s with
  | None => None
  | Some (s1, Rok) =>
      match get x (streams s1) with
      | None => Some (s1, RInvalidStreamId)
      | Some t =>
          if opt_eqb Z.eqb (m_order t) o then Some (s1, Rok)
          else
            let g := match m_group t with Some g => g | None => NULL_GROUP end in
            match grp_mod g (q_remove (m_order t) x) (groups s1) with
            | None => None
            | Some l =>
                let s2 := with_streams (upd x (set_order o) (streams s1)) (with_groups l s1) in
                match insert_into_group g x o s2 with Some s3 => Some (s3, Rok) | None => None end
            end
      end
  | Some (s1, r) => Some (s1, r)
  end.
(** 1951-1953 [insert] of a new stream (streams.rs: ids are used once; an id in use is left alone here). *)
Definition insert (x : N) (s : sched) : sched :=
  match get x (streams s) with
  | Some _ => s
  | None => with_streams (streams s ++ [mkStrm x false None None]) s
  end.
(** 2161-2189 [remove_ended]: [ended] lists the streams that have ended (2166 [has_ended]: there is one). *)
Fixpoint drop_all (ts : list strm) (l : list (N * pgq)) : option (list (N * pgq)) :=
  match ts with
  | [] => Some l
  | t :: ts' =>
      if m_fair t then
        match grp_mod (match m_group t with Some g => g | None => NULL_GROUP end) (q_remove (m_order t) (m_id t)) l with
        | Some l' => drop_all ts' l'
        | None => None
        end
      else drop_all ts' l
  end.
Definition remove_ended (ended : list N) (s : sched) : option sched :=
  let gone := filter (fun t => memb (m_id t) ended) (streams s) in
  match gone with
  | [] => Some s
  | _ =>
      let left := filter (fun t => negb (memb (m_id t) ended)) (streams s) in
      match drop_all gone (groups s) with
      | None => None
      | Some l =>
          let l' := filter (fun e => negb (q_empty (snd e))) l in
          Some (mkS left l' (clamp (gnext s) (length l')) (clamp (fnext s) (length left)))
      end
  end.

(** What the streams do with a packet: [has w p x]: stream [x] has something at priority [p] (777-811 [has_data_at]);
    [wr w p x]: it writes (813-831 [write_frames]): whether there is a STREAM frame, whether the packet is full;
    [room w]: bounds the STREAM frames the packet can still take. *)
Record writer (W : Type) := mkW { has : W -> N -> N -> bool; wr : W -> N -> N -> W * bool * bool; room : W -> nat }.
Arguments has {W}. Arguments wr {W}. Arguments room {W}. Arguments mkW {W}.
(** A stream's turn: passed over as it has nothing, or asked to write. *)
Inductive offer := Skip (x : N) | Visit (x : N) (wrote full : bool).
Inductive tend := TFull | TWrote | TDone.

(** 2207-2215: streams that are not fair, in the order they were made, to the one that fills the packet. *)
Fixpoint unfair {W} (k : writer W) (p : N) (l : list strm) (w : W) : W * list offer :=
  match l with
  | [] => (w, [])
  | t :: l' =>
      if m_fair t then unfair k p l' w
      else if negb (has k w p (m_id t)) then let (w1, o) := unfair k p l' w in (w1, Skip (m_id t) :: o)
      else let '(w1, wrote, full) := wr k w p (m_id t) in
           if full then (w1, [Visit (m_id t) wrote true])
           else let (w2, o) := unfair k p l' w1 in (w2, Visit (m_id t) wrote false :: o)
  end.
(** 2240-2270: one group without send orders; [off] counts from [start], [n] streams. *)
Fixpoint fast {W} (k : writer W) (p : N) (l : list strm) (start off todo : nat) (w : W) : W * list offer * option nat :=
  match todo with
  | O => (w, [], None)
  | S todo' =>
      let n := length l in
      let idx := Nat.modulo (start + off) n in
      match nth_error l idx with
      | None => fast k p l start (S off) todo' w
      | Some t =>
          if negb (m_fair t) then fast k p l start (S off) todo' w
          else if negb (has k w p (m_id t)) then
            let '(w1, o, e) := fast k p l start (S off) todo' w in (w1, Skip (m_id t) :: o, e)
          else let '(w1, wrote, full) := wr k w p (m_id t) in
               if full then (w1, [Visit (m_id t) wrote true], Some (Nat.modulo (S idx) n))
               else let '(w2, o, e) := fast k p l start (S off) todo' w1 in (w2, Visit (m_id t) wrote false :: o, e)
      end
  end.
(** 2318-2336 and 2344-2358: a queue, to the stream that writes or fills the packet. *)
Fixpoint scan {W} (k : writer W) (p : N) (live : list strm) (fuel : nat) (g : og) (started : option nat) (w : W)
  : option (og * W * list offer * tend) :=
  match fuel with
  | O => Some (g, w, [], TDone)
  | S f =>
      match it_next g started with
      | None => None
      | Some None => Some (g, w, [], TDone)
      | Some (Some (g1, st, x)) =>
          match get x live with
          | None => scan k p live f g1 st w
          | Some _ =>
              let '(w1, wrote, full) := wr k w p x in
              if full then Some (g1, w1, [Visit x wrote true], TFull)
              else if wrote then Some (g1, w1, [Visit x true false], TWrote)
              else match scan k p live f g1 st w1 with
                   | Some (g2, w2, o, e) => Some (g2, w2, Visit x false false :: o, e)
                   | None => None
                   end
          end
      end
  end.
Definition scan_all {W} (k : writer W) (p : N) (live : list strm) (g : og) (w : W) : option (og * W * list offer * tend) :=
  scan k p live (S (length (vec g))) (og_iter g) None w.
(** 2313-2337: the queues of a group by send order. *)
Fixpoint by_order {W} (k : writer W) (p : N) (live : list strm) (l : list (Z * og)) (w : W) : option (list (Z * og) * W * list offer * tend) :=
  match l with
  | [] => Some ([], w, [], TDone)
  | (z, g) :: l' =>
      match scan_all k p live g w with
      | None => None
      | Some (g1, w1, o1, TDone) =>
          match by_order k p live l' w1 with
          | Some (l2, w2, o2, e) => Some ((z, g1) :: l2, w2, o1 ++ o2, e)
          | None => None
          end
      | Some (g1, w1, o1, e) => Some ((z, g1) :: l', w1, o1, e)
      end
  end.
(** 2300-2359: a group's turn. *)
Definition turn {W} (k : writer W) (p : N) (live : list strm) (q : pgq) (w : W) : option (pgq * W * list offer * tend) :=
  match by_order k p live (ordered q) w with
  | None => None
  | Some (l1, w1, o1, TDone) =>
      match scan_all k p live (regular q) w1 with
      | Some (g2, w2, o2, e) => Some (mkQ l1 g2, w2, o1 ++ o2, e)
      | None => None
      end
  | Some (l1, w1, o1, e) => Some (mkQ l1 (regular q), w1, o1, e)
  end.
Definition replace {A} (i : nat) (a : A) (l : list A) : list A := firstn i l ++ a :: skipn (S i) l.
(** 2295-2360: a pass over the groups; [any]: a STREAM frame was written; the index of the group that filled the packet. *)
Fixpoint pass {W} (k : writer W) (p : N) (live : list strm) (start i todo : nat) (any : bool) (gs : list (N * pgq)) (w : W)
  : option (list (N * pgq) * W * list offer * bool * option nat) :=
  match todo with
  | O => Some (gs, w, [], any, None)
  | S todo' =>
      let idx := Nat.modulo (start + i) (length gs) in
      match nth_error gs idx with
      | None => pass k p live start (S i) todo' any gs w
      | Some (h, q) =>
          match turn k p live q w with
          | None => None
          | Some (q1, w1, o1, TFull) => Some (replace idx (h, q1) gs, w1, o1, any, Some idx)
          | Some (q1, w1, o1, e) =>
              match pass k p live start (S i) todo' (any || match e with TWrote => true | _ => false end) (replace idx (h, q1) gs) w1 with
              | Some (gs2, w2, o2, a, f) => Some (gs2, w2, o1 ++ o2, a, f)
              | None => None
              end
          end
      end
  end.
(** 2293-2366: passes until one writes nothing. *)
Fixpoint passes {W} (k : writer W) (p : N) (live : list strm) (start fuel : nat) (gs : list (N * pgq)) (w : W)
  : option (list (N * pgq) * W * list offer * option nat) :=
  match fuel with
  | O => None
  | S f =>
      match pass k p live start 0 (length gs) false gs w with
      | None => None
      | Some (gs1, w1, o1, _, Some idx) => Some (gs1, w1, o1, Some idx)
      | Some (gs1, w1, o1, false, None) => Some (gs1, w1, o1, None)
      | Some (gs1, w1, o1, true, None) =>
          match passes k p live start f gs1 w1 with
          | Some (gs2, w2, o2, e) => Some (gs2, w2, o1 ++ o2, e)
          | None => None
          end
      end
  end.
(** 2190-2370 [write_frames]: the fair part, then the whole.  The last component: the packet was filled by the fair part. *)
Definition write_fair {W} (k : writer W) (p : N) (s : sched) (w : W) : option (sched * W * list offer * bool) :=
  match groups s with
  | [] => Some (s, w, [], false)
  | (_, q) :: rest =>
      if match rest, ordered q with [], [] => true | _, _ => false end then
        let n := length (streams s) in
        let start := clamp (fnext s) n in
        let '(w1, o, e) := fast k p (streams s) start 0 n w in
        Some (mkS (streams s) (groups s) (gnext s) (match e with Some i => i | None => start end), w1, o, match e with Some _ => true | None => false end)
      else
        let n := length (groups s) in
        let start := clamp (gnext s) n in
        match passes k p (streams s) start (S (room k w)) (groups s) w with
        | None => None
        | Some (gs, w1, o, Some idx) => Some (mkS (streams s) gs (Nat.modulo (S idx) n) (fnext s), w1, o, true)
        | Some (gs, w1, o, None) => Some (mkS (streams s) gs (Nat.modulo (S start) n) (fnext s), w1, o, false)
        end
  end.
Definition write_frames {W} (k : writer W) (p : N) (s : sched) (w : W) : option (sched * W * list offer * list offer * bool) :=
  let (w1, o1) := unfair k p (streams s) w in
  match write_fair k p s w1 with
  | Some (s2, w2, o2, e) => Some (s2, w2, o1, o2, e)
  | None => None
  end.

(** Calls; [KWrite] has the world its packet starts from. *)
Inductive sop {W : Type} :=
| KInsert (x : N) | KFair (x : N) (b : bool) | KGroup (x : N) (g : option N) | KOrder (x : N) (o : option Z)
| KEnded (l : list N) | KClear | KWrite (p : N) (w : W).
Arguments sop W : clear implicits.
Inductive sout := SRes (r : res) | SOffers (u f : list offer) (full : bool).
(** 2152-2158 [clear]. *)
Definition step {W} (k : writer W) (o : sop W) (s : sched) : option (sched * sout) :=
  match o with
  | KInsert x => Some (insert x s, SRes Rok)
  | KFair x b => match set_fairness x b s with Some (s1, r) => Some (s1, SRes r) | None => None end
  | KGroup x g => match set_sendgroup x g s with Some (s1, r) => Some (s1, SRes r) | None => None end
  | KOrder x z => match set_sendorder x z s with Some (s1, r) => Some (s1, SRes r) | None => None end
  | KEnded l => match remove_ended l s with Some s1 => Some (s1, SRes Rok) | None => None end
  | KClear => Some (s_new, SRes Rok)
  | KWrite p w => match write_frames k p s w with Some (s1, _, u, f, e) => Some (s1, SOffers u f e) | None => None end
  end.
Fixpoint run {W} (k : writer W) (os : list (sop W)) (s : sched) : option (sched * list sout) :=
  match os with
  | [] => Some (s, [])
  | o :: os' =>
      match step k o s with
      | None => None
      | Some (s1, r) => match run k os' s1 with Some (s2, rs) => Some (s2, r :: rs) | None => None end
      end
  end.
