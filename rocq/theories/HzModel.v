(** An HTTP/3 server over all its connections: /repo/neqo-http3/src/server.rs [process_multiple], [process_http3], [process_events] and
    server_events.rs, on top of /repo/neqo-transport/src/server.rs [process_multiple]. *)
From Coq Require Import NArith List Bool PeanoNat.
Import ListNotations.
Open Scope N_scope.

(** What a transport connection tells the HTTP/3 layer while it lives: something the layer passes on (what it makes of it is C93, C96, C102, C108 and
    C109), a priority update, or that it is closing or draining; only the first of these two makes what was told before stale
    (neqo-transport/src/events.rs 152-159). *)
Inductive nev := NOther (n : N) | NPriority (s p : N) | NEnding (clears : bool).
Inductive tev := TEv (e : nev) | TShut.
(** What the server's application is told; server_events.rs 247-279. A priority update names a stream, but no connection. *)
Inductive oev := OOther (k : nat) (n : N) | OPriority (s p : N) | OEnding (k : nat) | OClosed (k : nat).
(** A transport connection: events not yet taken; whether it is closed; when a timer closes it (connection/mod.rs 1048-1115 [process_timer]: the closing or
    draining period, or the idle timeout). *)
Record conn := mkC { c_q : list tev; c_shut : bool; c_timer : option N }.
(** events.rs 152-159. *)
Definition push (q : list tev) (e : tev) : list tev :=
  match e with TShut | TEv (NEnding true) => [e] | _ => q ++ [e] end.
(** connection_server.rs 25-47 [Http3ServerHandler]: how far the connection's end was noticed; whether the application called something that needs
    processing; whether streams have data to send; events that the application's own calls raised. *)
Inductive hst := HOpen | HClosing | HClosed.
Record hand := mkH { h_st : hst; h_needs : bool; h_pending : bool; h_own : list N }.
Definition h_new : hand := mkH HOpen false false [].
(** connection_server.rs 218-226 [should_be_processed]; the flag is reset when it is seen set. *)
Definition due (h : hand) : bool := h_needs h || (h_pending h || negb (match h_own h with [] => true | _ => false end)).
(** connection.rs 598-645 [handle_state_change], and connection_server.rs 247-299 [check_connection_events]. Errors, on which the layer itself closes
    the connection, are left out. *)
Definition h_one (k : nat) (st : hst) (e : tev) : hst * list oev :=
  match e with
  | TEv (NOther n) => (st, [OOther k n])
  | TEv (NPriority s p) => (st, [OPriority s p])
  | TEv (NEnding _) => match st with HOpen => (HClosing, [OEnding k]) | _ => (st, []) end
  | TShut => match st with HClosed => (st, []) | _ => (HClosed, [OClosed k]) end
  end.
Fixpoint h_take (k : nat) (st : hst) (q : list tev) : hst * list oev :=
  match q with [] => (st, []) | e :: r => let '(st1, a) := h_one k st e in let '(st2, b) := h_take k st1 r in (st2, a ++ b) end.
(** The server: how many connections it ever had, each with its place in that order standing for its identity; the connections, which live on while the
    HTTP/3 layer refers to them; those that the transport server still knows; the handlers; the events told and not yet taken, and taken. *)
Record srv := mkS { v_n : nat; v_conn : nat -> conn; v_live : nat -> bool; v_hand : nat -> option hand; v_queue : list oev; v_taken : list oev }.
Definition set {A} (f : nat -> A) (k : nat) (x : A) : nat -> A := fun i => if Nat.eqb i k then x else f i.
Definition s_init : srv := mkS 0 (fun _ => mkC [] true None) (fun _ => false) (fun _ => None) [] [].
Definition is_closed (e : oev) : bool := match e with OClosed _ => true | _ => false end.
(** server.rs 182-343 [process_events]. A handler that noticed the end takes no more from the transport (connection_server.rs 192-196). Whether streams
    still have data afterwards is [left]. *)
Definition process_events (left : nat -> bool) (s : srv) (k : nat) : srv :=
  let h := match v_hand s k with Some h => h | None => h_new end in
  let c := v_conn s k in
  let '(st, evs, c') := match h_st h with HClosed => (HClosed, [], c) | st0 => let '(st, e) := h_take k st0 (c_q c) in (st, e, mkC [] (c_shut c) (c_timer c)) end in
  let told := map (OOther k) (h_own h) ++ evs in
  mkS (v_n s) (set (v_conn s) k c') (v_live s) (set (v_hand s) k (if existsb is_closed told then None else Some (mkH st (h_needs h) (left k) [])))
    (v_queue s ++ told) (v_taken s).
(** server.rs 154-176 [process_http3]: the connections with events, and those whose handlers are due, in an order that is not defined ([ord]). *)
Definition selected (s : srv) (k : nat) : bool :=
  (v_live s k && negb (match c_q (v_conn s k) with [] => true | _ => false end)) || match v_hand s k with Some h => due h | None => false end.
Definition unmark (s : srv) : srv :=
  mkS (v_n s) (v_conn s) (v_live s) (fun k => option_map (fun h => mkH (h_st h) false (h_pending h) (h_own h)) (v_hand s k)) (v_queue s) (v_taken s).
Definition process_http3 (ord : list nat) (left : nat -> bool) (s : srv) : srv := fold_left (process_events left) (filter (selected s) ord) (unmark s).
(** transport server.rs 404-541: what input does: a new connection, or for a connection it knows: events, perhaps its end, and a new timer. *)
Inductive inp := INew (tm : option N) | IAt (k : nat) (es : list nev) (shut : bool) (tm : option N).
Definition input1 (s : srv) (i : inp) : srv :=
  match i with
  | INew tm => mkS (S (v_n s)) (set (v_conn s) (v_n s) (mkC [] false tm)) (set (v_live s) (v_n s) true) (v_hand s) (v_queue s) (v_taken s)
  | IAt k es sh tm =>
      let c := v_conn s k in
      if v_live s k && negb (c_shut c)
      then mkS (v_n s) (set (v_conn s) k (mkC (fold_left push (map TEv es ++ if sh then [TShut] else []) (c_q c)) sh tm)) (v_live s) (v_hand s) (v_queue s) (v_taken s)
      else s
  end.
Definition input (is : list inp) (s : srv) : srv := fold_left input1 is s.
(** transport server.rs 547-569 [process_next_output], over the connections it knows in their order: a connection whose time has come closes
    ([process_timer]); it may also give up by itself ([ADie]: too many probes); one that has something to send ends the round. [true]: something was sent. *)
Inductive oans := ASend | AQuiet | ADie.
Definition fires (now : N) (c : conn) : bool := match c_timer c with Some t => t <=? now | None => false end.
Fixpoint outputs (now : N) (ans : nat -> oans) (ks : list nat) (s : srv) : srv * bool :=
  match ks with
  | [] => (s, false)
  | k :: r =>
      let c := v_conn s k in
      if negb (v_live s k) || c_shut c then outputs now ans r s
      else if fires now c || match ans k with ADie => true | _ => false end
      then outputs now ans r (mkS (v_n s) (set (v_conn s) k (mkC (push (c_q c) TShut) true None)) (v_live s) (v_hand s) (v_queue s) (v_taken s))
      else match ans k with ASend => (s, true) | _ => outputs now ans r s end
  end.
(** 609-612: closed connections are forgotten. *)
Definition clean (s : srv) : srv := mkS (v_n s) (v_conn s) (fun k => v_live s k && negb (c_shut (v_conn s k))) (v_hand s) (v_queue s) (v_taken s).
Definition transport_output (now : N) (ans : nat -> oans) (s : srv) : srv :=
  let '(s1, sent) := outputs now ans (seq 0 (v_n s)) s in if sent then s1 else clean s1.
(** What is done to the server: [process_multiple] (http3 server.rs 133-152: input; the HTTP/3 layer; unless input was answered at once, the rest of the input
    and, unless that was answered, output), a call of the application on a connection's handler, and the application taking an event. *)
Record round := mkR { r_in : list inp; r_answered : bool; r_ord : list nat; r_left : nat -> bool; r_in2 : list inp; r_answered2 : bool; r_now : N; r_ans : nat -> oans }.
Inductive op := SProcess (r : round) | SApp (k : nat) (pending : bool) (own : list N) | STake.
Definition process (r : round) (s : srv) : srv :=
  let s1 := process_http3 (r_ord r) (r_left r) (input (r_in r) s) in
  if r_answered r then s1
  else let s2 := input (r_in2 r) s1 in if r_answered2 r then s2 else transport_output (r_now r) (r_ans r) s2.
Definition step (s : srv) (o : op) : srv :=
  match o with
  | SProcess r => process r s
  | SApp k p own =>
      match v_hand s k with
      | Some h => mkS (v_n s) (v_conn s) (v_live s) (set (v_hand s) k (Some (mkH (h_st h) true (h_pending h || p) (h_own h ++ own)))) (v_queue s) (v_taken s)
      | None => s
      end
  | STake => match v_queue s with [] => s | e :: q => mkS (v_n s) (v_conn s) (v_live s) (v_hand s) q (v_taken s ++ [e]) end
  end.
Definition run (s : srv) (os : list op) : srv := fold_left step os s.
