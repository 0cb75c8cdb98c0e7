(** Model of connection ID management: neqo-transport/src/cid.rs. *)
From Verif Require Import Base Lib.

(** cid.rs:264-310 [ConnectionIdEntry]; a reset token is an opaque number. *)
Record entry := mkE { e_seq : N; e_cid : list N; e_tok : N }.
Definition cid_eqb (a b : list N) : bool := if list_eq_dec N.eq_dec a b then true else false.
Definition SEQNO_ODCID : N := 18446744073709551615.
Definition SEQNO_EMPTY : N := 18446744073709551614.
Definition ACTIVE_LIMIT : N := 8.
Definition is_nil (c : list N) : bool := match c with [] => true | _ => false end.
(** cid.rs:343-346 [is_empty]; 300-303 [any_part_equal]. *)
Definition e_empty (e : entry) : bool := (e_seq e =? SEQNO_EMPTY) || is_nil (e_cid e).
Definition any_part (a b : entry) : bool := (e_seq a =? e_seq b) || cid_eqb (e_cid a) (e_cid b) || (e_tok a =? e_tok b).
Definition e_eqb (a b : entry) : bool := (e_seq a =? e_seq b) && cid_eqb (e_cid a) (e_cid b) && (e_tok a =? e_tok b).

(** * Connection IDs of the peer *)
(** cid.rs:427: the insertion at the place a binary search gives; the entries are sorted (proved as
    [CidProps.remote_store_consistent]), so it is before the first larger number. *)
Fixpoint insert_sorted (e : entry) (l : list entry) : list entry :=
  match l with [] => [e] | x :: l' => if e_seq e <? e_seq x then e :: l else x :: insert_sorted e l' end.
(** cid.rs:413-433 [add_remote]; [None] is a protocol violation. *)
Definition add_remote (e : entry) (l : list entry) : option (list entry) :=
  if existsb (fun c => e_eqb c e) l then Some l
  else if existsb (fun c => any_part c e) l then None
  else Some (insert_sorted e l).
(** cid.rs:436-449 [retire_prior_to]. *)
Definition gone (n : N) (e : entry) : bool := negb (e_empty e) && (e_seq e <? n).
Definition retire_prior_to (n : N) (l : list entry) : list entry * list N := (filter (fun e => negb (gone n e)) l, map e_seq (filter (gone n) l)).
(** cid.rs:396-403 [next]. *)
Definition store_next (l : list entry) : list entry * option entry := match l with [] => ([], None) | e :: l' => (l', Some e) end.
Inductive rop := RAdd (e : entry) | RPrior (n : N) | RNext.
(** A refused entry leaves the store as it is. *)
Definition r_step (l : list entry) (o : rop) : list entry :=
  match o with
  | RAdd e => match add_remote e l with Some l' => l' | None => l end
  | RPrior n => fst (retire_prior_to n l)
  | RNext => fst (store_next l)
  end.
Definition r_run (l : list entry) (ops : list rop) : list entry := fold_left r_step ops l.

(** * Our connection IDs *)
(** cid.rs:470-484 [ConnectionIdManager]; [g_empty]: the generator makes empty connection IDs. *)
Record mgr := mkG { g_empty : bool; g_ids : list (N * list N); g_limit : N; g_next : N; g_lost : list entry }.
(** cid.rs:508-526 [new]. *)
Definition mgr_new (empty : bool) (initial : list N) : mgr := mkG empty [(0, initial)] 2 1 [].
(** varint_len, neqo-common/src/codec.rs *)
Definition vlen (v : N) : N := if v <? 64 then 1 else if v <? 16384 then 2 else if v <? 1073741824 then 4 else 8.
(** cid.rs:316-340 [write]: the length of the frame. *)
Definition frame_len (e : entry) : N := 1 + vlen (e_seq e) + 1 + 1 + lenN (e_cid e) + 16.
(** cid.rs:540-563 [preferred_address_cid], given what the generator answers; the second result is
    what is returned, [None] an error.  [None] as a whole: a failed assertion. *)
Definition mgr_preferred (gen : option (list N)) (tok : N) (g : mgr) : option (mgr * option entry) :=
  if g_empty g then Some (g, None)
  else match gen with
       | None => Some (g, None)
       | Some cid => if is_nil cid || negb (g_next g =? 1) then None
                     else Some (mkG (g_empty g) (g_ids g ++ [(g_next g, cid)]) (g_limit g) (g_next g + 1) (g_lost g), Some (mkE (g_next g) cid tok))
       end.
(** cid.rs:566-568 [is_valid]. *)
Definition mgr_valid (cid : list N) (g : mgr) : bool := existsb (fun p => cid_eqb (snd p) cid) (g_ids g).
(** cid.rs:571-594 [retire]; [None] is a protocol violation. *)
Definition mgr_retire (seq : N) (g : mgr) : option mgr :=
  if g_next g <=? seq then None
  else if (seq =? SEQNO_EMPTY) || existsb (fun p => (fst p =? seq) && is_nil (snd p)) (g_ids g) then Some g
  else Some (mkG (g_empty g) (filter (fun p => negb (fst p =? seq)) (g_ids g)) (g_limit g) (g_next g) (filter (fun e => negb (e_seq e =? seq)) (g_lost g))).
(** cid.rs:597-608 [add_odcid], [remove_odcid]. *)
Definition mgr_add_odcid (cid : list N) (g : mgr) : mgr := mkG (g_empty g) (g_ids g ++ [(SEQNO_ODCID, cid)]) (g_limit g) (g_next g) (g_lost g).
Definition mgr_remove_odcid (g : mgr) : mgr := mkG (g_empty g) (filter (fun p => negb (fst p =? SEQNO_ODCID)) (g_ids g)) (g_limit g) (g_next g) (g_lost g).
(** cid.rs:610-614 [set_limit]; [None]: a failed debug assertion. *)
Definition mgr_limit (l : N) (g : mgr) : option mgr := if l <? 2 then None else Some (mkG (g_empty g) (g_ids g) (N.min 8 l) (g_next g) (g_lost g)).
(** cid.rs:634-643: frames that were lost, from the last on, while they fit.  The list is given in
    the order in which it is used up. *)
Fixpoint write_lost (rem : N) (l : list entry) : N * list entry * list entry :=
  match l with
  | [] => (rem, [], [])
  | e :: l' => if rem <? frame_len e then (rem, l, [])
               else let '(rem', rest, out) := write_lost (rem - frame_len e) l' in (rem', rest, e :: out)
  end.
(** cid.rs:648-664: new ones.  [gens] is what the generator answers, each time it is asked, and the tokens drawn;
    [None] when the loop is not done after those answers, an assertion fails, or the number is too large for a frame. *)
Fixpoint write_new (rem : N) (gens : list (option (list N) * N)) (g : mgr) : option (mgr * list entry) :=
  if (lenN (g_ids g) <? g_limit g) && (47 <=? rem) then
    match gens with
    | [] => None
    | (None, _) :: gens' => write_new rem gens' g
    | (Some cid, tok) :: gens' =>
        if is_nil cid || (2 ^ 62 <=? g_next g) then None
        else let e := mkE (g_next g) cid tok in
             let g' := mkG (g_empty g) (g_ids g ++ [(g_next g, cid)]) (g_limit g) (g_next g + 1) (g_lost g) in
             match write_new (if rem <? frame_len e then rem else rem - frame_len e) gens' g' with
             | Some (g'', out) => Some (g'', if rem <? frame_len e then out else e :: out)
             | None => None
             end
    end
  else Some (g, []).
(** cid.rs:616-665 [write_frames]: the frames written, in order. *)
Definition mgr_write (rem : N) (gens : list (option (list N) * N)) (g : mgr) : option (mgr * list entry) :=
  if g_empty g then Some (g, [])
  else let '(rem', rest, out) := write_lost rem (List.rev (g_lost g)) in
       match write_new rem' gens (mkG (g_empty g) (g_ids g) (g_limit g) (g_next g) (List.rev rest)) with
       | Some (g', out') => Some (g', out ++ out')
       | None => None
       end.
(** cid.rs:667-675 [lost], [acked]. *)
Definition mgr_lost (e : entry) (g : mgr) : mgr := mkG (g_empty g) (g_ids g) (g_limit g) (g_next g) (g_lost g ++ [e]).
Definition mgr_acked (e : entry) (g : mgr) : mgr := mkG (g_empty g) (g_ids g) (g_limit g) (g_next g) (filter (fun x => negb (e_seq x =? e_seq e)) (g_lost g)).

Inductive gop := GWrite (rem : N) (gens : list (option (list N) * N)) | GRetire (seq : N) | GLost (e : entry) | GAcked (e : entry) | GLimit (l : N)
  | GAddOd (cid : list N) | GRemoveOd | GPreferred (gen : option (list N)) (tok : N).
(** The state and the entries told to the peer.  A refused retirement ends the connection: here it leaves the state. *)
Definition g_step (g : mgr) (o : gop) : option (mgr * list entry) :=
  let quiet x := match x with Some g' => Some (g', []) | None => None end in
  match o with
  | GWrite rem gens => mgr_write rem gens g
  | GRetire seq => Some (match mgr_retire seq g with Some g' => g' | None => g end, [])
  | GLost e => quiet (Some (mgr_lost e g))
  | GAcked e => quiet (Some (mgr_acked e g))
  | GLimit l => quiet (mgr_limit l g)
  | GAddOd cid => quiet (Some (mgr_add_odcid cid g))
  | GRemoveOd => quiet (Some (mgr_remove_odcid g))
  | GPreferred gen tok => match mgr_preferred gen tok g with Some (g', Some e) => Some (g', [e]) | Some (g', None) => Some (g', []) | None => None end
  end.
(** The final state, and all entries told to the peer, in order. *)
Fixpoint g_run (g : mgr) (ops : list gop) : option (mgr * list entry) :=
  match ops with
  | [] => Some (g, [])
  | o :: ops' => match g_step g o with
                 | Some (g1, out) => match g_run g1 ops' with Some (g2, out') => Some (g2, out ++ out') | None => None end
                 | None => None
                 end
  end.
