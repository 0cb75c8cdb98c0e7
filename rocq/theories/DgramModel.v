(** Model of datagrams to be sent and received: neqo-transport/src/quic_datagrams.rs; saved
    undecryptable packets: neqo-transport/src/saved.rs. *)
From Verif Require Import Base Lib.

(** quic_datagrams.rs:44-75 [QuicDatagram], [QuicDatagrams].  A datagram is its length and an identity (its content and its
    tracking). *)
Record dgram := mkDg { dg_len : N; dg_id : N }.
Record dgs := mkDgs { q_local : N; q_remote : N; q_max : N; q_list : list dgram }.
(** quic_datagrams.rs:77-89 [new]; 95-97 [set_remote_datagram_size]. *)
Definition dgs_new (local max : N) : dgs := mkDgs local 0 max [].
Definition dgs_remote (v : N) (q : dgs) : dgs := mkDgs (q_local q) (N.min v 65535) (q_max q) (q_list q).
Definition vlen (v : N) : N := if v <? 64 then 1 else if v <? 16384 then 2 else if v <? 1073741824 then 4 else 8.
(** What happens to a datagram: placed in the packet, with or without a length; dropped. *)
Inductive fate := Placed (d : dgram) (with_len : bool) | TooBig (d : dgram) | QueueFull (d : dgram).
(** quic_datagrams.rs:103-141 [write_frames]: [rem] is the space left in the packet, [empty] whether the packet has
    no tokens yet. *)
Fixpoint dg_write (rem : N) (empty : bool) (l : list dgram) : list dgram * list fate :=
  match l with
  | [] => ([], [])
  | d :: l' =>
      if dg_len d + 1 <=? rem then
        let ll := vlen (dg_len d) in
        if 1 + ll + dg_len d + 2 <=? rem then
          let '(r, f) := dg_write (rem - (1 + ll + dg_len d)) false l' in (r, Placed d true :: f)
        else let '(r, f) := dg_write 0 false l' in (r, Placed d false :: f)
      else if empty then let '(r, f) := dg_write rem empty l' in (r, TooBig d :: f)
      else (l, [])
  end.
Definition dgs_write (rem : N) (empty : bool) (q : dgs) : dgs * list fate :=
  let '(r, f) := dg_write rem empty (q_list q) in (mkDgs (q_local q) (q_remote q) (q_max q) r, f).
(** quic_datagrams.rs:150-180 [add_datagram]; [None] is an error (too much data, or internal if nothing may be queued). *)
Definition dgs_add (d : dgram) (q : dgs) : option (dgs * list fate) :=
  if q_remote q <? dg_len d then None
  else if lenN (q_list q) =? q_max q then
    match q_list q with
    | [] => None
    | h :: l => Some (mkDgs (q_local q) (q_remote q) (q_max q) (l ++ [d]), [QueueFull h])
    end
  else Some (mkDgs (q_local q) (q_remote q) (q_max q) (q_list q ++ [d]), []).
(** quic_datagrams.rs:182-188 [handle_datagram]: whether it is delivered; otherwise it is a protocol violation. *)
Definition dgs_handle (len : N) (q : dgs) : bool := negb ((q_local q =? 0) || (q_local q <? len)).
Inductive dop := DAdd (d : dgram) | DWrite (rem : N) (empty : bool) | DRemote (v : N).
Definition dg_step (q : dgs) (o : dop) : dgs * list fate :=
  match o with
  | DAdd d => match dgs_add d q with Some r => r | None => (q, []) end
  | DWrite rem empty => dgs_write rem empty q
  | DRemote v => (dgs_remote v q, [])
  end.
Fixpoint dg_run (q : dgs) (ops : list dop) : dgs * list fate :=
  match ops with [] => (q, []) | o :: ops' => let '(q1, f) := dg_step q o in let '(q2, f') := dg_run q1 ops' in (q2, f ++ f') end.

(** * Saved packets *)
(** saved.rs:20-25 [SavedDatagrams]: of the handshake ([false]) and of application data ([true]). *)
Record saved := mkSv { v_hs : list N; v_app : list N; v_avail : option bool }.
Definition CAPACITY : N := 4.
Definition sv_new : saved := mkSv [] [] None.
(** saved.rs:32-38 [store]. *)
Definition sv_store (e : bool) (s : saved) : list N := if e then v_app s else v_hs s.
Definition sv_put (e : bool) (l : list N) (s : saved) : saved := if e then mkSv (v_hs s) l (v_avail s) else mkSv l (v_app s) (v_avail s).
(** saved.rs:45-54 [save]. *)
Definition sv_save (e : bool) (d : N) (s : saved) : saved := if lenN (sv_store e s) <? CAPACITY then sv_put e (sv_store e s ++ [d]) s else s.
(** saved.rs:56-62 [make_available]. *)
Definition sv_make (e : bool) (s : saved) : saved := match sv_store e s with [] => s | _ => mkSv (v_hs s) (v_app s) (Some e) end.
(** saved.rs:68-72 [take_saved]. *)
Definition sv_take (s : saved) : saved * list N :=
  match v_avail s with
  | None => (s, [])
  | Some e => (sv_put e [] (mkSv (v_hs s) (v_app s) None), sv_store e s)
  end.
Inductive sop := SSave (e : bool) (d : N) | SMake (e : bool) | STake.
(** The state, what was handed back (with its epoch) and what was kept. *)
Definition sv_step (s : saved) (o : sop) : saved * list (bool * N) :=
  match o with
  | SSave e d => (sv_save e d s, [])
  | SMake e => (sv_make e s, [])
  | STake => let '(s', l) := sv_take s in (s', match v_avail s with Some e => map (fun d => (e, d)) l | None => [] end)
  end.
Fixpoint sv_run (s : saved) (ops : list sop) : saved * list (bool * N) :=
  match ops with [] => (s, []) | o :: ops' => let '(s1, l) := sv_step s o in let '(s2, l') := sv_run s1 ops' in (s2, l ++ l') end.
