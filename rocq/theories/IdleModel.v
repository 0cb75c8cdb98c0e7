(** Model of the idle timeout: neqo-transport/src/connection/idle.rs. *)
From Verif Require Import Base Lib.

(** idle.rs:19-38 [IdleTimeoutState], [IdleTimeout]; times are numbers of nanoseconds. *)
Inductive istate := IInit | IReceived (t : N) | IElicited (t : N).
Record idle := mkIdle { d_timeout : N; d_state : istate; d_keep : bool }.
(** idle.rs:41-47 [new]. *)
Definition idle_new (timeout : N) : idle := mkIdle timeout IInit false.
(** idle.rs:48-50 [set_peer_timeout]; connection/mod.rs:3066-3076: a peer's timeout of zero is none. *)
Definition idle_peer (p : N) (d : idle) : idle := if 0 <? p then mkIdle (N.min (d_timeout d) p) (d_state d) (d_keep d) else d.
(** idle.rs:52-57 [start]. *)
Definition idle_start (now : N) (d : idle) : N := match d_state d with IInit => now | IReceived t | IElicited t => t end.
(** idle.rs:59-64 [expiry]. *)
Definition idle_expiry (now pto : N) (d : idle) : N := idle_start now d + N.max (d_timeout d) (pto * 3).
(** idle.rs:66-84 [on_packet_sent], called for ack-eliciting packets (connection/mod.rs:2886-2889). *)
Definition idle_sent (now : N) (d : idle) : idle :=
  match d_state d with IElicited _ => d | _ => mkIdle (d_timeout d) (IElicited now) (d_keep d) end.
(** idle.rs:86-99 [on_packet_received]. *)
Definition idle_received (now : N) (d : idle) : idle :=
  match d_state d with
  | IInit => mkIdle (d_timeout d) (IReceived now) (d_keep d)
  | IReceived t | IElicited t => if t <=? now then mkIdle (d_timeout d) (IReceived now) (d_keep d) else d
  end.
(** idle.rs:101-103 [expired]. *)
Definition idle_expired (now pto : N) (d : idle) : bool := idle_expiry now pto d <=? now.
(** idle.rs:105-109 [keep_alive_timeout]. *)
Definition keep_alive_at (now pto : N) (d : idle) : N := idle_start now d + N.max (d_timeout d / 2) pto.
(** idle.rs:111-124 [next_keep_alive]. *)
Definition next_keep_alive (now pto : N) (d : idle) : option N :=
  if d_keep d then None else let t := keep_alive_at now pto d in if t <=? now then None else Some t.
(** idle.rs:126-139 [send_keep_alive]. *)
Definition send_keep_alive (now pto : N) (d : idle) : idle * bool :=
  if negb (d_keep d) && (keep_alive_at now pto d <=? now) then (mkIdle (d_timeout d) (d_state d) true, true) else (d, false).
(** idle.rs:141-147 [lost_keep_alive], [ack_keep_alive]. *)
Definition keep_alive_done (d : idle) : idle := mkIdle (d_timeout d) (d_state d) false.

Inductive iop := IRecv (t : N) | ISent (t : N) | IPeer (p : N) | IKeep (t pto : N) | IKeepDone.
Definition idle_step (d : idle) (o : iop) : idle :=
  match o with
  | IRecv t => idle_received t d
  | ISent t => idle_sent t d
  | IPeer p => idle_peer p d
  | IKeep t pto => fst (send_keep_alive t pto d)
  | IKeepDone => keep_alive_done d
  end.
Definition idle_run (d : idle) (ops : list iop) : idle := fold_left idle_step ops d.
