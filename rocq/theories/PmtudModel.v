(** Model of path MTU discovery: neqo-transport/src/pmtud.rs. *)
From Verif Require Import Base Lib.

(** pmtud.rs:25-38: the sizes tried, [MAX_PROBES], [PMTU_RAISE_TIMER] (in seconds). *)
Definition sizes4 : list N := [1280; 1380; 1420; 1472; 1500; 2047; 4095; 8191; 16383; 32767; 65535].
Definition sizes6 : list N := [1280; 1380; 1420; 1470; 1500; 2047; 4095; 8191; 16383; 32767; 65535].
Definition MAX_PROBES : N := 3.
Definition RAISE : N := 600.
(** pmtud.rs:40-62 [Probe], [Pmtud]. *)
Inductive probe := NotNeeded | Needed | Sent.
Record pmtud := mkM { m_v6 : bool; m_mtu : N; m_iface : N; m_peer : option N; m_idx : nat; m_count : N; m_probe : probe; m_timer : option N }.
(** pmtud.rs:64-81 [search_table], [header_size]. *)
Definition tbl (v6 : bool) : list N := if v6 then sizes6 else sizes4.
Definition hdr (v6 : bool) : N := if v6 then 48 else 28.
(** Indexing; that the index is within the table is [PmtudProps.index_in_table]. *)
Definition size_at (v6 : bool) (i : nat) : N := nth i (tbl v6) 0.
(** pmtud.rs:83-99 [new]. *)
Definition pm_new (v6 : bool) (iface : option N) : pmtud :=
  mkM v6 (size_at v6 0) (match iface with Some i => i | None => 18446744073709551615 end) None 0 0 NotNeeded None.
(** pmtud.rs:105-114 [set_mtu]; the log is left out. *)
Definition set_mtu (i : nat) (m : pmtud) : pmtud := mkM (m_v6 m) (size_at (m_v6 m) i) (m_iface m) (m_peer m) (m_idx m) (m_count m) (m_probe m) (m_timer m).
(** pmtud.rs:117-119 [set_peer_max_udp_payload]. *)
Definition pm_peer (p : N) (m : pmtud) : pmtud := mkM (m_v6 m) (m_mtu m) (m_iface m) (Some p) (m_idx m) (m_count m) (m_probe m) (m_timer m).
(** pmtud.rs:138-155 [plpmtu], [needs_probe], [probe_size]. *)
Definition plpmtu (m : pmtud) : N := m_mtu m - hdr (m_v6 m).
Definition needs_probe (m : pmtud) : bool := match m_probe m with Needed => true | _ => false end.
Definition probe_size (m : pmtud) : N := size_at (m_v6 m) (m_idx m) - hdr (m_v6 m).
(** pmtud.rs:158-180 [send_probe]. *)
Definition pm_send (m : pmtud) : pmtud := mkM (m_v6 m) (m_mtu m) (m_iface m) (m_peer m) (m_idx m) (m_count m + 1) Sent (m_timer m).
(** pmtud.rs:221-233 [stop]. *)
Definition pm_stop (i : nat) (now : N) (m : pmtud) : pmtud := mkM (m_v6 m) (size_at (m_v6 m) i) (m_iface m) (m_peer m) i 0 NotNeeded (Some (now + RAISE)).
(** pmtud.rs:281-284: the largest size worth trying. *)
Definition mtu_limit (m : pmtud) : N :=
  match m_peer m with None => m_iface m | Some p => N.min (m_iface m) (N.min (p + hdr (m_v6 m)) 18446744073709551615) end.
(** pmtud.rs:271-303 [next]. *)
Definition pm_next (now : N) (m : pmtud) : pmtud :=
  if (m_idx m =? length (tbl (m_v6 m)) - 1)%nat then pm_stop (m_idx m) now m
  else if mtu_limit m <? size_at (m_v6 m) (m_idx m + 1) then pm_stop (m_idx m) now m
  else mkM (m_v6 m) (m_mtu m) (m_iface m) (m_peer m) (m_idx m + 1) 0 Needed (m_timer m).
(** pmtud.rs:198-219 [on_packets_acked], given the number of probes among the packets. *)
Definition pm_acked (n : N) (now : N) (m : pmtud) : pmtud := if n =? 0 then m else set_mtu (m_idx m) (pm_next now m).
(** pmtud.rs:237-260 [on_packets_lost]. *)
Definition pm_lost (n : N) (now : N) (m : pmtud) : pmtud :=
  if n =? 0 then m
  else if MAX_PROBES <=? m_count m then pm_stop (m_idx m - 1) now m
  else mkM (m_v6 m) (m_mtu m) (m_iface m) (m_peer m) (m_idx m) (m_count m) Needed (m_timer m).
(** pmtud.rs:262-268 [start]. *)
Definition pm_start (now : N) (m : pmtud) : pmtud :=
  set_mtu 0 (pm_next now (mkM (m_v6 m) (m_mtu m) (m_iface m) (m_peer m) 0 (m_count m) (m_probe m) None)).
(** pmtud.rs:127-133 [maybe_fire_raise_timer]. *)
Definition pm_timer (now : N) (m : pmtud) : pmtud :=
  match m_probe m, m_timer m with
  | NotNeeded, Some t => if t <=? now then pm_next now (mkM (m_v6 m) (m_mtu m) (m_iface m) (m_peer m) (m_idx m) (m_count m) (m_probe m) None) else m
  | _, _ => m
  end.

(** A history: a probe is sent only when needed (connection/mod.rs:2582-2594).  Reports name the probes by
    their place among all probes sent. *)
Inductive mop := MStart (now : N) | MSend | MAcked (ids : list nat) (now : N) | MLost (ids : list nat) (now : N) | MTimer (now : N) | MPeer (p : N).
Definition pm_step (m : pmtud) (o : mop) : pmtud :=
  match o with
  | MStart now => pm_start now m
  | MSend => if needs_probe m then pm_send m else m
  | MAcked ids now => pm_acked (lenN ids) now m
  | MLost ids now => pm_lost (lenN ids) now m
  | MTimer now => pm_timer now m
  | MPeer p => pm_peer p m
  end.
Definition pm_run (m : pmtud) (ops : list mop) : pmtud := fold_left pm_step ops m.
