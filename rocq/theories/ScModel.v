(** SCONE throughput advice: neqo-transport/src/scone.rs, path.rs 688-706. *)
From Coq Require Import NArith List Bool.
Import ListNotations.
Open Scope N_scope.

(** scone.rs 53-76 [Bitrate]; 78-83 [From<(u8, u32)>]: six bits of the first byte and the top bit of the version. *)
Definition UNKNOWN : N := 127.
Definition bitrate (first version : N) : N := N.lor (N.shiftr version 31) (N.land (N.shiftl (N.land first 0x3f) 1) 0xff).
Definition is_set (r : N) : bool := negb (r =? UNKNOWN).
(** 12-18 [Scone], [PERIOD] in nanoseconds. *)
Record scone := mkSc { sc_updated : N; sc_rate : N }.
Definition PERIOD : N := 67 * 1000000000.
(** 26-29 [expired]. *)
Definition expired (s : scone) (now : N) : bool := sc_updated s + PERIOD <=? now.
(** 36-51 [update]. *)
Definition update (now : N) (r : option N) (s : scone) : bool * scone :=
  if (match r with Some v => v <=? sc_rate s | None => false end) || expired s now then
    let rate := match r with Some v => v | None => UNKNOWN end in
    (negb (rate =? sc_rate s), mkSc now rate)
  else (false, s).
(** path.rs 688-706 [update_scone]; [primary]: [is_primary]. *)
Definition update_scone (now : N) (signal : option N) (primary : bool) (p : option scone) : option N * option scone :=
  let '(updated, p') :=
    match p with
    | Some s => let (b, s') := update now signal s in (b, Some s')
    | None => match signal with
              | Some r => if is_set r then (true, Some (mkSc now r)) else (false, None)
              | None => (false, None)
              end
    end in
  (if updated && primary then match p' with Some s => Some (sc_rate s) | None => None end else None, p').

(** A packet: when it came, its signal, and whether the path is the primary one. *)
Record arrival := mkAr { a_now : N; a_signal : option N; a_primary : bool }.
Fixpoint sc_run (p : option scone) (l : list arrival) : list (option N) * option scone :=
  match l with
  | [] => ([], p)
  | a :: r => let (e, p1) := update_scone (a_now a) (a_signal a) (a_primary a) p in let (es, p2) := sc_run p1 r in (e :: es, p2)
  end.
