(** Advice and time. *)
From Coq Require Import NArith List Bool Sorted.
From Verif Require Import ScModel.
Import ListNotations.
Open Scope N_scope.

(** The rate in force: unknown as long as nothing was signalled. *)
Definition in_force (p : option scone) : N := match p with Some s => sc_rate s | None => UNKNOWN end.
(** What an application takes the rate to be: the last one told. *)
Definition believed (es : list (option N)) : N := fold_left (fun cur e => match e with Some r => r | None => cur end) es UNKNOWN.
(** Packets in order of time. *)
Definition in_time (l : list arrival) : Prop := StronglySorted (fun a b => a_now a <= a_now b) l.
(** The lowest rate signalled in the last 67 seconds. *)
Definition recent (now : N) (a : arrival) : Prop := now < a_now a + PERIOD.
Definition lowest_recent (now : N) (l : list arrival) (r : N) : Prop :=
  (r = UNKNOWN \/ exists a, In a l /\ recent now a /\ a_signal a = Some r) /\ forall a v, In a l -> recent now a -> a_signal a = Some v -> r <= v.
