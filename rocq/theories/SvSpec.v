(** What a server is given and what it did with it. *)
From Coq Require Import NArith List Bool.
From Verif Require Import Base SvModel.
Import ListNotations.
Open Scope N_scope.

(** The datagrams given in calls, each with the time of its call. *)
Definition given (calls : list (list dgram * N)) : list (dgram * N) := flat_map (fun c => map (fun d => (d, snd c)) (fst c)) calls.
Definition handled (log : list (dgram * N * fate)) : list (dgram * N) := map fst log.
Definition is_accepted (f : fate) : bool := match f with FAccepted _ => true | _ => false end.
Definition accepted (log : list (dgram * N * fate)) : nat := length (filter (fun e => is_accepted (snd e)) log).
Definition answer_of (f : fate) : option dgram := match f with FVersions a | FRetry a => Some a | _ => None end.
(** What can happen to a connection between two looks at it: it takes datagrams and is asked for output, any number of times. *)
Inductive evolves {C} (inp : C -> dgram -> N -> C) (out : C -> N -> C * cout) : C -> C -> Prop :=
| ev_same c : evolves inp out c c
| ev_input c d t c' : evolves inp out (inp c d t) c' -> evolves inp out c c'
| ev_output c t c' : evolves inp out (fst (out c t)) c' -> evolves inp out c c'.
