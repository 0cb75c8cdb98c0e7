(** When WebTransport and CONNECT-UDP are to be had, from what both sides configured. *)
From Coq Require Import NArith List Bool.
From Verif Require Import Base HfModel NgModel.
Import ListNotations.
Open Scope N_scope.

(** A side willing to use WebTransport: everything it needs is switched on. *)
Definition wants_wt (p : hparams) : Prop := h_webtransport p = true /\ h_connect p = true /\ h_datagram p = true /\ 0 < h_size p /\ h_reliable p = true.
Definition wants_udp (p : hparams) : Prop := h_connect p = true.
(** Every event an application was told in a history. *)
Definition n_told (l : list (nop * nout)) : list nevent := flat_map (fun x => match snd x with OutEvents e => e | _ => [] end) l.
Definition is_settings (o : nop) : bool := match o with NSettings _ _ _ _ => true | _ => false end.
