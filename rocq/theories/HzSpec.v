(** What an HTTP/3 server's application is owed of each connection. *)
From Coq Require Import NArith List.
From Verif Require Import HzModel.
Import ListNotations.

(** The event names connection [k]. *)
Definition names (k : nat) (e : oev) : Prop := match e with OOther j _ | OEnding j | OClosed j => j = k | OPriority _ _ => False end.
Definition silent (k : nat) (l : list oev) : Prop := forall e, In e l -> ~ names k e.
(** [tells k open es l]: of a connection that is open for its application or not, the events [es] are told as [l]: the same, in order, but that a connection
    ends only once. *)
Inductive tells (k : nat) : bool -> list tev -> list oev -> Prop :=
| tells_none o : tells k o [] []
| tells_other o n es l : tells k o es l -> tells k o (TEv (NOther n) :: es) (OOther k n :: l)
| tells_priority o s p es l : tells k o es l -> tells k o (TEv (NPriority s p) :: es) (OPriority s p :: l)
| tells_ending b es l : tells k false es l -> tells k true (TEv (NEnding b) :: es) (OEnding k :: l)
| tells_ended b es l : tells k false es l -> tells k false (TEv (NEnding b) :: es) l
| tells_closed o : tells k o [TShut] [OClosed k].
(** All the application was or will be given. *)
Definition told (s : srv) : list oev := v_taken s ++ v_queue s.
Definition op_ok (o : op) : Prop := match o with SProcess r => NoDup (r_ord r) | _ => True end.
Definition open_for (s : srv) (k : nat) : bool := match v_hand s k with Some h => match h_st h with HOpen => true | _ => false end | None => true end.
Definition own_of (s : srv) (k : nat) : list N := match v_hand s k with Some h => h_own h | None => [] end.
(** Connection [k] has something for the HTTP/3 layer, or the application or unsent data ask for it. *)
Definition asks (s : srv) (k : nat) : Prop :=
  (v_live s k = true /\ c_q (v_conn s k) <> []) \/ exists h, v_hand s k = Some h /\ (h_needs h = true \/ h_pending h = true \/ h_own h <> []).
