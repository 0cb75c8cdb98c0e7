(** What the application asked for and what the peer was told. *)
From Coq Require Import NArith List Bool.
From Verif Require Import Base HfModel HqModel.
Import ListNotations.
Open Scope N_scope.

(** The frames given to the control stream, in order. *)
Definition frames_one (x : qop * qout) : list hframe :=
  match x with (QFrame f, _) => [f] | (_, QSent fs) => fs | _ => [] end.
Definition frames (t : list (qop * qout)) : list hframe := flat_map frames_one t.

(** The priority last asked for stream [id]: the one it was opened with, then each update. *)
Definition asked_one (id : N) (cur : option priority) (x : qop * qout) : option priority :=
  match x with
  | (QOpen i _ p, _) => if i =? id then Some p else cur
  | (QUpdate i p, QChanged _) => if i =? id then Some p else cur
  | _ => cur
  end.
Definition asked (id : N) (t : list (qop * qout)) : option priority := fold_left (asked_one id) t None.

(** The priority the peer last heard for stream [id]: the one it was opened with, then each frame that names it. *)
Definition told_frame (id : N) (cur : option priority) (f : hframe) : option priority :=
  match f with FPriorityRequest i p | FPriorityPush i p => if i =? id then Some p else cur | _ => cur end.
Definition told_one (id : N) (cur : option priority) (x : qop * qout) : option priority :=
  match x with
  | (QOpen i _ p, _) => if i =? id then Some p else cur
  | _ => fold_left (told_frame id) (frames_one x) cur
  end.
Definition told (id : N) (t : list (qop * qout)) : option priority := fold_left (told_one id) t None.

(** An application does not write priority frames itself, and a stream id is used once. *)
Definition plain (o : qop) : Prop := match o with QFrame (FPriorityRequest _ _) | QFrame (FPriorityPush _ _) => False | _ => True end.
Definition opened (o : qop) : list N := match o with QOpen id _ _ => [id] | _ => [] end.
(** Priorities are changed on requests and pushes only. *)
Definition fair (ops : list qop) : Prop := forall id p k, In (QUpdate id p) ops -> (exists q, In (QOpen id k q) ops) -> k <> QTunnel.
