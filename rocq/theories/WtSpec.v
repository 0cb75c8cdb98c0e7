(** What an application handed to a stream and was told it had taken. *)
From Coq Require Import NArith List Bool.
From Verif Require Import Base WtModel.
Import ListNotations.
Open Scope N_scope.

Fixpoint taken (log : list (wop * wout)) : list N :=
  match log with
  | [] => []
  | (WWrite b _ _ _ _, WTaken n) :: r => firstn (N.to_nat n) b ++ taken r
  | _ :: r => taken r
  end.
Definition closes (o : wop) : Prop := exists cl, o = WClose cl.
Definition stops (o : wop) : Prop := o = WStop.
Definition prefix_of (a b : list N) : Prop := exists c, b = a ++ c.
(** The transport takes calls on this stream. *)
Definition works (o : wop) : Prop :=
  match o with
  | WServe r ci cl => r <> None /\ ci <> CFails /\ cl = true
  | WWrite _ r ci cl r2 => r <> None /\ ci <> CFails /\ cl = true /\ r2 <> None
  | WCommit r ci cl ci2 => r <> None /\ ci <> CFails /\ cl = true
  | WClose cl => cl = true
  | WStop => False
  end.
