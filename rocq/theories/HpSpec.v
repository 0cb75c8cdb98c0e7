(** Server push: the words of the properties. *)
From Verif Require Import Base Lib HpModel.
Open Scope N_scope.
Open Scope list_scope.
Import ListNotations.

(** The push an event is about, and whether it comes from the push's stream. *)
Definition about (e : pev) : N := match e with EvPromise x _ _ | EvHeaders x _ _ _ | EvData x | EvCanceled x | EvReset x _ => x end.
Definition from_stream (id : N) (e : pev) : bool := match e with EvHeaders x _ _ _ | EvData x => x =? id | _ => false end.
Definition promise_of (id : N) (e : pev) : Prop := match e with EvPromise x _ _ => x = id | _ => False end.
(** The events a push's stream has raised, in order. *)
Fixpoint raised (id : N) (os : list pop_) : list pev :=
  match os with
  | [] => []
  | OHeaders x hs i f :: os' => if x =? id then EvHeaders x hs i f :: raised id os' else raised id os'
  | OData x :: os' => if x =? id then EvData x :: raised id os' else raised id os'
  | _ :: os' => raised id os'
  end.
(** Where a push stands: ids below the first kept are closed, those beyond the last kept untouched. *)
Definition view (c : ctl) (id : N) : pst := if id <? c_first c then PClosed else nth (N.to_nat (id - c_first c)) (c_q c) PInit.
(** Open: promised or with a stream, and not closed. *)
Definition is_open (v : pst) : bool := match v with PInit | PClosed => false | _ => true end.
Fixpoint max_ids (fs : list pframe) : list N := match fs with [] => [] | FMaxPush n :: fs' => n :: max_ids fs' | FCancel _ :: fs' => max_ids fs' end.
