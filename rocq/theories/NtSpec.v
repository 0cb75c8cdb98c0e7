(** What becomes of a token. *)
From Coq Require Import NArith List Bool.
From Verif Require Import Base NtModel.
Import ListNotations.
Open Scope N_scope.

(** The tokens handed over, in order; token [n] is the n-th of them. *)
Definition given (t : list (nop * list (N * list N))) : list (list N) := flat_map (fun p => match fst p with NGive tok => [tok] | _ => [] end) t.
(** Where token [n] is: not handed over yet, waiting to be sent (again), on its way, or acknowledged. *)
Inductive place := Unknown | Waiting | Flying | Settled.
Definition place_one (n : N) (cur : place) (k : N) (p : nop * list (N * list N)) : place :=
  match p with
  | (NGive _, _) => if k =? n then Waiting else cur
  | (NWrite _, fs) => if existsb (fun f => fst f =? n) fs then Flying else cur
  | (NLost m, _) => if m =? n then match cur with Flying => Waiting | c => c end else cur
  | (NAcked m, _) => if m =? n then match cur with Flying | Waiting => Settled | c => c end else cur
  end.
Fixpoint place_from (n : N) (cur : place) (k : N) (t : list (nop * list (N * list N))) : place :=
  match t with
  | [] => cur
  | p :: r => place_from n (place_one n cur k p) (match fst p with NGive _ => k + 1 | _ => k end) r
  end.
Definition where_is (n : N) (t : list (nop * list (N * list N))) : place := place_from n Unknown 0 t.
Definition size (fs : list (N * list N)) : N := fold_right (fun f a => nt_len (snd f) + a) 0 fs.
