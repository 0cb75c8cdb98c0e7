(** What callers set on streams, and what is expected of the order they are served in. *)
From Verif Require Import Base Lib SchModel.
From Coq Require Import ZArith.
Open Scope N_scope.
Open Scope list_scope.
Import ListNotations.

(** The settings of the live streams, in the order they were made, after each call. *)
Definition known (x : N) (t : list strm) : Prop := In x (map m_id t).
Definition fair_at (t : list strm) (x : N) : Prop := exists o g, In (mkStrm x true o g) t.
Definition change (x : N) (f : strm -> strm) (t : list strm) : list strm := map (fun e => if m_id e =? x then f e else e) t.
Inductive call_ok {W} : sop W -> list strm -> list strm -> res -> Prop :=
| C_insert x t : ~ known x t -> call_ok (KInsert x) t (t ++ [mkStrm x false None None]) Rok
| C_insert_old x t : known x t -> call_ok (KInsert x) t t Rok
| C_fair x t : known x t -> call_ok (KFair x true) t (change x (fun e => mkStrm x true (m_order e) (m_group e)) t) Rok
| C_unfair x t : known x t -> call_ok (KFair x false) t (change x (fun e => mkStrm x false (m_order e) None) t) Rok
| C_order x o t : known x t -> call_ok (KOrder x o) t (change x (fun e => mkStrm x true o (m_group e)) t) Rok
| C_group x g t : fair_at t x -> g <> 0 -> call_ok (KGroup x (Some g)) t (change x (fun e => mkStrm x true (m_order e) (Some g)) t) Rok
| C_ungroup x t : known x t -> call_ok (KGroup x None) t (change x (fun e => mkStrm x (m_fair e) (m_order e) None) t) Rok
| C_group_zero x t : known x t -> call_ok (KGroup x (Some 0)) t t RInvalidInput
| C_group_unfair x g t : known x t -> ~ fair_at t x -> call_ok (KGroup x (Some g)) t t RInvalidInput
| C_unknown x o t : ~ known x t -> o = KFair x true \/ o = KFair x false \/ (exists g, o = KGroup x g) \/ (exists z, o = KOrder x z) -> call_ok o t t RInvalidStreamId
| C_ended l t : call_ok (KEnded l) t (filter (fun e => negb (existsb (N.eqb (m_id e)) l)) t) Rok
| C_clear t : call_ok KClear t [] Rok.
(** A history of calls, with the results; writing changes no setting. *)
Inductive history {W} : list (sop W) -> list strm -> list strm -> list sout -> Prop :=
| H_nil t : history [] t t []
| H_write p w os t t' u f e rs : history os t t' rs -> history (KWrite p w :: os) t t' (SOffers u f e :: rs)
| H_call o os t t1 t' r rs : call_ok o t t1 r -> history os t1 t' rs -> history (o :: os) t t' (SRes r :: rs).

(** Streams without a group are one more group. *)
Definition gid (e : strm) : N := match m_group e with Some g => g | None => 0 end.
(** Any send order goes before none, and a higher one before a lower one. *)
Definition higher (a b : option Z) : Prop :=
  match a, b with Some x, Some y => (y < x)%Z | Some _, None => True | None, _ => False end.
Definition oeqb (a b : option Z) : bool := match a, b with Some x, Some y => (x =? y)%Z | None, None => true | _, _ => false end.
(** The fair streams of a group with a send order: equals. *)
Definition equals (t : list strm) (h : N) (o : option Z) : list N :=
  map m_id (filter (fun e => m_fair e && ((gid e =? h) && oeqb (m_order e) o)) t).
(** [l] goes round and round [c]. *)
Definition in_rounds (c l : list N) : Prop := exists n a b, a ++ l ++ b = concat (repeat c n).
Definition offer_id (o : offer) : N := match o with Skip x => x | Visit x _ _ => x end.
Definition wrote (o : offer) : bool := match o with Visit _ b _ => b | Skip _ => false end.
Definition filled (o : offer) : bool := match o with Visit _ _ b => b | Skip _ => false end.
Definition fair_offers (rs : list sout) : list offer :=
  concat (map (fun r => match r with SOffers _ f _ => f | SRes _ => [] end) rs).
(** What is known of a writer: a STREAM frame takes room. *)
Definition takes_room {W} (k : writer W) : Prop :=
  forall w p x w' b full, wr k w p x = (w', b, full) -> (room k w' <= room k w)%nat /\ (b = true -> (room k w' < room k w)%nat).
(** Everything the queues hold. *)
Definition og_list (q : pgq) : list og := map snd (ordered q) ++ [regular q].
Definition queued (s : sched) : list N := concat (map (fun e => concat (map vec (og_list (snd e)))) (groups s)).
