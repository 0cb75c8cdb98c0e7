(** What the receiver of a WebTransport stream relies on, said of the log of what happened and what it was answered. *)
From Coq Require Import NArith List Bool.
From Verif Require Import Base WrModel.
Import ListNotations.

Definition wrlog := list (wrop * (list wrev * wrans)).
(** The bytes that arrived, up to the first end; whether the end did. *)
Fixpoint arrived (l : wrlog) : list N :=
  match l with [] => [] | (RArrive b f, _) :: l' => b ++ (if f then [] else arrived l') | _ :: l' => arrived l' end.
Fixpoint ended (l : wrlog) : bool := match l with [] => false | (RArrive _ f, _) :: l' => f || ended l' | _ :: l' => ended l' end.
(** The bytes the application read; how often it was told it has them all; how often the stream was reported closed. *)
Fixpoint reads (l : wrlog) : list N := match l with [] => [] | (_, (_, RaData b _)) :: l' => b ++ reads l' | _ :: l' => reads l' end.
Fixpoint fins (l : wrlog) : nat := match l with [] => 0 | (_, (_, RaData _ true)) :: l' => S (fins l') | _ :: l' => fins l' end.
Definition is_closed (v : wrev) : bool := match v with RvClosed _ => true | _ => false end.
Definition closes (l : wrlog) : nat := length (filter is_closed (flat_map (fun x => fst (snd x)) l)).
Definition is_new (v : wrev) : bool := match v with RvNew => true | _ => false end.
Definition news (l : wrlog) : nat := length (filter is_new (flat_map (fun x => fst (snd x)) l)).
(** Whether the application was told the stream is readable since the last arrival; [b] is whether it was before, [e]
    whether the end had arrived. *)
Fixpoint told (e b : bool) (l : wrlog) : bool :=
  match l with
  | [] => b
  | (o, (v, _)) :: l' =>
      let r := existsb (fun x => match x with RvReadable => true | _ => false end) v in
      match o with
      | RArrive _ f => if e then told e (r || b) l' else told f r l'
      | _ => told e (r || b) l'
      end
  end.
