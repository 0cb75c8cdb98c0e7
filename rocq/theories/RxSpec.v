(** What reassembly should do, in terms of frames received and bytes handed out. *)
From Verif Require Import Base CodecModel FcModel RxModel.

(** The byte a frame with [data] at offset [start] carries for offset [x]. *)
Definition carries (f : N * list N) (x : N) : option N :=
  if fst f <=? x then nth_error (snd f) (N.to_nat (x - fst f)) else None.

Fixpoint frames (ops : list xop) : list (N * list N) :=
  match ops with [] => [] | XFrame s d :: r => (s, d) :: frames r | _ :: r => frames r end.
(** Everything handed to the reader, in order. *)
Fixpoint delivered (outs : list xout) : list N :=
  match outs with [] => [] | XBytes l :: r => l ++ delivered r | _ :: r => delivered r end.

(** Some frame carries offset [x]. *)
Definition arrived (fs : list (N * list N)) (x : N) : Prop := exists f b, In f fs /\ carries f x = Some b.

(** All frames are pieces of one byte stream [g]. *)
Definition pieces_of (g : N -> N) (fs : list (N * list N)) : Prop :=
  forall f x b, In f fs -> carries f x = Some b -> b = g x.

Definition xop_ok (o : xop) : Prop := match o with XFrame s d => s + lenN d <= 2 ^ 62 | XRead _ => True end.

(** Bytes [g n], [g (n+1)], ... *)
Definition stream_slice (g : N -> N) (from : N) (len : nat) : list N := map (fun i => g (from + N.of_nat i)) (seq 0 len).
