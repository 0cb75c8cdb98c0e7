(** Reference notions for QPACK encoders and decoders: what a run is, and what is asked of its steps. *)
From Verif Require Import Base Lib QpTables QiModel QiSpec QbModel QbSpec QeModel QjModel.
Open Scope N_scope.
Open Scope list_scope.
Import ListNotations.

(** A header that can be sent: bytes, a name that is a string, and a name and value that, as they are written, keep to the decoder's limit for a string. *)
Definition written (huff : bool) (v : list N) : list N := if huff then match huffman_encode v with Some e => e | None => [] end else v.
Definition header_ok (huff : bool) (h : header) : Prop :=
  bytes_ok (fst h) /\ bytes_ok (snd h) /\ utf8 (fst h) = true /\ lenN (written huff (fst h)) <= MAX_LEN /\ lenN (written huff (snd h)) <= MAX_LEN.

(** *** A decoder alone: any bytes on the encoder stream, any header blocks. *)
Inductive dop := DReceive (bs : list N) | DBlock (bs : list N) (s : N) | DGiveUp (s : N) | DSend (n : nat) | DOpen.
Inductive dout := ONone | OWaits (s : N) | OHeaders (s : N) (l : list header) | OBytes (bs : list N).
Definition dstep (d : decoder) (o : dop) : rres (decoder * dout) :=
  match o with
  | DReceive bs => rbind (dec_receive d bs) (fun '(d', _) => Good (d', ONone))
  | DBlock bs s => rbind (dec_block d bs s) (fun '(d', r) => Good (d', match r with Some l => OHeaders s l | None => OWaits s end))
  | DGiveUp s => Good (cancel_stream d s, ONone)
  | DSend n => rbind (dec_send d n) (fun '(d', b) => Good (d', OBytes b))
  | DOpen => if d_local d then Good (d, ONone) else rbind (dec_add_stream d) (fun d' => Good (d', ONone))
  end.
Fixpoint drun (d : decoder) (l : list dop) : rres (decoder * list dout) :=
  match l with [] => Good (d, []) | o :: l' => rbind (dstep d o) (fun '(d1, x) => rbind (drun d1 l') (fun '(d2, xs) => Good (d2, x :: xs))) end.
Definition dop_ok (o : dop) : Prop := match o with DReceive bs | DBlock bs _ => bytes_ok bs | _ => True end.
(** The number of bytes received and of calls. *)
Definition dweight (o : dop) : N := match o with DReceive bs => lenN bs + 1 | _ => 0 end.
Definition dweights (l : list dop) : N := fold_right (fun o s => dweight o + s) 0 l.
Definition small (o : dout) : Prop := match o with OHeaders _ l => total_size l <= MAX_LEN | _ => True end.

(** *** An encoder alone: any bytes on the decoder stream. *)
Inductive eop := ELimits (cap blocked : N) | EOpen | EEncode (s : N) (l : list header) (sends : list bool) | EUpdate (sends : list bool) | EReceive (bs : list N).
Definition estep (e : encoder) (o : eop) : rres encoder :=
  match o with
  | ELimits cap b => rbind (set_max_capacity e cap) (fun e' => set_max_blocked e' b)
  | EOpen => match n_local e with NoStream => add_send_stream e | _ => Good e end
  | EEncode s l sends => rbind (encode_block e (sends, []) l s) (fun '(e', _, _) => Good e')
  | EUpdate sends => rbind (send_updates e (sends, [])) (fun '(e', _, _) => Good e')
  | EReceive bs => enc_receive e bs
  end.
Fixpoint erun (e : encoder) (l : list eop) : rres encoder := match l with [] => Good e | o :: l' => rbind (estep e o) (fun e1 => erun e1 l') end.
Definition eop_ok (huff : bool) (o : eop) : Prop := match o with EEncode _ l _ => Forall (header_ok huff) l | EReceive bs => bytes_ok bs | _ => True end.
Definition eweight (o : eop) : N := match o with EEncode _ l _ => lenN l | _ => 0 end.
Definition eweights (l : list eop) : N := fold_right (fun o s => eweight o + s) 0 l.
(** The peer's settings come once; in 0-RTT remembered ones come first, and may only grow. *)
Fixpoint grows (b : N) (l : list eop) : Prop := match l with [] => True | ELimits _ b' :: l' => b <= b' /\ grows b' l' | _ :: l' => grows b l' end.

(** *** The two together. *)
Definition jop_ok (huff : bool) (o : jop) : Prop :=
  match o with JEncode s l _ => Forall (header_ok huff) l /\ total_size l <= MAX_LEN /\ s < 2 ^ 62 | JCancel s => s < 2 ^ 62 | _ => True end.
(** How many headers are encoded. *)
Definition jweight (o : jop) : N := match o with JEncode _ l _ => lenN l | _ => 0 end.
Definition jweights (l : list jop) : N := fold_right (fun o s => jweight o + s) 0 l.
(** What is given out is what was put in. *)
Definition faithful (o : jout) : Prop := match o with JGot _ got sent => got = sent | _ => True end.
