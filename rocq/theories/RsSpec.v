(** Receive streams seen from outside: functions of the history of one stream, a list of
    operations and their results. *)
From Verif Require Import Base CodecModel FcModel RxModel RxSpec RsModel.

Definition rhist := list (rsop * rsout).
Definition accepted (o : rsout) : bool := match o with QErr _ => false | _ => true end.
Definition ev_end (e : revent) : bool := match e with EvReset _ | EvComplete => true | EvReadable => false end.
(** This result tells that the stream is over: the end was read, the reset was reported, or
    the call returned that nothing more will come. *)
Definition ends (o : rsout) : bool :=
  match o with
  | QDone ev b => b || existsb ev_end ev
  | QBytes _ fin ev => fin || existsb ev_end ev
  | _ => false
  end.
Definition over (h : rhist) : bool := existsb (fun e => ends (snd e)) h.
(** The history up to the point where the stream was over. *)
Fixpoint live (h : rhist) : rhist :=
  match h with [] => [] | e :: r => e :: (if ends (snd e) then [] else live r) end.

Definition frame_of (e : rsop * rsout) : list (N * list N) :=
  match e with (QFrame _ off d, o) => if accepted o then [(off, d)] else [] | _ => [] end.
(** Final sizes the peer has stated, in a FIN or a reset. *)
Definition final_of (e : rsop * rsout) : list N :=
  match e with
  | (QFrame true off d, o) => if accepted o then [off + lenN d] else []
  | (QReset _ final _, o) => if accepted o then [final] else []
  | _ => []
  end.
(** The largest offset the peer has used. *)
Definition high_of (e : rsop * rsout) : N :=
  match e with
  | (QFrame _ off d, o) => if accepted o then off + lenN d else 0
  | (QReset _ final _, o) => if accepted o then final else 0
  | _ => 0
  end.
Definition bytes_of (e : rsop * rsout) : list N := match e with (_, QBytes l _ _) => l | _ => [] end.

Definition s_frames (h : rhist) : list (N * list N) := flat_map frame_of (live h).
Definition s_finals (h : rhist) : list N := flat_map final_of (live h).
Definition s_high (h : rhist) : N := fold_right N.max 0 (map high_of (live h)).
Definition s_bytes (h : rhist) : list N := flat_map bytes_of (live h).
(** The stream limit the peer has been told. *)
Fixpoint s_max (m : N) (h : rhist) : N :=
  match h with [] => m | (_, QMaxStreamData v) :: r => s_max v r | _ :: r => s_max m r end.

Definition is_reset (e : rsop * rsout) : bool := match fst e with QReset _ _ _ => accepted (snd e) | _ => false end.
Definition is_stop (e : rsop * rsout) : bool := match fst e with QStop _ => true | _ => false end.
Definition is_acked (e : rsop * rsout) : bool := match fst e with QStopAcked => true | _ => false end.
Definition had (p : rsop * rsout -> bool) (h : rhist) : bool := existsb p (live h).

(** A frame up to [e] or, with [fin], a final size of [e], contradicts what the peer stated:
    it goes beyond or changes a final size, or puts it below data already sent. *)
Definition contradicts (h : rhist) (e : N) (fin : bool) : Prop :=
  (exists F, In F (s_finals h) /\ (F < e \/ (fin = true /\ e <> F))) \/ (fin = true /\ e < s_high h).

(** Of a connection: the part of the history that concerns stream [i]. *)
Fixpoint on_stream (i : nat) (h : list (cop * cout)) : rhist :=
  match h with
  | [] => []
  | (COn j o, CStream out) :: r => if Nat.eqb i j then (o, out) :: on_stream i r else on_stream i r
  | _ :: r => on_stream i r
  end.
(** The initial limits of the streams, in order of creation. *)
Fixpoint initial_maxes (h : list (cop * cout)) : list N :=
  match h with [] => [] | (CNew m, CNone) :: r => m :: initial_maxes r | _ :: r => initial_maxes r end.
Definition n_streams (h : list (cop * cout)) : nat := length (initial_maxes h).
(** The connection limit the peer has been told. *)
Fixpoint conn_max (m : N) (h : list (cop * cout)) : N :=
  match h with [] => m | (_, CMaxData v) :: r => conn_max v r | _ :: r => conn_max m r end.
(** What the peer has used of the connection limit. *)
Definition total (f : nat -> N) (n : nat) : N := fold_right N.add 0 (map f (seq 0 n)).
Definition conn_used (h : list (cop * cout)) : N := total (fun i => s_high (on_stream i h)) (n_streams h).

Definition op_ok (o : cop) : Prop :=
  match o with
  | CNew m => m <= MAX_VARINT
  | COn _ (QFrame _ off d) => off + lenN d <= MAX_VARINT
  | COn _ (QReset _ final reliable) => final <= MAX_VARINT
  | _ => True
  end.
(** The application never sets a stream window below the one in effect. *)
Fixpoint windows_raised (c : rconn) (ops : list cop) : Prop :=
  match ops with
  | [] => True
  | o :: r =>
      (match o with
       | COn i (QSetMax m) => forall s, nth_error (c_streams c) i = Some s -> rf_max_active (rs_fc s) <= m
       | _ => True
       end) /\
      match cstep c o with Some (c', _) => windows_raised c' r | None => True end
  end.
(** Operations whose cost is arithmetic on windows: see C53 for when these can overflow. *)
Definition window_op (o : cop) : bool :=
  match o with CWrite _ _ _ | CBlocked => true | COn _ (QWrite _ _ _) | COn _ QBlocked => true | _ => false end.
(** How much of the stream the peer promised to deliver despite resetting it. *)
Definition rel_of (e : rsop * rsout) : list N := match e with (QReset _ _ r, o) => if accepted o then [r] else [] | _ => [] end.
Definition s_rels (h : rhist) : list N := flat_map rel_of (live h).
(** A history of a connection with limit [D]. *)
Definition reached (D : N) (ops : list cop) (c : rconn) (h : list (cop * cout)) : Prop :=
  D <= MAX_VARINT /\ Forall op_ok ops /\ windows_raised (rconn_new D) ops /\ cruns (rconn_new D) ops = Some (c, h).
(** Connection credit: what is neither read nor given back. *)
Definition owed (h : list (cop * cout)) : N := total (fun i => if over (on_stream i h) then 0 else s_high (on_stream i h) - lenN (s_bytes (on_stream i h))) (n_streams h).
