(** Vocabulary for stating what the tracker of received packets does, in terms of a trace
    of operations and outputs. *)
From Verif Require Import Base CodecModel FrameModel FrameSpec TrackingModel.

(** The packet numbers that were processed, in order. *)
Fixpoint processed (outs : list tout) : list N :=
  match outs with
  | [] => []
  | Processed pn :: r => pn :: processed r
  | _ :: r => processed r
  end.

(** The ranges of all ACK frames that were themselves acknowledged; [toks] are the ranges of
    the ACK frames written before. *)
Fixpoint acked_of (toks : list (list (N * N))) (ops : list top) (outs : list tout) : list (N * N) :=
  match ops, outs with
  | OAcked i :: ops', _ :: outs' => nth i toks [] ++ acked_of toks ops' outs'
  | _ :: ops', Wrote _ rs :: outs' => acked_of (toks ++ [rs]) ops' outs'
  | _ :: ops', _ :: outs' => acked_of toks ops' outs'
  | _, _ => []
  end.

(** [pn] is in one of the ranges (largest, smallest). *)
Definition covers (rs : list (N * N)) (pn : N) : Prop := exists r, In r rs /\ snd r <= pn <= fst r.

Definition holds (s : tracker) (pn : N) : Prop :=
  exists r, In r (t_ranges s) /\ pr_smallest r <= pn <= pr_largest r.
(** [pn] will be advertised in the next ACK frame with room for it. *)
Definition advertised (s : tracker) (pn : N) : Prop :=
  exists r, In r (t_ranges s) /\ pr_needed r = true /\ pr_smallest r <= pn <= pr_largest r.

(** Packet numbers are below 2^62 (RFC 9000, 12.3). *)
Definition op_ok (o : top) : Prop := match o with OPacket _ pn _ _ => pn < 2 ^ 62 | _ => True end.

(** A run from a new tracker. *)
Definition trun (app : bool) (ops : list top) := truns (tracker_new app, []) ops.

(** How many of the packets that were processed carried the ECN mark [m]. *)
Fixpoint marked (m : N) (ops : list top) (outs : list tout) : N :=
  match ops, outs with
  | OPacket _ _ _ mark :: ops', Processed _ :: outs' => (if mark =? m then 1 else 0) + marked m ops' outs'
  | _ :: ops', _ :: outs' => marked m ops' outs'
  | _, _ => 0
  end.
(** The ACK_FREQUENCY parameters in force: those of the frame with the highest sequence
    number, the latest such; the defaults if there was none. *)
Definition freq_in_force (app : bool) (ops : list top) (tolerance delay : N) (ignore_order : bool) : Prop :=
  ((forall sn tol d io, ~ In (OFreq sn tol d io) ops) /\ tolerance = (if app then 1 else 0) /\ delay = 20000000 /\ ignore_order = false) \/
  exists before sn after, ops = before ++ OFreq sn tolerance delay ignore_order :: after /\
    (forall sn' tol d io, In (OFreq sn' tol d io) before -> sn' <= sn) /\
    (forall sn' tol d io, In (OFreq sn' tol d io) after -> sn' < sn).
