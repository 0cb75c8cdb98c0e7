(** Priority updates and the local control stream: neqo-http3/src/priority.rs 92-150, control_stream_local.rs,
    connection.rs 1790-1814, buffered_send_stream.rs 63-153. *)
From Coq Require Import NArith List Bool.
From Verif Require Import Base HfModel.
Import ListNotations.
Open Scope N_scope.

(** The streams an application may name: a request, a push, a CONNECT tunnel or session, or one without messages. *)
Inductive qkind := QHttp | QPush | QTunnel | QOther.
(** priority.rs 92-97 [PriorityHandler]; [push_stream] is set for pushes only (connection.rs 989, connection_client.rs 1092). *)
Record handler := mkH { h_kind : qkind; h_prio : priority; h_last : priority }.
Definition prio_eqb (a b : priority) : bool := (pr_urgency a =? pr_urgency b) && Bool.eqb (pr_incremental a) (pr_incremental b).

(** connection.rs [recv_streams] seen by priorities, control_stream_local.rs 24-29 [ControlStreamLocal] and the bytes
    the transport has taken. *)
Record ctl := mkCtl { q_streams : list (N * handler); q_queue : list N; q_buf : list N; q_wire : list N }.
Definition q_get (id : N) (c : ctl) : option handler := match find (fun p => fst p =? id) (q_streams c) with Some p => Some (snd p) | None => None end.
Definition q_set (id : N) (h : handler) (c : ctl) : ctl :=
  mkCtl (map (fun p => if fst p =? id then (id, h) else p) (q_streams c)) (q_queue c) (q_buf c) (q_wire c).
Definition q_with_queue q c := mkCtl (q_streams c) q (q_buf c) (q_wire c).

(** priority.rs 118-133 [maybe_encode_frame]. *)
Definition encode_frame (id : N) (h : handler) : option hframe :=
  if prio_eqb (h_prio h) (h_last h) then None
  else Some (match h_kind h with QPush => FPriorityPush id (h_prio h) | _ => FPriorityRequest id (h_prio h) end).

Section Enc.
  (** frames/hframe.rs [HFrame::encode] (HfModel.h_encode). *)
  Variable enc : hframe -> list N.

  (** buffered_send_stream.rs 63-85 [send_buffer]: the transport takes what it has room for. *)
  Definition q_send_buffer (room : nat) (c : ctl) : ctl * nat :=
    let n := Nat.min room (length (q_buf c)) in
    (mkCtl (q_streams c) (q_queue c) (skipn n (q_buf c)) (q_wire c ++ firstn n (q_buf c)), (room - n)%nat).
  (** 87-101 [prepare_atomic_send], 128-146 [send_atomic_with]: all of the frame, behind an empty buffer, or nothing. *)
  Definition q_send_atomic (room : nat) (f : hframe) (c : ctl) : ctl * nat * bool :=
    let (c1, room1) := q_send_buffer room c in
    match q_buf c1 with
    | _ :: _ => (c1, room1, false)
    | [] => if Nat.leb (length (enc f)) room1
            then (mkCtl (q_streams c1) (q_queue c1) [] (q_wire c1 ++ enc f), (room1 - length (enc f))%nat, true)
            else (c1, room1, false)
    end.
  (** control_stream_local.rs 59-94 [send_priority_update]: the frames sent, or [None] for the failed assertion. *)
  Fixpoint q_updates (fuel : nat) (room : nat) (c : ctl) : option (ctl * list hframe) :=
    match fuel with
    | O => Some (c, [])
    | S fuel =>
        match q_queue c with
        | [] => Some (c, [])
        | id :: rest =>
            let c0 := q_with_queue rest c in
            match q_get id c0 with
            | None => q_updates fuel room c0
            | Some h =>
                match h_kind h with
                | QHttp | QPush =>
                    match encode_frame id h with
                    | None => q_updates fuel room c0
                    | Some f =>
                        let '(c1, room1, sent) := q_send_atomic room f c0 in
                        if sent then
                          match q_updates fuel room1 (q_set id (mkH (h_kind h) (h_prio h) (h_prio h)) c1) with
                          | Some (c2, fs) => Some (c2, f :: fs)
                          | None => None
                          end
                        else Some (q_with_queue (id :: q_queue c1) c1, [])
                    end
                | _ => None
                end
            end
        end
    end.

  Inductive qop :=
    | QOpen (id : N) (k : qkind) (p : priority) (* a request, with the priority its header announces, or a push *)
    | QClose (id : N)
    | QUpdate (id : N) (p : priority) (* Http3Client::priority_update *)
    | QFrame (f : hframe) (* another control frame: SETTINGS, MAX_PUSH_ID, CANCEL_PUSH, GOAWAY *)
    | QSend (room : nat). (* Http3Connection::process_sending, with what the transport can take *)
  Inductive qout := QDone | QChanged (b : bool) | QInvalid | QSent (fs : list hframe) | QPanic.

  Definition q_step (c : ctl) (o : qop) : qout * ctl :=
    match o with
    | QOpen id k p => (QDone, mkCtl ((id, mkH k p p) :: q_streams c) (q_queue c) (q_buf c) (q_wire c))
    | QClose id => (QDone, mkCtl (filter (fun x => negb (fst x =? id)) (q_streams c)) (q_queue c) (q_buf c) (q_wire c))
    | QUpdate id p => (* connection.rs 1796-1814 [queue_update_priority], priority.rs 109-116 [maybe_update_priority] *)
        match q_get id c with
        | None => (QInvalid, c)
        | Some h =>
            match h_kind h with
            | QOther => (QInvalid, c)
            | k => if prio_eqb p (h_prio h) then (QChanged false, c)
                   else let c1 := q_set id (mkH k p (h_last h)) c in (QChanged true, q_with_queue (q_queue c1 ++ [id]) c1)
            end
        end
    | QFrame f => (QDone, mkCtl (q_streams c) (q_queue c) (q_buf c ++ enc f) (q_wire c)) (* control_stream_local.rs 39-41 [queue_frame] *)
    | QSend room => (* 48-57 [send] *)
        let (c1, room1) := q_send_buffer room c in
        match q_updates (S (length (q_queue c1))) room1 c1 with
        | Some (c2, fs) => (QSent fs, c2)
        | None => (QPanic, c1)
        end
    end.
  Fixpoint q_run (c : ctl) (ops : list qop) : list (qop * qout) * ctl :=
    match ops with
    | [] => ([], c)
    | o :: r => match q_step c o with
                | (QPanic, c') => ([(o, QPanic)], c')
                | (x, c') => let (t, c'') := q_run c' r in ((o, x) :: t, c'')
                end
    end.
  (** 96-102 [create]: the stream's type is its first byte. *)
  Definition q_init : ctl := mkCtl [] [] [0] [].
End Enc.
