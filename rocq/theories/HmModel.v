(** Receiving an HTTP message: neqo-http3/src/recv_message.rs. *)
From Verif Require Import Base Lib Reader HfModel HhModel.
Open Scope N_scope.
Open Scope list_scope.
Import ListNotations.

(** neqo-http3/src/lib.rs [Error], the values that arise here; [EQpack] is any error of the QPACK decoder, [EPush] any of the push
    controller. *)
Inductive merr := EFrame (e : herr) | EGeneral | EHeader | EQpack | EPush.
(** recv_message.rs 56-66 [RecvMessageState]. *)
Inductive mstate :=
  | MHead (r : reader) | MDecoding (block : list N) (fin : bool) | MData (r : reader) | MReading (remaining : N) | MTrail (r : reader)
  | MPending | MClosed | MConnect.
(** What QPACK says of the [k]-th field section of the stream once it can be decoded: [refers_dynamic_table], then
    [decode_header_block]. *)
Inductive section := SBad | SGood (dynamic : bool) (hs : option (list header)).
(** And of a promised request, together with the push controller's answer (299-327 [handle_push_promise]). *)
Inductive promise := PBlocked | PTaken | PQpack | PController.
(** What the world answers during one call. *)
Record answers := mkA { a_ready : nat -> bool; a_promise : list N -> promise }.
(** recv_message.rs 74-86 [RecvMessage] with its stream; [m_k] counts the field sections decoded. The events it has posted:
    [header_ready] with its flags, [extended_connect_new_session], [recv_closed]; [data_readable] is left out. *)
Inductive mevent := VHeaders (hs : list header) (interim fin : bool) | VSession (hs : list header) | VClosed | VPromise (id : N) (block : list N).
Record msg := mkMsg { m_state : mstate; m_src : source; m_blocked : list (N * list N); m_k : nat }.
Definition m_with (m : msg) (st : mstate) : msg := mkMsg st (m_src m) (m_blocked m) (m_k m).
Inductive out (A : Type) := Done (a : A) | Error (e : merr) | Panicked.
Arguments Done {A}. Arguments Error {A}. Arguments Panicked {A}.
Section Message.
  Context (prio : list N -> option priority) (D : nat -> list N -> section) (mt : mtype) (push : bool).
  (** 391-400 [set_closed]. *)
  Definition set_closed (m : msg) : msg * list mevent := (m_with m MClosed, [VClosed]).
  (** 119-139 [handle_headers_frame]. *)
  Definition handle_headers (m : msg) (block : list N) (fin : bool) : out msg :=
    match m_state m with
    | MHead _ => match block with [] => Error EGeneral | _ => Done (m_with m (MDecoding block fin)) end
    | MData _ => Done (m_with m (MTrail r_new))
    | MTrail _ => Error (EFrame HttpFrameUnexpected)
    | _ => Panicked
    end.
  (** 141-163 [handle_data_frame]; usize is 64 bits. *)
  Definition handle_data (m : msg) (len : N) (fin : bool) : out msg :=
    match m_state m with
    | MHead _ | MTrail _ => Error (EFrame HttpFrameUnexpected)
    | MData _ => if 0 <? len then if fin then Error (EFrame HttpFrame) else Done (m_with m (MReading len)) else Done m
    | _ => Panicked
    end.
  (** 165-214 [add_headers]. *)
  Definition add_headers (m : msg) (hs : list header) (fin : bool) : out msg * list mevent :=
    match accept mt hs with
    | None => (Error EHeader, [])
    | Some (hs', interim, session) =>
        if fin && interim then (Error EGeneral, [])
        else
          let ev := if session then VSession hs' else VHeaders hs' interim fin in
          if fin then let '(m', evs) := set_closed m in (Done m', ev :: evs)
          else (Done (m_with m (if session then MConnect else if interim then MHead r_new else MData r_new)), [ev])
    end.
  (** 216-243 [set_state_to_close_pending]. *)
  Definition close_pending (m : msg) : out msg :=
    match m_state m with
    | MHead _ => Error EGeneral
    | MReading _ | MData _ | MTrail _ => Done (m_with m MPending)
    | _ => Panicked
    end.
  (** 245-275 [handle_push_promise]. *)
  Definition handle_promise (a : answers) (m : msg) (id : N) (block : list N) : out msg * list mevent :=
    if negb push then (Error (EFrame HttpFrameUnexpected), [])
    else
      let wait := (Done (mkMsg (m_state m) (m_src m) (m_blocked m ++ [(id, block)]) (m_k m)), []) in
      if is_nil (m_blocked m) then
        match a_promise a block with
        | PTaken => (Done m, [VPromise id block]) | PBlocked => wait | PQpack => (Error EQpack, []) | PController => (Error EPush, [])
        end
      else wait.
  (** 277-389 [receive_internal]. *)
  Definition m_reader (st : mstate) : option reader := match st with MHead r | MData r | MTrail r => Some r | _ => None end.
  Definition m_set_reader (st : mstate) (r : reader) : mstate := match st with MHead _ => MHead r | MData _ => MData r | MTrail _ => MTrail r | _ => st end.
  Definition handle_frame (a : answers) (m : msg) (f : hframe) (fin : bool) : out msg * list mevent :=
    match f with
    | FHeaders b => (handle_headers m b fin, [])
    | FData n => (handle_data m n fin, [])
    | FPushPromise id b => handle_promise a m id b
    | _ => (Error (EFrame HttpFrameUnexpected), [])
    end.
  Fixpoint receive_internal (fuel : nat) (a : answers) (m : msg) : out msg * list mevent :=
    match fuel with
    | O => (Panicked, [])
    | S fuel' =>
        match m_state m with
        | MHead r | MData r | MTrail r =>
            match r_receive (HFRAME prio) r (m_src m) with
            | HPanic => (Panicked, [])
            | HErr e => (Error (EFrame e), [])
            | HOk (o, fin, r', s') =>
                let m1 := mkMsg (m_set_reader (m_state m) r') s' (m_blocked m) (m_k m) in
                match o with
                | None => (if fin then close_pending m1 else Done m1, [])
                | Some f =>
                    match handle_frame a m1 f fin with
                    | (Done m2, ev) =>
                        match m_state m2 with
                        | MDecoding _ _ => let '(o2, ev2) := receive_internal fuel' a m2 in (o2, ev ++ ev2)
                        | _ => if fin then (close_pending m2, ev) else let '(o2, ev2) := receive_internal fuel' a m2 in (o2, ev ++ ev2)
                        end
                    | bad => bad
                    end
                end
            end
        | MDecoding block fin =>
            match D (m_k m) block with
            | SBad => (Error EQpack, [])
            | SGood dyn hs =>
                if dyn && negb (is_nil (m_blocked m)) then (Done m, [])
                else if negb (a_ready a (m_k m)) then (Done m, [])
                else match hs with
                     | None => (Error EQpack, [])
                     | Some hs =>
                         match add_headers (mkMsg (m_state m) (m_src m) (m_blocked m) (S (m_k m))) hs fin with
                         | (Done m2, ev) =>
                             match m_state m2 with
                             | MClosed | MConnect => (Done m2, ev)
                             | _ => let '(o2, ev2) := receive_internal fuel' a m2 in (o2, ev ++ ev2)
                             end
                         | bad => bad
                         end
                     end
            end
        | MReading _ => (Done m, [])
        | MPending | MClosed => (Panicked, [])
        | MConnect => (Done m, [])
        end
    end.
  (** Every second round takes a frame. *)
  Definition m_fuel (m : msg) : nat := (2 * length (concat (s_chunks (m_src m))) + 3)%nat.
  (** 417-423 [receive]. *)
  Definition m_receive (a : answers) (m : msg) : out msg * list mevent := receive_internal (m_fuel m) a m.
  (** 435-477 [read_data]: the bytes and whether the body has ended. *)
  Fixpoint m_read (fuel : nat) (a : answers) (m : msg) (room : nat) : out (msg * list N * bool) * list mevent :=
    match fuel with
    | O => (Panicked, [])
    | S fuel' =>
        match m_state m with
        | MReading rem =>
            match read_data (m_src m) (N.to_nat (N.min rem (N.of_nat room))) with
            | (None, _) => (Panicked, [])
            | (Some (b, fin), s') =>
                let rem' := rem - lenN b in
                let m1 := mkMsg (MReading rem') s' (m_blocked m) (m_k m) in
                if fin then
                  if 0 <? rem' then (Error (EFrame HttpFrame), [])
                  else let '(m2, ev) := set_closed m1 in (Done (m2, b, true), ev)
                else if rem' =? 0 then
                  match m_receive a (m_with m1 (MData r_new)) with
                  | (Done m2, ev) =>
                      let '(o3, ev3) := m_read fuel' a m2 (room - length b) in
                      (match o3 with Done (m3, b3, f) => Done (m3, b ++ b3, f) | Error e => Error e | Panicked => Panicked end, ev ++ ev3)
                  | (Error e, ev) => (Error e, ev)
                  | (Panicked, ev) => (Panicked, ev)
                  end
                else (Done (m1, b, false), [])
            end
        | MPending => let '(m2, ev) := set_closed m in (Done (m2, [], true), ev)
        | _ => (Done (m, [], false), [])
        end
    end.
  Definition m_read_data (a : answers) (m : msg) (room : nat) := m_read (length (concat (s_chunks (m_src m))) + 2) a m room.
  (** 484-508 [header_unblocked]. *)
  Fixpoint unblock (a : answers) (m : msg) (ps : list (N * list N)) : out msg * list mevent :=
    match ps with
    | [] => m_receive a (mkMsg (m_state m) (m_src m) [] (m_k m))
    | (id, b) :: ps' =>
        match a_promise a b with
        | PTaken => let '(o, ev) := unblock a m ps' in (o, VPromise id b :: ev)
        | PBlocked => (Done (mkMsg (m_state m) (m_src m) ps (m_k m)), [])
        | PQpack => (Error EQpack, [])
        | PController => (Error EPush, [])
        end
    end.
  Definition m_unblocked (a : answers) (m : msg) : out msg * list mevent := unblock a m (m_blocked m).
End Message.
