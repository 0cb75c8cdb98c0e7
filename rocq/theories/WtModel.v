(** The sending side of a WebTransport stream: neqo-http3/src/features/extended_connect/webtransport_streams.rs 113-330 and
    the calls of connection.rs that reach it. *)
From Coq Require Import NArith List Bool.
From Verif Require Import Base CodecModel HfModel.
Import ListNotations.
Open Scope N_scope.

(** webtransport_streams.rs 20-21, 140-160 [new]: what a stream opened here begins with; None is a panic. *)
Definition WT_UNI := 0x54.
Definition WT_BIDI := 0x41.
Definition wt_preface (uni : bool) (sid : N) : option (list N) :=
  obind (varint_bytes (if uni then WT_UNI else WT_BIDI)) (fun a => obind (varint_bytes sid) (fun b => Some (a ++ b))).
(** webtransport_streams.rs 107-111 [WebTransportSenderStreamState]. *)
Inductive wstate := WInit (buf : list N) (fin : bool) | WSending | WDone.
(** The stream, whether connection.rs still has it in [send_streams], and the transport's stream: the bytes it took, how
    many of them it promised to deliver even after a reset, and whether its end was requested. *)
Record wts := mkWT { w_state : wstate; w_here : bool; q_bytes : list N; q_commit : N; q_fin : bool }.
(** What the transport answers: how many bytes it has room for, or an error; whether it commits, cannot (the peer does not
    support it) or fails; whether it closes. *)
Inductive wcommit := CDone | CCannot | CFails.
Definition w_take (r : N) (b : list N) : nat := N.to_nat (N.min r (lenN b)).
Definition q_do_commit (s : wts) (ci : wcommit) : wts :=
  match ci with CDone => mkWT (w_state s) (w_here s) (q_bytes s) (lenN (q_bytes s)) (q_fin s) | _ => s end.
(** 201-234 [send]; the answer is whether there was no error. *)
Definition w_send (s : wts) (r : option N) (ci : wcommit) (cl : bool) : wts * bool :=
  match w_state s with
  | WInit buf fin =>
      match r with
      | None => (s, false)
      | Some r =>
          let n := w_take r buf in
          if Nat.eqb n (length buf) then
            let s1 := q_do_commit (mkWT WSending (w_here s) (q_bytes s ++ buf) (q_commit s) (q_fin s)) ci in
            let ok := match ci with CFails => false | _ => true end in
            if fin then (mkWT WDone (w_here s1) (q_bytes s1) (q_commit s1) (q_fin s1 || cl), ok && cl) else (s1, ok)
          else (mkWT (WInit (skipn n buf) fin) (w_here s) (q_bytes s ++ firstn n buf) (q_commit s) (q_fin s), true)
      end
  | _ => (s, true)
  end.
Definition w_is_done (s : wstate) : bool := match s with WDone => true | _ => false end.
Definition w_is_sending (s : wstate) : bool := match s with WSending => true | _ => false end.
Definition w_gone (s : wts) : wts := mkWT (w_state s) false (q_bytes s) (q_commit s) (q_fin s).
Inductive wop :=
| WServe (r : option N) (ci : wcommit) (cl : bool)                                (* connection.rs 407-428 *)
| WWrite (b : list N) (r : option N) (ci : wcommit) (cl : bool) (r2 : option N)   (* connection_client.rs 667-677 *)
| WCommit (r : option N) (ci : wcommit) (cl : bool) (ci2 : wcommit)               (* connection.rs 1052-1065 *)
| WClose (cl : bool)                                                              (* connection.rs 1195-1217 *)
| WStop.                                                                          (* STOP_SENDING, or a reset: connection.rs 580-594, 1028-1043 *)
Inductive wout := WOk | WTaken (n : N) | WNone | WErr | WNoStream.
Definition w_step (s : wts) (o : wop) : wts * wout :=
  if negb (w_here s) then (s, match o with WServe _ _ _ | WStop => WNone | _ => WNoStream end)
  else match o with
  | WServe r ci cl =>
      let '(s1, ok) := w_send s r ci cl in
      if negb ok then (s1, WErr) else if w_is_done (w_state s1) then (w_gone s1, WNone) else (s1, WNone)
  (* webtransport_streams.rs 266-274 [send_data] *)
  | WWrite b r ci cl r2 =>
      let '(s1, ok) := w_send s r ci cl in
      if negb ok then (s1, WErr)
      else if w_is_sending (w_state s1) then
        match r2 with
        | None => (s1, WErr)
        | Some r2 => let n := w_take r2 b in (mkWT WSending (w_here s1) (q_bytes s1 ++ firstn n b) (q_commit s1) (q_fin s1), WTaken (N.of_nat n))
        end
      else (s1, WTaken 0)
  (* 236-245 [commit] *)
  | WCommit r ci cl ci2 =>
      let '(s1, ok) := w_send s r ci cl in
      if negb ok then (s1, WErr)
      else if w_is_sending (w_state s1) then (q_do_commit s1 ci2, match ci2 with CDone => WOk | _ => WErr end)
      else (s1, WErr)
  (* 280-289 [close] *)
  | WClose cl =>
      match w_state s with
      | WInit buf _ => (mkWT (WInit buf true) (w_here s) (q_bytes s) (q_commit s) (q_fin s), WOk)
      | _ => (mkWT WDone false (q_bytes s) (q_commit s) (q_fin s || cl), WOk)
      end
  (* 276-278 [handle_stop_sending] *)
  | WStop => (mkWT WDone false (q_bytes s) (q_commit s) (q_fin s), WNone)
  end.
(** A stream opened here, and the sending side of one the peer opened. *)
Definition w_new (preface : list N) : wts := mkWT (WInit preface false) true [] 0 false.
Definition w_peer : wts := mkWT WSending true [] 0 false.
Fixpoint w_run (s : wts) (os : list wop) : wts * list (wop * wout) :=
  match os with [] => (s, []) | o :: os' => let '(s1, a) := w_step s o in let '(s2, l) := w_run s1 os' in (s2, (o, a) :: l) end.

(** 290-322 [stats]: the bytes written, sent or acknowledged, as the application is told; [client_opened] is bit 0 of the
    stream's identifier. *)
Definition w_stat (client_opened uni : bool) (sid count : N) : option N :=
  if client_opened then obind (varint_len (if uni then WT_UNI else WT_BIDI)) (fun a => obind (varint_len sid) (fun b => Some (count - (a + b)))) else Some count.
