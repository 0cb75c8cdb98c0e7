From Coq Require Import String.
From Verif Require Import Base Lib CodecModel CodecSpec Reader HfModel HfSpec HfProofs HfProofs2 HhModel HmModel HmSpec HmProofs HmProofs2 HmProofs3.
Open Scope N_scope.
Open Scope list_scope.
Import ListNotations.

(** The bytes of a stream are one message, however they are read: the specification is a function. *)
Theorem message_unique : forall prio D mt push bytes,
  exists hs body f, message (h3 prio read_settings) D mt push InHead 0 bytes hs body f /\
    forall hs' body' f', message (h3 prio read_settings) D mt push InHead 0 bytes hs' body' f' -> hs' = hs /\ body' = body /\ f' = f.
Proof.
  intros. destruct (message_total prio D mt push _ InHead 0 bytes (Nat.lt_succ_diag_r _)) as (hs & b & f & M). exists hs, b, f. split; [exact M|].
  intros hs' b' f' M'. exact (message_det _ _ _ _ _ _ _ _ _ _ M' _ _ _ M).
Qed.
Print Assumptions message_unique.

(** C93 (1): what an application has been given is always the beginning of the message that the bytes spell, whatever bytes come
    next, and it is not told that the message has ended. *)
Theorem message_so_far : forall prio D mt push first xs w, first_ok prio first -> Forall act_ok xs ->
  w_run prio D mt push (w_init first) xs = Some w -> w_status w = Running ->
  w_ends w = 0%nat /\
  forall x hs body f, (s_fin (m_src (w_msg w)) = true -> x = []) -> message (h3 prio read_settings) D mt push InHead 0 (w_all w ++ x) hs body f ->
    exists hs' body', hs = w_heads w ++ hs' /\ body = w_body w ++ body'.
Proof.
  intros prio D mt push first xs w Fo Ok R St. pose proof (winv_run prio D mt push xs (w_init first) (winv_init _ _ _ _ _ Fo) Ok) as V. rewrite R in V.
  split; [eapply running_ends; eauto|]. intros x hs body f Fx M. unfold winv in V. rewrite St in V. destruct V as [A N].
  destruct (m_state (w_msg w)) eqn:Es; try (eapply at_prefix; [exact A| | |exact M]; congruence).
  destruct A as (S & _ & A). rewrite Es in A. destruct A as (_ & O & Dn). destruct S as (_ & _ & S). destruct (S O) as [Fi _]. rewrite (Fx Fi), app_nil_r in M.
  destruct (message_det _ _ _ _ _ _ _ _ _ _ M _ _ _ Dn) as (-> & -> & _). exists [], []. rewrite !app_nil_r. auto.
Qed.
Print Assumptions message_so_far.

(** C93 (2): the end is told exactly once, only after the stream was finished by the sender and with exactly the headers and body sent;
    the other way for a stream to be over is an extended CONNECT, which is never told as the end of a message. *)
Theorem message_ended : forall prio D mt push first xs w, first_ok prio first -> Forall act_ok xs ->
  w_run prio D mt push (w_init first) xs = Some w -> w_status w = Ending ->
  s_fin (m_src (w_msg w)) = true /\
  ((w_ends w = 1%nat /\ message (h3 prio read_settings) D mt push InHead 0 (w_all w) (w_heads w) (w_body w) (Between true)) \/
   (w_ends w = 0%nat /\ message (h3 prio read_settings) D mt push InHead 0 (w_all w) (w_heads w) (w_body w) Session)).
Proof.
  intros prio D mt push first xs w Fo Ok R St. pose proof (winv_run prio D mt push xs (w_init first) (winv_init _ _ _ _ _ Fo) Ok) as V. rewrite R in V.
  unfold winv in V. rewrite St in V. destruct V as [(_ & _ & A) N]. rewrite N in A. destruct A as [F [[E M]|[E M]]]; split; auto.
  right. split; [exact E|]. specialize (M []). rewrite app_nil_r in M. exact M.
Qed.
Print Assumptions message_ended.

(** C93 (3): an error is reported only for bytes that deserve it, for the reason stated; nothing has been given to the application that
    is not of the message, and its end was not told. Errors of the push controller and of promised requests are not followed here. *)
Theorem message_errors : forall prio D mt push first xs w e, first_ok prio first -> Forall act_ok xs ->
  w_run prio D mt push (w_init first) xs = Some w -> w_status w = Broken e ->
  w_ends w = 0%nat /\
  ((push = true /\ (e = EPush \/ e = EQpack)) \/
   exists hs body f, message (h3 prio read_settings) D mt push InHead 0 (w_all w) (w_heads w ++ hs) (w_body w ++ body) f /\
     (f = Wrong e \/ (s_fin (m_src (w_msg w)) = true /\ ((f = Inside /\ e = EFrame HttpFrame) \/ (f = Between false /\ e = EGeneral))))).
Proof.
  intros prio D mt push first xs w e Fo Ok R St. pose proof (winv_run prio D mt push xs (w_init first) (winv_init _ _ _ _ _ Fo) Ok) as V. rewrite R in V.
  unfold winv in V. rewrite St in V. destruct V as [V E]. split; [exact E|]. destruct V as [V|(hs & b & [V|(F & [(-> & V)|(-> & V)])])]; [left; exact V|right|right|right].
  - exists hs, b, (Wrong e). split; [|auto]. specialize (V []). rewrite app_nil_r in V. exact V.
  - exists hs, b, Inside. split; [exact V|]. right. auto.
  - exists hs, b, (Between false). split; [exact V|]. right. auto.
Qed.
Print Assumptions message_errors.

(** C93 (4): where push promises cannot come (a server, or a stream without push) no sequence of bytes and calls makes the receiver panic. *)
Theorem message_no_panic : forall prio D mt first xs, first_ok prio first -> Forall act_ok xs -> w_run prio D mt false (w_init first) xs <> None.
Proof.
  intros prio D mt first xs Fo Ok R. pose proof (winv_run prio D mt false xs (w_init first) (winv_init _ _ _ _ _ Fo) Ok) as V. rewrite R in V. discriminate.
Qed.
Print Assumptions message_no_panic.

(** C93 (5): nothing is left waiting: once the sender has finished and QPACK can decode, the stream being reported and the application
    reading with any room brings the message to its end, to an error, or to an extended CONNECT. *)
Theorem message_comes_through : forall prio D mt first xs w a room, first_ok prio first -> Forall act_ok xs ->
  w_run prio D mt false (w_init first) xs = Some w -> s_fin (m_src (w_msg w)) = true -> (forall k, a_ready a k = true) -> (1 <= room)%nat ->
  exists w', w_run prio D mt false w (Readable a :: Unblocked a :: repeat (Reads a room) (S (length (concat (s_chunks (m_src (w_msg w))))))) = Some w' /\ w_all w' = w_all w /\
    (w_status w' = Ending \/ (exists e, w_status w' = Broken e) \/ message (h3 prio read_settings) D mt false InHead 0 (w_all w) (w_heads w') (w_body w') Session).
Proof.
  intros prio D mt first xs w a room Fo Ok R F Ar Hr. pose proof (winv_run prio D mt false xs (w_init first) (winv_init _ _ _ _ _ Fo) Ok) as V. rewrite R in V.
  destruct (to_the_end prio D mt false a room w eq_refl Ar Hr V F) as (w' & E & V' & O & Ea). exists w'. splits; auto.
  destruct (w_status w') eqn:St; [|auto|right; left; eauto]. right. right. destruct O as [O|O]; [congruence|]. unfold winv in V'. rewrite St, O in V'. destruct V' as [(_ & _ & A) _]. rewrite O in A. destruct A as [_ A].
  specialize (A []). rewrite app_nil_r, Ea in A. exact A.
Qed.
Print Assumptions message_comes_through.

(** A response in pieces: headers, five bytes of body in two frames, an unknown frame between them, trailers. *)
Definition ex_prio (_ : list N) : option priority := None.
Definition ex_D (_ : nat) (b : list N) : section := match b with [200] => SGood false (Some [(str ":status", str "200")]) | _ => SBad end.
Definition ex_ready : answers := mkA (fun _ => true) (fun _ => PTaken).
Definition ex_blocked : answers := mkA (fun _ => false) (fun _ => PBlocked).
Example message_case :
  match w_run ex_prio ex_D Response false (w_init None)
    [Arrives [1; 1]; Readable ex_ready; Arrives [200; 0; 3; 97]; Readable ex_blocked; Unblocked ex_ready; Reads ex_ready 10; Arrives [98; 99; 0x21; 1; 5; 0; 2; 100]; Reads ex_ready 10; Arrives [101; 1; 1; 5];
     Finishes; Reads ex_ready 10; Readable ex_ready; Reads ex_ready 10] with
  | Some w => w_status w = Ending /\ w_heads w = [([(str ":status", str "200")], false)] /\ w_body w = [97; 98; 99; 100; 101] /\ w_ends w = 1%nat
  | None => False
  end.
Proof. vm_compute. auto. Qed.
Example first_case : first_ok ex_prio (Some ([1], 1)).
Proof. repeat split; try discriminate. repeat constructor. Qed.
Example message_error_case :
  match w_run ex_prio ex_D Response false (w_init None) [Arrives [1; 1; 200; 0; 3; 97]; Finishes; Readable ex_ready; Reads ex_ready 10] with
  | Some w => w_status w = Broken (EFrame HttpFrame)
  | None => False
  end.
Proof. vm_compute. auto. Qed.

(** C93 (6): with push it does panic: a promise that waits for QPACK, the end of the stream, and then the unblocking. *)
Theorem promise_after_end_refuted : exists prio D xs, Forall act_ok xs /\ w_run prio D Response true (w_init None) xs = None.
Proof.
  exists ex_prio, ex_D, [Arrives [1; 1; 200; 5; 2; 0; 7]; Finishes; Readable (mkA (fun _ => true) (fun _ => PBlocked)); Unblocked ex_ready]. split.
  - repeat constructor; vm_compute; reflexivity.
  - vm_compute. reflexivity.
Qed.
Print Assumptions promise_after_end_refuted.
