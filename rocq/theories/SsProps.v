(** Theorems about the sending part of a stream, for every history: writes, closing, commitments,
    resets, limits, priorities, frames written, acknowledgements and losses in any order, also
    repeatedly. *)
From Verif Require Import Base Lib CodecModel FrameModel FrameSpec FcModel RtModel RtSpec SsModel SsSpec SsProofs SsProofs2 SsProofs3.

(** ** C63 No history makes a send stream panic. *)
Theorem send_stream_never_panics : forall id max conn ops, id < 2 ^ 62 -> max < 2 ^ 62 -> conn_ok conn -> Forall op_ok ops ->
  exists s toks h, ss_runs (fst (ss_new id max conn), []) ops = Some ((s, toks), h).
Proof. intros id max conn ops A B C D. destruct (runs_inv id max conn ops A B C D) as (s & t & h & E & _). eauto. Qed.
Print Assumptions send_stream_never_panics.

(** ** C19 *)
(** Every STREAM frame carries the bytes written at its offset, and says FIN only at the end of a
    closed stream; RESET_STREAM and RESET_STREAM_AT carry the error code, the number of bytes
    written and the committed size; STREAM_DATA_BLOCKED carries a limit the peer gave. *)
Theorem frames_say_what_was_written : forall id max conn ops s toks h, reach id max conn ops s toks h ->
  Forall (frame_good id (slimit max h) (written h) (summ h)) (frames h).
Proof. intros id max conn ops s toks h R. rewrite <- (reach_id _ _ _ _ _ _ _ R). apply (reach_inv _ _ _ _ _ _ _ R). Qed.
Print Assumptions frames_say_what_was_written.

(** Two frames that carry the same offset carry the same byte there. *)
Theorem retransmissions_agree : forall id max conn ops s toks h, reach id max conn ops s toks h ->
  forall f1 f2 o1 l1 n1 o2 l2 n2, In f1 (frames h) -> In f2 (frames h) -> snd f1 = TkStream o1 l1 n1 -> snd f2 = TkStream o2 l2 n2 ->
  exists d1 d2 x1 x2, frame_wire (FStream id o1 d1 n1 x1) = Some (fst f1) /\ frame_wire (FStream id o2 d2 n2 x2) = Some (fst f2) /\
    lenN d1 = l1 /\ lenN d2 = l2 /\
    forall x, covers o1 l1 x -> covers o2 l2 x -> nth_error d1 (N.to_nat (x - o1)) = nth_error d2 (N.to_nat (x - o2)).
Proof.
  intros id max conn ops s toks h R f1 f2 o1 l1 n1 o2 l2 n2 H1 H2 E1 E2.
  pose proof (frames_say_what_was_written _ _ _ _ _ _ _ R) as F. rewrite Forall_forall in F. eapply same_bytes; eauto.
Qed.
Print Assumptions retransmissions_agree.

(** ** C20 *)
(** If the stream says that there is nothing to write at any priority, everything is acknowledged
    or in flight: sent, and not declared lost since. *)
Theorem nothing_left_behind : forall id max conn ops s toks h, reach id max conn ops s toks h -> (forall p, ask s toks p false) ->
  match m_phase (summ h) with
  | PhOpen => forall b, b < lenN (written h) -> settled h (fun t => carries t b)
  | PhClosed => (forall b, b < lenN (written h) -> settled h (fun t => carries t b)) /\ settled h is_fin
  | PhReset e c => settled h is_reset /\ (m_dropped (summ h) = false -> forall b, b < c -> settled h (fun t => carries t b))
  end.
Proof. exact left_behind. Qed.
Print Assumptions nothing_left_behind.

(** Lost bytes are offered at the priority set for retransmission. *)
Theorem lost_bytes_offered_at_retransmission_priority : forall id max conn ops s toks h b, reach id max conn ops s toks h ->
  ask s toks (snd (prios h)) false -> was_lost h (fun t => carries t b) ->
  match m_phase (summ h) with
  | PhReset _ c => b < c -> m_dropped (summ h) = false -> settled h (fun t => carries t b)
  | _ => settled h (fun t => carries t b)
  end.
Proof. exact lost_again. Qed.
Print Assumptions lost_bytes_offered_at_retransmission_priority.

(** Completion is reported at most once, and it has been reported precisely if the stream was
    closed and not reset, and all bytes and the FIN were acknowledged. *)
Theorem completion_reported_once : forall id max conn ops s toks h, reach id max conn ops s toks h ->
  (completions h <= 1)%nat /\
  (completions h = 1%nat <-> m_phase (summ h) = PhClosed /\ acked_upto h (lenN (written h)) /\ was_acked h is_fin).
Proof.
  intros id max conn ops s toks h R. rewrite (completions_count _ _ _ _ _ _ _ R). rewrite <- (complete_iff _ _ _ _ (reach_inv _ _ _ _ _ _ _ R)).
  destruct (m_complete (summ h)); split; try lia; split; congruence.
Qed.
Print Assumptions completion_reported_once.

(** The stream has ended precisely if that is so, or the reset and what was committed (unless
    given up) were acknowledged. *)
Theorem stream_ends_when_acknowledged : forall id max conn ops s toks h, reach id max conn ops s toks h ->
  (ss_ended s = true <->
   match m_phase (summ h) with
   | PhOpen => False
   | PhClosed => acked_upto h (lenN (written h)) /\ was_acked h is_fin
   | PhReset e c => was_acked h is_reset /\ (acked_upto h c \/ m_dropped (summ h) = true)
   end).
Proof.
  intros id max conn ops s toks h R. pose proof (reach_inv _ _ _ _ _ _ _ R) as I. destruct (m_phase (summ h)) eqn:P.
  - rewrite (open_not_ended _ _ _ _ I P). split; [discriminate|tauto].
  - rewrite (closed_ended _ _ _ _ I P), (complete_iff _ _ _ _ I). tauto.
  - eapply reset_ended; eauto.
Qed.
Print Assumptions stream_ends_when_acknowledged.

(** ** C60 Asking and writing agree, frames fit, and a reset stream sends no more than it must. *)
Theorem writing_does_what_asking_says : forall id max conn ops s toks h p rem sp, reach id max conn ops s toks h ->
  exists w fs more, ss_step (s, toks) (OWrite p rem sp) = Some (w, RFrames fs more, []) /\
    total fs <= rem /\
    (fs <> [] -> ask s toks p true) /\ (40 <= rem -> ask s toks p true -> fs <> []) /\
    forall e c off len fin, m_phase (summ h) = PhReset e c -> In (TkStream off len fin) (map snd fs) -> off + len <= c /\ fin = false.
Proof.
  intros id max conn ops s toks h p rem sp R. pose proof (reach_inv _ _ _ _ _ _ _ R) as I.
  destruct (write_spec _ _ _ _ p rem sp I) as (s' & fs & more & E & _ & T & Rl & _ & A1 & A2).
  eexists _, fs, more. cbn [ss_step]. rewrite E. splits; [reflexivity|exact T| | |].
  - intros NE. specialize (A1 NE). unfold ask. cbn [ss_step]. destruct (ss_has_data_at p s) as [s1 x]. cbn in A1. subst x. eauto.
  - intros H40 (w & Ew). apply A2; [exact H40|]. cbn [ss_step] in Ew. destruct (ss_has_data_at p s) as [s1 x]. cbn. congruence.
  - intros e c off len fin P Hin. apply in_map_iff in Hin as (f & Ef & Hf). rewrite Forall_forall in Rl. specialize (Rl f Hf e c P). rewrite Ef in Rl. exact Rl.
Qed.
Print Assumptions writing_does_what_asking_says.

(** ** C61 Statistics *)
(** The counts of written, sent and acknowledged bytes are exact and ordered; the buffer is bounded. *)
Theorem stream_statistics : forall id max conn ops s toks h, reach id max conn ops s toks h ->
  ss_written s = lenN (written h) /\ ss_bytes s = highest (map snd (frames h)) /\ acked_upto h (ss_acked s) /\
  ss_acked s <= ss_bytes s <= ss_written s /\
  ((forall e c, m_phase (summ h) <> PhReset e c) ->
   (forall n, n <= lenN (written h) -> acked_upto h n -> n <= ss_acked s) /\ ss_written s - ss_acked s <= MAX_SIZE).
Proof.
  intros id max conn ops s toks h R. pose proof (reach_inv _ _ _ _ _ _ _ R) as I. assert (toks = map snd (frames h)) as <- by (apply I). eapply stats_ok; eauto.
Qed.
Print Assumptions stream_statistics.
Theorem stream_statistics_never_decrease : forall id max conn ops s toks h o s' toks' r evs, reach id max conn ops s toks h -> op_ok o ->
  ss_step (s, toks) o = Some ((s', toks'), r, evs) -> ss_acked s <= ss_acked s' /\ ss_bytes s <= ss_bytes s' /\ ss_written s <= ss_written s'.
Proof.
  intros id max conn ops s toks h o s' toks' r evs R Ho E. pose proof (reach_inv _ _ _ _ _ _ _ R) as I.
  destruct (step_inv _ _ _ _ o I Ho) as (s2 & t2 & r2 & e2 & E2 & I2 & _). rewrite E in E2. inv E2.
  destruct (step_keeps _ _ _ _ _ _ _ _ _ I Ho E) as (_ & _ & A & _). split; [exact A|].
  destruct (stats_ok _ _ _ _ I) as (-> & -> & _). destruct (stats_ok _ _ _ _ I2) as (-> & -> & _). 
  rewrite written_snoc, lenN_app. split; [|lia].
  assert (T : toks = map snd (frames h)) by (apply I). assert (T2 : t2 = map snd (frames (h ++ [(o, r2, e2)]))) by (apply I2). rewrite T, T2, frames_snoc, map_app, highest_app. lia.
Qed.
Print Assumptions stream_statistics_never_decrease.

(** ** C62 Sending *)
(** [send] takes as much of the data as there is room for (all or nothing if atomic), only while the
    stream is open. *)
Theorem send_takes_what_fits : forall id max conn ops s toks h d atomic, reach id max conn ops s toks h ->
  exists w r, ss_step (s, toks) (OSend d atomic) = Some (w, r, []) /\
    r = match d, m_phase (summ h) with
        | [], _ => RErr
        | _, PhOpen => RSent (if (ss_avail s <? lenN d) && atomic then 0 else N.min (ss_avail s) (lenN d))
        | _, _ => RErr
        end.
Proof.
  intros id max conn ops s toks h d atomic R. pose proof (reach_inv _ _ _ _ _ _ _ R) as I. destruct (send_spec _ _ _ _ d atomic I) as (s' & r & E & _ & X).
  cbn [ss_step]. rewrite E. eexists _, r. split; [reflexivity|exact X].
Qed.
Print Assumptions send_takes_what_fits.
(** The room: the peer's limits for the stream and the connection, and the buffer. *)
Theorem room_for_sending : forall id max conn ops s toks h, reach id max conn ops s toks h ->
  ss_avail s = match m_phase (summ h) with
               | PhOpen => N.min (N.min (slimit max h - lenN (written h)) (sf_limit (ss_conn s) - sf_used (ss_conn s))) (MAX_SIZE - (lenN (written h) - ss_acked s))
               | _ => 0
               end /\
  lenN (written h) <= slimit max h /\ sf_used (ss_conn s) <= sf_limit (ss_conn s).
Proof.
  intros id max conn ops s toks h R. pose proof (reach_inv _ _ _ _ _ _ _ R) as I. split; [eapply avail_ok; eauto|]. split; apply I.
Qed.
Print Assumptions room_for_sending.
(** The application is told when the room reaches its watermark, and only if there is that much. *)
Theorem writable_event : forall id max conn ops s toks h o s' toks' r evs, reach id max conn ops s toks h -> op_ok o ->
  ss_step (s, toks) o = Some ((s', toks'), r, evs) ->
  ((forall w, o <> OLow w) -> ss_low s' = ss_low s /\ (ss_avail s < ss_low s -> ss_low s <= ss_avail s' -> In EvWritable evs)) /\
  (In EvWritable evs -> ss_low s' <= ss_avail s').
Proof.
  intros id max conn ops s toks h o s' toks' r evs R Ho E. pose proof (reach_inv _ _ _ _ _ _ _ R) as I.
  destruct (step_keeps _ _ _ _ _ _ _ _ _ I Ho E) as (_ & _ & _ & _ & _ & A & B). auto.
Qed.
Print Assumptions writable_event.

(** ** Cases *)
(** Five bytes are sent in two frames; the second is lost and sent again with the FIN. *)
Definition ex_conn : sfc := sfc_new 1000.
Definition ex_ops : list ssop :=
  [OSend [10; 11; 12; 13; 14] false; OWrite PNormal 6 100; OWrite PNormal 40 100; OClose; OWrite PNormal 40 100;
   OLose 1; OHas PHigh; OWrite PHigh 40 100; OAck 0; OAck 2; OAck 3].
Example sending_case : Forall op_ok ex_ops /\ conn_ok ex_conn /\
  match ss_runs (fst (ss_new 4 100 ex_conn), []) ex_ops with
  | Some ((s, toks), h) =>
      toks = [TkStream 0 4 false; TkStream 4 1 false; TkStream 5 0 true; TkStream 4 1 true] /\
      completions h = 1%nat /\ ss_ended s = true /\ ss_acked s = 5 /\
      map fst (frames h) = [[8; 4; 10; 11; 12; 13]; [14; 4; 4; 1; 14]; [15; 4; 5; 0]; [15; 4; 4; 1; 14]]
  | None => False
  end.
Proof. split; [repeat constructor|]. split; [cbv; discriminate|]. vm_compute. splits; reflexivity. Qed.

(** A reset that keeps three committed bytes. *)
Definition ex_reset : list ssop :=
  [OSend [10; 11; 12] false; OCommit; OSend [13; 14] false; OWrite PNormal 40 100; OReset 7; OWrite PNormal 40 100; OLose 0; OWrite PHigh 40 100; OAck 1; OHas PNormal; OAck 2].
Example reset_case : Forall op_ok ex_reset /\
  match ss_runs (fst (ss_new 4 100 ex_conn), []) ex_reset with
  | Some ((s, toks), h) =>
      toks = [TkStream 0 5 false; TkReset; TkStream 0 3 false] /\ ss_ended s = true /\ m_phase (summ h) = PhReset 7 3 /\
      map fst (frames h) = [[10; 4; 5; 10; 11; 12; 13; 14]; [36; 4; 7; 5; 3]; [10; 4; 3; 10; 11; 12]]
  | None => False
  end.
Proof. split; [repeat constructor; reflexivity|]. vm_compute. splits; reflexivity. Qed.

(** A write that is refused for lack of room, and the event when the peer gives more. *)
Definition ex_block : list ssop := [OSend [1; 2; 3; 4] true; OSend [1; 2; 3; 4] false; OLow 2; OWrite PNormal 40 100; OMaxStream 4; OMaxStream 5].
Example blocked_case :
  match ss_runs (fst (ss_new 4 3 ex_conn), []) ex_block with
  | Some ((s, toks), h) =>
      map (fun e => (snd (fst e), snd e)) h =
        [(RSent 0, []); (RSent 3, []); (RNone, []); (RFrames [([21; 4; 3], TkBlocked 3); ([10; 4; 3; 1; 2; 3], TkStream 0 3 false)] true, []); (RNone, []); (RNone, [EvWritable])]
  | None => False
  end.
Proof. vm_compute. reflexivity. Qed.
