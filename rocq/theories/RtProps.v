(** C18: the delivery state of every byte of a send stream. *)
From Verif Require Import Base Lib RtModel RtSpec RtProofs.

Theorem send_ranges_never_panic : forall ops, rt_runs rt_new ops <> None.
Proof. exact send_ranges_never_panic_lemma. Qed.
Print Assumptions send_ranges_never_panic.

(** A byte is taken to be acknowledged exactly if a range with it was acknowledged. *)
Theorem acked_bytes_exact : forall ops t h b, rt_runs rt_new ops = Some (t, h) -> (state_of t b = Some true <-> was_acked ops b).
Proof. exact acked_exact. Qed.
Print Assumptions acked_bytes_exact.

(** The contiguous acknowledged prefix, which allows data to be dropped, is made of
    acknowledged bytes and is as long as possible. *)
Theorem acked_prefix_exact : forall ops t h, rt_runs rt_new ops = Some (t, h) ->
  (forall b, b < rt_acked t -> was_acked ops b) /\ ~ was_acked ops (rt_acked t).
Proof. exact acked_prefix_lemma. Qed.
Print Assumptions acked_prefix_exact.

(** A byte taken to be in flight was sent, not declared lost since, and not acknowledged. *)
Theorem in_flight_bytes_sound : forall ops t h b, rt_runs rt_new ops = Some (t, h) -> state_of t b = Some false ->
  sent_not_lost ops b /\ ~ was_acked ops b.
Proof. exact in_flight_sound. Qed.
Print Assumptions in_flight_bytes_sound.

(** So a byte that was not acknowledged, and is not in flight, is to be sent. *)
Theorem lost_bytes_are_to_be_sent : forall ops t h b, rt_runs rt_new ops = Some (t, h) ->
  ~ was_acked ops b -> ~ sent_not_lost ops b -> state_of t b = None.
Proof. exact lost_bytes_lemma. Qed.
Print Assumptions lost_bytes_are_to_be_sent.

(** The range that is offered for sending is the lowest run of bytes to be sent. *)
Theorem next_range_is_lowest_to_send : forall ops t h, rt_runs rt_new ops = Some (t, h) ->
  let '(o, l) := snd (rt_first_unmarked t) in lowest_run (state_of t) o l.
Proof. exact next_range_lemma. Qed.
Print Assumptions next_range_is_lowest_to_send.

(** The state is the ideal one if no lost range has bytes in flight on both sides.
    Missing: lost ranges in the middle of a run in flight (next two theorems). *)
Theorem send_state_exact_partial : forall ops t h, losses_at_edges ops -> rt_runs rt_new ops = Some (t, h) ->
  forall b, state_of t b = ideal ops b None.
Proof. exact exact_at_edges. Qed.
Print Assumptions send_state_exact_partial.
Example losses_at_edges_met :
  losses_at_edges [TSent 0 10; TAcked 2 3; TLost 5 5] /\
  match rt_runs rt_new [TSent 0 10; TAcked 2 3; TLost 5 5] with
  | Some (t, _) => map (state_of t) [0; 2; 4; 5; 9] = [Some false; Some true; Some true; None; None]
  | None => False end.
Proof.
  split; [|vm_compute; reflexivity]. intros be off len af E Hl Ho.
  destruct be as [|o1 be]; [discriminate|]. injection E as <- E. destruct be as [|o2 be]; [discriminate|]. injection E as <- E.
  destruct be as [|o3 be]; [|destruct be; discriminate]. injection E as <- <- <-. vm_compute. discriminate.
Qed.

(** What every single operation does to every byte, exactly. *)
Theorem send_state_step_exact : forall ops t h o t' x b, rt_runs rt_new ops = Some (t, h) -> rt_step t o = Some (t', x) ->
  (forall off len, o = TLost off len -> 0 < len -> loses_too (state_of t) off len b -> state_of t' b = None) /\
  ((forall off len, o = TLost off len -> 0 < len -> ~ loses_too (state_of t) off len b) -> state_of t' b = ideal1 o b (state_of t b)).
Proof. exact step_exact_lemma. Qed.
Print Assumptions send_state_step_exact.
Example loses_too_met : match rt_runs rt_new [TSent 0 10] with
  | Some (t, _) => (forall c, 2 <= c <= 7 -> state_of t c = Some false) /\
      match rt_step t (TLost 3 2) with Some (t', _) => state_of t' 7 = None /\ state_of t' 2 = Some false | None => False end
  | None => False end.
Proof.
  vm_compute rt_runs. cbv iota beta. split; [|vm_compute; split; reflexivity].
  intros c Hc. unfold state_of. cbn. replace (c <? 0) with false by lia. destruct c; cbn; [lia|]. replace (N.pos p <? 0 + 10) with true by lia. reflexivity.
Qed.

(** The full claim is false: losing the middle of a run that was sent in several packets also
    forgets that the part after it is in flight, so it is sent again. *)
Theorem in_flight_bytes_complete_refuted : exists ops t h b,
  rt_runs rt_new ops = Some (t, h) /\ sent_not_lost ops b /\ ~ was_acked ops b /\ state_of t b = None.
Proof. exact in_flight_refuted_lemma. Qed.
Print Assumptions in_flight_bytes_complete_refuted.
