(** Properties of stream reassembly (C10, C11, C55). *)
From Verif Require Import Base CodecModel FcModel RxModel RxSpec RxProofs Lib.

(** ** C10 *)

(** No sequence of frames and reads makes reassembly panic. *)
Theorem reassembly_never_panics : forall ops, Forall xop_ok ops -> exists s outs, xruns rx_new ops = Some (s, outs).
Proof. exact no_panic_lemma. Qed.
Print Assumptions reassembly_never_panics.

(** When all frames are pieces of one stream, what was read is a prefix of that stream. *)
Theorem delivered_is_stream_prefix : forall g ops s outs, Forall xop_ok ops -> pieces_of g (frames ops) -> xruns rx_new ops = Some (s, outs) ->
  delivered outs = stream_slice g 0 (length (delivered outs)).
Proof. exact prefix_lemma. Qed.
Print Assumptions delivered_is_stream_prefix.

(** A read stops short of the space offered only where the next byte has not arrived. *)
Theorem read_delivers_all_that_arrived : forall ops s outs n, Forall xop_ok ops -> xruns rx_new ops = Some (s, outs) ->
  exists s' l, xstep s (XRead n) = Some (s', XBytes l) /\ lenN l <= n /\
    (lenN l < n -> ~ arrived (frames ops) (lenN (delivered outs) + lenN l)).
Proof. exact read_all_lemma. Qed.
Print Assumptions read_delivers_all_that_arrived.

(** The number of readable bytes is exact, and [read_to_end] reads that many. *)
Theorem readable_count_exact : forall ops s outs, Forall xop_ok ops -> xruns rx_new ops = Some (s, outs) ->
  exists n, rx_bytes_ready s = Some n /\
    (forall x, x < lenN (delivered outs) + n -> arrived (frames ops) x) /\ ~ arrived (frames ops) (lenN (delivered outs) + n) /\
    (rx_ready s = true <-> 0 < n) /\
    (exists s' l, rx_read_to_end s = Some (s', l) /\ lenN l = n).
Proof. exact ready_lemma. Qed.
Print Assumptions readable_count_exact.

Definition sample_ops : list xop := [XFrame 3 [13;14]; XFrame 1 [11;12;13]; XRead 9; XFrame 0 [10]; XRead 2; XFrame 0 [10;11;12;13]; XFrame 4 [14;15]; XRead 9].
Example reassembly_sample : Forall xop_ok sample_ops /\ pieces_of (fun x => 10 + x) (frames sample_ops) /\
  match xruns rx_new sample_ops with Some (_, outs) => delivered outs = [10;11;12;13;14;15] /\ ~ In XViolation outs | None => False end.
Proof.
  split; [repeat constructor; vm_compute; discriminate|]. split.
  - intros f x b Hf Hc. unfold sample_ops in Hf. cbn [frames In] in Hf.
    repeat (destruct Hf as [<-|Hf]; [pose proof (carries_range _ _ _ _ Hc) as Hr; cbn in Hr;
      assert (x = 0 \/ x = 1 \/ x = 2 \/ x = 3 \/ x = 4 \/ x = 5) as Hx by lia;
      repeat destruct Hx as [->|Hx]; try (subst x); vm_compute in Hc; vm_compute; congruence|]). destruct Hf.
  - vm_compute. split; [reflexivity|]. intros H. repeat (destruct H as [H|H]; [discriminate|]). destruct H.
Qed.

(** ** C11 *)

(** Even frames that contradict each other: each byte read came from a frame that carried
    that offset. *)
Theorem delivered_bytes_came_from_frames : forall ops s outs i b, Forall xop_ok ops -> xruns rx_new ops = Some (s, outs) ->
  nth_error (delivered outs) i = Some b -> exists f, In f (frames ops) /\ carries f (N.of_nat i) = Some b.
Proof. exact delivered_lemma. Qed.
Print Assumptions delivered_bytes_came_from_frames.

(** What is buffered: non-empty ranges that end past the read position, in order and disjoint,
    that cover the offsets received and not yet read and carry bytes that frames carried. *)
Theorem buffer_holds_exactly_unread_data : forall ops s outs, Forall xop_ok ops -> xruns rx_new ops = Some (s, outs) ->
  let r := lenN (delivered outs) in
  (forall e, In e (rx_ranges s) -> snd e <> [] /\ r < fst e + lenN (snd e)) /\
  (forall i j e f, (i < j)%nat -> nth_error (rx_ranges s) i = Some e -> nth_error (rx_ranges s) j = Some f -> fst e + lenN (snd e) <= fst f) /\
  (forall x, r <= x -> (arrived (frames ops) x <-> exists e b, In e (rx_ranges s) /\ carries e x = Some b)) /\
  (forall e x b, r <= x -> In e (rx_ranges s) -> carries e x = Some b -> exists f, In f (frames ops) /\ carries f x = Some b).
Proof. exact content_lemma. Qed.
Print Assumptions buffer_holds_exactly_unread_data.

(** ** C55 *)

(** As long as no frame is refused, the number of ranges is bounded by the offset range. *)
Theorem buffered_ranges_bounded : forall ops s outs, Forall xop_ok ops -> xruns rx_new ops = Some (s, outs) -> ~ In XViolation outs ->
  lenN (rx_ranges s) <= MAX_GAPS + rx_end s / RANGE_TARGET.
Proof. exact bounded_lemma. Qed.
Print Assumptions buffered_ranges_bounded.

(** A frame is refused only if the ranges exceed that allowance.  The full claim, that a frame
    is refused only if the data has more than 4096 gaps, is false: see below. *)
Theorem refused_only_when_fragmented_partial : forall s o s', xstep s o = Some (s', XViolation) ->
  MAX_GAPS + (rx_end s' - rx_retired s') / RANGE_TARGET < lenN (rx_ranges s').
Proof. exact refused_lemma. Qed.
Print Assumptions refused_only_when_fragmented_partial.

(** 4098 single bytes that arrive last to first: the last one closes the only gap there ever
    was, and is refused. *)
Definition backwards (n : nat) : list xop := map (fun i => XFrame (N.of_nat (n - i)) [7]) (seq 1 n).
Theorem refused_only_when_fragmented_refuted : exists ops s outs, Forall xop_ok ops /\ xruns rx_new ops = Some (s, outs) /\
  In XViolation outs /\ (forall x, x < rx_end s -> arrived (frames ops) x) /\ delivered outs = [] /\ rx_end s = 4098.
Proof.
  exists (backwards 4098).
  assert (E : match xruns rx_new (backwards 4098) with Some (s, outs) => nth_error outs 4097 = Some XViolation /\ delivered outs = [] /\ rx_end s = 4098 | None => False end).
  { vm_compute. auto. }
  destruct (xruns rx_new (backwards 4098)) as [[s outs]|]; [|destruct E]. destruct E as (E1 & E2 & E3).
  exists s, outs. assert (F : forall n, frames (backwards n) = map (fun i => (N.of_nat (n - i), [7])) (seq 1 n)).
  { intros n. unfold backwards. induction (seq 1 n) as [|a l IH]; cbn [map frames]; [reflexivity|]. rewrite IH. reflexivity. }
  split.
  { apply Forall_forall. intros o Ho. unfold backwards in Ho. apply in_map_iff in Ho as (i & <- & Hi). apply in_seq in Hi. cbn [xop_ok]. change (lenN [7]) with 1. change (2 ^ 62) with 4611686018427387904. lia. }
  splits; auto.
  - eapply nth_error_In; eauto.
  - intros x Hx. rewrite E3 in Hx. exists (x, [7]), 7. split.
    + rewrite F. apply in_map_iff. exists (4098 - N.to_nat x)%nat. split; [f_equal; lia|]. apply in_seq. lia.
    + unfold carries. cbn [fst snd]. rewrite N.leb_refl, N.sub_diag. reflexivity.
Qed.
Print Assumptions refused_only_when_fragmented_refuted.
