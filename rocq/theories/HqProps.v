(** C98: priority updates and the local control stream. *)
From Coq Require Import NArith List Bool Lia.
From Verif Require Import Base Lib CodecModel CodecProofs HfModel HqModel HqSpec HqProofs.
Import ListNotations.
Open Scope N_scope.

(** What is on the wire and what is buffered behind it are the stream's type and the frames given to the control stream,
    whole and in order. *)
Theorem control_bytes enc ops t c :
  (forall o, In o ops -> plain o) -> NoDup (flat_map opened ops) -> q_run enc q_init ops = (t, c) -> (forall o, ~ In (o, QPanic) t) ->
  q_wire c ++ q_buf c = 0 :: concat (map enc (frames t)).
Proof.
  intros PL ND R NP. apply (run_inv enc ops [] q_init t c (init_inv enc) PL ND (fun _ _ H => H) R NP).
Qed.
Print Assumptions control_bytes.

(** An open stream whose update is not waiting to be sent has the priority the application asked for last, as far as the peer
    was told. *)
Theorem priority_told enc ops t c id h :
  (forall o, In o ops -> plain o) -> NoDup (flat_map opened ops) -> q_run enc q_init ops = (t, c) -> (forall o, ~ In (o, QPanic) t) ->
  q_get id c = Some h -> ~ In id (q_queue c) -> asked id t <> None /\ told id t = asked id t.
Proof.
  intros PL ND R NP G NQ. destruct (run_inv enc ops [] q_init t c (init_inv enc) PL ND (fun _ _ H => H) R NP) as [[[_ I] _] _].
  cbn [app] in I. destruct (I id h (q_get_in _ _ _ G)) as (A & B & C). rewrite A, B. split; [discriminate|]. f_equal.
  destruct (prio_eqb (h_last h) (h_prio h)) eqn:E; [apply prio_eqb_eq; exact E|]. apply prio_eqb_neq in E. exfalso. apply NQ, C. congruence.
Qed.
Print Assumptions priority_told.

(** Every frame sent names the priority asked for last, and one the peer has not heard last. *)
Theorem priority_fresh enc ops t c t1 room pre f post t2 :
  (forall o, In o ops -> plain o) -> NoDup (flat_map opened ops) -> q_run enc q_init ops = (t, c) -> (forall o, ~ In (o, QPanic) t) ->
  t = t1 ++ (QSend room, QSent (pre ++ f :: post)) :: t2 ->
  exists id p, (f = FPriorityRequest id p \/ f = FPriorityPush id p) /\ asked id t1 = Some p /\ told id (t1 ++ [(QSend room, QSent pre)]) <> Some p.
Proof.
  intros PL ND R NP E. destruct (run_inv enc ops [] q_init t c (init_inv enc) PL ND (fun _ _ H => H) R NP) as [_ F].
  destruct (F t1 room _ t2 E pre f post eq_refl) as (id & p & X & A & W). exists id, p. splits; auto. rewrite told_snoc. exact W.
Qed.
Print Assumptions priority_fresh.

(** With the encoder of HTTP/3 frames a priority update takes at most 18 bytes; once the transport has room for what is buffered
    and 18 bytes for each waiting update, the peer knows all priorities. *)
Definition enc_real (r : N) (g : list N) (f : hframe) : list N := match h_encode r g f with Some b => b | None => [] end.
Lemma varint_short v l : varint_bytes v = Some l -> (length l <= 8)%nat.
Proof.
  intro H. apply varint_bytes_len in H. unfold varint_len in H. unfold lenN in H. repeat (match type of H with (if ?b then _ else _) = _ => destruct b end); inversion H; lia.
Qed.
Lemma update_size r g id p : (length (enc_real r g (FPriorityRequest id p)) <= 18)%nat /\ (length (enc_real r g (FPriorityPush id p)) <= 18)%nat.
Proof.
  assert (T : (length (priority_text p) <= 5)%nat) by (unfold priority_text; destruct (_ =? 3), (pr_incremental p); cbn; lia).
  assert (V : forall l : list N, (length l <= 13)%nat -> varint_bytes (lenN l) = Some [lenN l]).
  { intros l L. do 14 (destruct l as [|? l]; [reflexivity|]). cbn in L. lia. }
  assert (W : forall w, varint_bytes id = Some w -> exists b, vvec (w ++ priority_text p) = Some b /\ (length b <= 14)%nat).
  { intros w E. apply varint_short in E. unfold vvec. rewrite V by (rewrite app_length; lia). eexists. split; [reflexivity|]. cbn. rewrite app_length. lia. }
  unfold enc_real, h_encode, h_body, h_type. cbn [obind].
  assert (T1 : varint_bytes T_PRIORITY_REQUEST = Some [128; 15; 7; 0]) by reflexivity. assert (T2 : varint_bytes T_PRIORITY_PUSH = Some [128; 15; 7; 1]) by reflexivity.
  rewrite T1, T2. cbn [obind]. destruct (varint_bytes id) as [w|]; [|cbn; lia]. cbn [obind]. destruct (W w eq_refl) as (b & -> & L). cbn. lia.
Qed.
Theorem priority_progress r g ops t c room id h :
  (forall o, In o ops -> plain o) -> NoDup (flat_map opened ops) -> fair ops -> q_run (enc_real r g) q_init ops = (t, c) ->
  (length (q_buf c) + 18 * length (q_queue c) <= room)%nat ->
  exists fs c', q_step (enc_real r g) c (QSend room) = (QSent fs, c') /\ q_queue c' = [] /\ q_buf c' = [] /\
    (q_get id c' = Some h -> told id (t ++ [(QSend room, QSent fs)]) = asked id t).
Proof.
  intros PL ND F R L.
  assert (ND' : NoDup (flat_map opened (ops ++ [QSend room]))) by (rewrite flat_map_app; cbn; rewrite app_nil_r; exact ND).
  assert (F' : fair (ops ++ [QSend room])).
  { intros i p k H [q Q]. apply in_app_or in H. apply in_app_or in Q. destruct H as [H|[H|[]]]; [|discriminate]. destruct Q as [Q|[Q|[]]]; [|discriminate]. apply (F i p k H). eauto. }
  assert (K0 : K (ops ++ [QSend room]) q_init) by (split; [intros i x [] | intros i []]).
  destruct (run_kind (enc_real r g) _ ND' F' ops q_init t c (fun x X => in_or_app _ _ _ (or_introl X)) K0 R) as [NP K1].
  destruct (run_inv (enc_real r g) ops [] q_init t c (init_inv _) PL ND (fun _ _ H => H) R NP) as [IV _]. cbn [app] in IV.
  pose proof (step_inv (enc_real r g) t c (QSend room) IV I (fun _ H => match H with end)) as S.
  pose proof (step_kind (enc_real r g) _ c (QSend room) ND' F' ltac:(apply in_or_app; right; left; reflexivity) K1) as NPS.
  cbn [q_step] in *. pose proof (send_buffer_same room c) as SB. destruct (q_send_buffer room c) as [c1 room1]. destruct SB as (S1 & S2 & S3 & S4 & S5).
  destruct (q_updates (enc_real r g) (Datatypes.S (length (q_queue c1))) room1 c1) as [[c2 fs]|] eqn:U; [|destruct NPS; congruence].
  assert (Q2 : q_queue c2 = []).
  { apply (updates_progress _ 18%nat (fun i p => update_size r g i p) _ _ _ _ _ U); [lia | apply S5; lia|]. rewrite S2. rewrite S4, Nat.min_r by lia. lia. }
  assert (B2 : q_buf c2 = []).
  { assert (G : forall fuel room c c' fs, q_updates (enc_real r g) fuel room c = Some (c', fs) -> q_buf c = [] -> q_buf c' = []).
    { clear. induction fuel as [|fuel IH]; intros room c c' fs H B; cbn [q_updates] in H; [inversion H; subst; exact B|].
      destruct (q_queue c) as [|i rest]; [inversion H; subst; exact B|]. destruct (q_get i (q_with_queue rest c)) as [h|]; [|exact (IH _ _ _ _ H B)].
      assert (A : forall f, let '(c1, r1, s) := q_send_atomic (enc_real r g) room f (q_with_queue rest c) in q_buf c1 = []).
      { intro f. unfold q_send_atomic. pose proof (send_buffer_same room (q_with_queue rest c)) as S. destruct (q_send_buffer room (q_with_queue rest c)) as [c1 r1]. destruct S as (_ & _ & _ & _ & S5).
        assert (E : q_buf c1 = []) by (apply S5; cbn; rewrite B; cbn; lia). rewrite E. destruct (Nat.leb _ r1); cbn; auto. }
      destruct (h_kind h); try discriminate H; (destruct (encode_frame i h) as [f|]; [|exact (IH _ _ _ _ H B)]); specialize (A f); destruct (q_send_atomic (enc_real r g) room f (q_with_queue rest c)) as [[c1 r1] s];
        (destruct s; [|inversion H; subst; exact A]); destruct (q_updates (enc_real r g) fuel r1 _) as [[c2 fs2]|] eqn:U; try discriminate H; inversion H; subst; exact (IH _ _ _ _ U A). }
    apply (G _ _ _ _ _ U). apply S5. lia. }
  exists fs, c2. splits; auto. intro G. destruct (S ltac:(discriminate)) as ([[_ I2] _] & _ & _). destruct (I2 id h (q_get_in _ _ _ G)) as (A & B & C). rewrite B.
  rewrite asked_snoc in A. cbn in A. rewrite A. f_equal. destruct (prio_eqb (h_last h) (h_prio h)) eqn:E; [apply prio_eqb_eq; exact E|]. apply prio_eqb_neq in E. exfalso. rewrite Q2 in C. apply C. congruence.
Qed.
Print Assumptions priority_progress.

(** No assertion fails when priorities are changed on requests and pushes only. *)
Theorem priority_no_panic enc ops t c : NoDup (flat_map opened ops) -> fair ops -> q_run enc q_init ops = (t, c) -> forall o, ~ In (o, QPanic) t.
Proof.
  intros ND F R. apply (run_kind enc ops ND F ops q_init t c (fun x X => X)); [split; [intros i x [] | intros i []] | exact R].
Qed.
Print Assumptions priority_no_panic.

(** Asking for the priority of a CONNECT tunnel or session is accepted, and trips an assertion when the frame is due. *)
Theorem tunnel_priority_refuted enc : exists ops p, fst (q_run enc q_init ops) =
  [(QOpen 0 QTunnel (mkPr 3 false), QDone); (QUpdate 0 p, QChanged true); (QSend 100, QPanic)].
Proof. exists [QOpen 0 QTunnel (mkPr 3 false); QUpdate 0 (mkPr 1 false); QSend 100], (mkPr 1 false). reflexivity. Qed.
Print Assumptions tunnel_priority_refuted.

Definition demo_q : list qop :=
  [QFrame (FMaxPushId 3); QOpen 0 QHttp (mkPr 3 false); QOpen 4 QHttp (mkPr 3 false); QOpen 15 QPush (mkPr 3 false); QUpdate 0 (mkPr 1 true); QUpdate 4 (mkPr 5 false); QUpdate 0 (mkPr 2 true);
   QUpdate 15 (mkPr 7 true); QUpdate 8 (mkPr 7 true); QUpdate 4 (mkPr 3 false); QClose 15; QSend 5; QSend 20; QUpdate 4 (mkPr 0 false)].
Example demo_q_runs : (forall o, In o demo_q -> plain o) /\ NoDup (flat_map opened demo_q) /\ fair demo_q /\
  let (t, c) := q_run (enc_real 0 []) q_init demo_q in
  map snd t = [QDone; QDone; QDone; QDone; QChanged true; QChanged true; QChanged true; QChanged true; QInvalid; QChanged true; QDone; QSent []; QSent [FPriorityRequest 0 (mkPr 2 true)]; QChanged true]
  /\ asked 0 t = Some (mkPr 2 true) /\ told 0 t = Some (mkPr 2 true) /\ asked 4 t = Some (mkPr 0 false) /\ told 4 t = Some (mkPr 3 false) /\ q_queue c = [4] /\ q_buf c = [].
Proof.
  split; [|split; [|split]].
  - intros o H. cbn in H. repeat (destruct H as [H|H]; [subst o; exact I|]). destruct H.
  - cbn. repeat constructor; cbn; intuition discriminate.
  - intros id p k H [q Q]. cbn in H, Q. repeat (destruct Q as [Q|Q]; [try discriminate Q; inversion Q; discriminate|]). destruct Q.
  - vm_compute. repeat split.
Qed.
Print Assumptions demo_q_runs.
