(** Proofs about priority updates. *)
From Coq Require Import NArith List Bool Lia.
From Verif Require Import Base Lib HfModel HqModel HqSpec.
Import ListNotations.
Open Scope N_scope.

Lemma prio_eqb_eq a b : prio_eqb a b = true <-> a = b.
Proof.
  destruct a as [u i], b as [v j]. unfold prio_eqb. cbn. rewrite andb_true_iff, N.eqb_eq, eqb_true_iff. split; [intros [-> ->]; reflexivity | intro H; inversion H; auto].
Qed.
Lemma prio_eqb_neq a b : prio_eqb a b = false <-> a <> b.
Proof. rewrite <- prio_eqb_eq. destruct (prio_eqb a b); split; congruence. Qed.

Definition skeys (c : ctl) := map fst (q_streams c).
Lemma q_get_in id h c : q_get id c = Some h -> In (id, h) (q_streams c).
Proof.
  unfold q_get. destruct (find _ _) as [[i h']|] eqn:F; [|discriminate]. intro H. inversion H; subst. apply find_some in F. destruct F as [A B]. cbn in B.
  apply N.eqb_eq in B. subst. exact A.
Qed.
Lemma q_in_get id h c : NoDup (skeys c) -> In (id, h) (q_streams c) -> q_get id c = Some h.
Proof.
  unfold skeys, q_get. induction (q_streams c) as [|[i h'] l IH]; [intros _ []|]. intros ND H. inversion ND; subst. cbn. destruct H as [H|H].
  - inversion H; subst. rewrite N.eqb_refl. reflexivity.
  - destruct (i =? id) eqn:E; [|apply IH; auto]. apply N.eqb_eq in E. subst. exfalso. apply H2. apply in_map_iff. exists (id, h). auto.
Qed.
Lemma skeys_set id h c : skeys (q_set id h c) = skeys c.
Proof.
  unfold skeys, q_set. cbn. induction (q_streams c) as [|[i h'] l IH]; cbn; auto. rewrite IH. destruct (i =? id) eqn:E; cbn; auto. apply N.eqb_eq in E. subst. reflexivity.
Qed.
Lemma in_set i h' id h c : In (i, h') (q_streams (q_set id h c)) -> (i = id /\ h' = h) \/ (i <> id /\ In (i, h') (q_streams c)).
Proof.
  unfold q_set. cbn. intro H. apply in_map_iff in H. destruct H as ([j k] & E & H). cbn in E. destruct (j =? id) eqn:J.
  - inversion E; subst. auto.
  - apply N.eqb_neq in J. inversion E; subst. auto.
Qed.
Lemma set_in id h h0 c : In (id, h0) (q_streams c) -> In (id, h) (q_streams (q_set id h c)).
Proof. intro H. unfold q_set. cbn. apply in_map_iff. exists (id, h0). cbn. rewrite N.eqb_refl. auto. Qed.
Lemma set_other i h' id h c : i <> id -> In (i, h') (q_streams c) -> In (i, h') (q_streams (q_set id h c)).
Proof. intros N H. unfold q_set. cbn. apply in_map_iff. exists (i, h'). cbn. apply N.eqb_neq in N. rewrite N. auto. Qed.

(** [a]: what was asked; [w]: what was told. *)
Definition J (a w : N -> option priority) (c : ctl) : Prop :=
  NoDup (skeys c) /\ forall id h, In (id, h) (q_streams c) -> a id = Some (h_prio h) /\ w id = Some (h_last h) /\ (h_prio h <> h_last h -> In id (q_queue c)).
Lemma J_ext a a' w w' c : (forall i, a i = a' i) -> (forall i, w i = w' i) -> J a w c -> J a' w' c.
Proof. intros A W [N H]. split; auto. intros id h I. rewrite <- A, <- W. auto. Qed.

(** A frame that is current and says something new. *)
Definition fresh (a : N -> option priority) (w : N -> option priority) (f : hframe) : Prop :=
  exists id p, (f = FPriorityRequest id p \/ f = FPriorityPush id p) /\ a id = Some p /\ w id <> Some p.
Definition tell_all (fs : list hframe) (w : N -> option priority) : N -> option priority := fun id => fold_left (told_frame id) fs (w id).

Section Enc.
  Variable enc : hframe -> list N.

  Lemma send_buffer_same room c : let (c', r') := q_send_buffer room c in
    q_streams c' = q_streams c /\ q_queue c' = q_queue c /\ q_wire c' ++ q_buf c' = q_wire c ++ q_buf c /\ (r' = room - Nat.min room (length (q_buf c)))%nat /\ ((length (q_buf c) <= room)%nat -> q_buf c' = []).
  Proof.
    unfold q_send_buffer. cbn. splits; auto.
    - rewrite <- app_assoc, firstn_skipn. reflexivity.
    - intro L. rewrite Nat.min_r by lia. apply skipn_all.
  Qed.
  Lemma send_atomic_same room f c : let '(c', r', b) := q_send_atomic enc room f c in
    q_streams c' = q_streams c /\ q_queue c' = q_queue c /\ q_wire c' ++ q_buf c' = q_wire c ++ q_buf c ++ (if b then enc f else []) /\
    ((length (q_buf c) + length (enc f) <= room)%nat -> b = true /\ (r' = room - length (q_buf c) - length (enc f))%nat /\ q_buf c' = []).
  Proof.
    unfold q_send_atomic. pose proof (send_buffer_same room c) as S. destruct (q_send_buffer room c) as [c1 r1]. destruct S as (A & B & C & D & E).
    destruct (q_buf c1) as [|x b] eqn:BF.
    - destruct (Nat.leb (length (enc f)) r1) eqn:L; cbn.
      + splits; auto.
        * rewrite app_nil_r in C. rewrite C, app_nil_r, app_assoc. reflexivity.
        * intros K. splits; auto. rewrite D. rewrite Nat.min_r by lia. reflexivity.
      + apply Nat.leb_gt in L. rewrite BF. splits; auto; [rewrite !app_nil_r in *; exact C|]. intro K. exfalso. rewrite D, Nat.min_r in L; lia.
    - rewrite BF. splits; auto; [rewrite app_nil_r; exact C|]. intro K. exfalso. assert (X : x :: b = []) by (apply E; lia). discriminate.
  Qed.

  Lemma encode_names id h f : encode_frame id h = Some f -> h_prio h <> h_last h /\ (f = FPriorityRequest id (h_prio h) \/ f = FPriorityPush id (h_prio h)).
  Proof.
    unfold encode_frame. destruct (prio_eqb _ _) eqn:E; [discriminate|]. apply prio_eqb_neq in E. intro H. split; auto. inversion H. destruct (h_kind h); auto.
  Qed.

  Lemma updates_spec a : forall fuel room c w c' fs, q_updates enc fuel room c = Some (c', fs) -> J a w c ->
    J a (tell_all fs w) c' /\ q_wire c' ++ q_buf c' = q_wire c ++ q_buf c ++ concat (map enc fs) /\
    (forall pre f post, fs = pre ++ f :: post -> fresh a (tell_all pre w) f) /\ skeys c' = skeys c.
  Proof.
    induction fuel as [|fuel IH]; intros room c w c' fs H I; cbn [q_updates] in H.
    { inversion H; subst. unfold tell_all. cbn. rewrite app_nil_r. splits; auto. intros pre f post K. destruct pre; discriminate. }
    destruct (q_queue c) as [|id rest] eqn:Q.
    { inversion H; subst. unfold tell_all. cbn. rewrite app_nil_r. splits; auto. intros pre f post K. destruct pre; discriminate. }
    set (c0 := q_with_queue rest c) in *. destruct I as [ND I].
    assert (SKIP : (forall h, In (id, h) (q_streams c) -> h_prio h = h_last h) -> J a w c0).
    { intros E. split; [exact ND|]. intros i h X. destruct (I i h X) as (A & B & C). splits; auto. intro N. specialize (C N). rewrite Q in C.
      destruct C as [C|C]; [subst i; exfalso; apply N, E, X | exact C]. }
    destruct (q_get id c0) as [h|] eqn:G.
    2:{ exact (IH room c0 w c' fs H (SKIP ltac:(intros h X; pose proof (q_in_get id h c0 ND X); congruence))). }
    assert (IN : In (id, h) (q_streams c)) by (apply (q_get_in id h c0 G)).
    assert (UNI : forall h', In (id, h') (q_streams c) -> h' = h) by (intros h' X; pose proof (q_in_get id h' c0 ND X); congruence).
    assert (KIND : match encode_frame id h with
      | None => q_updates enc fuel room c0
      | Some f => let '(c1, room1, sent) := q_send_atomic enc room f c0 in
          if sent then match q_updates enc fuel room1 (q_set id (mkH (h_kind h) (h_prio h) (h_prio h)) c1) with Some (c2, fs) => Some (c2, f :: fs) | None => None end
          else Some (q_with_queue (id :: q_queue c1) c1, [])
      end = Some (c', fs)) by (destruct (h_kind h); try discriminate H; exact H). clear H.
    destruct (encode_frame id h) as [f|] eqn:EF.
    - apply encode_names in EF. destruct EF as [NE FN]. pose proof (send_atomic_same room f c0) as S. destruct (q_send_atomic enc room f c0) as [[c1 room1] sent].
      destruct S as (S1 & S2 & S3 & _). destruct sent.
      + destruct (q_updates enc fuel room1 (q_set id (mkH (h_kind h) (h_prio h) (h_prio h)) c1)) as [[c2 fs2]|] eqn:U; [|discriminate]. inversion KIND; subst c2 fs. clear KIND.
        destruct (I id h IN) as (A & B & C).
        assert (TF : forall i, told_frame i (w i) f = if i =? id then Some (h_prio h) else w i) by (intro i; destruct FN as [-> | ->]; cbn; rewrite (N.eqb_sym id i); destruct (i =? id); reflexivity).
        assert (J1 : J a (fun i => told_frame i (w i) f) (q_set id (mkH (h_kind h) (h_prio h) (h_prio h)) c1)).
        { split; [rewrite skeys_set; unfold skeys; rewrite S1; exact ND|]. intros i h' X. apply in_set in X. rewrite TF. destruct X as [[-> ->]|[X1 X2]]; cbn [h_prio h_last].
          - rewrite N.eqb_refl. splits; auto. congruence.
          - rewrite S1 in X2. cbn in X2. destruct (I i h' X2) as (A' & B' & C'). rewrite (proj2 (N.eqb_neq i id) X1). splits; auto. intro N'. specialize (C' N'). rewrite Q in C'.
            cbn. rewrite S2. destruct C' as [C'|C']; [congruence | exact C']. }
        destruct (IH _ _ _ _ _ U J1) as (K1 & K2 & K3 & K4). splits.
        * exact K1.
        * cbn [q_wire q_buf q_set] in K2. rewrite K2. rewrite app_assoc, S3. cbn [map concat]. cbn [c0 q_with_queue q_wire q_buf]. rewrite <- !app_assoc. reflexivity.
        * intros pre f' post X. destruct pre as [|g pre]; cbn in X; inversion X; subst.
          -- exists id, (h_prio h). splits; auto. unfold tell_all. cbn. rewrite B. congruence.
          -- eapply K3. reflexivity.
        * rewrite K4, skeys_set. unfold skeys. rewrite S1. reflexivity.
      + inversion KIND; subst. clear KIND. unfold tell_all. cbn [fold_left map concat]. splits.
        * split; [unfold skeys; cbn; rewrite S1; exact ND|]. cbn [q_streams q_with_queue q_queue]. rewrite S1, S2. cbn [c0 q_with_queue q_queue q_streams]. intros i h' X.
          destruct (I i h' X) as (A' & B' & C'). rewrite Q in C'. auto.
        * exact S3.
        * intros pre f' post X. destruct pre; discriminate.
        * unfold skeys. cbn. rewrite S1. reflexivity.
    - refine (IH room c0 w c' fs KIND (SKIP _)). intros h' X. rewrite (UNI h' X). unfold encode_frame in EF. destruct (prio_eqb _ _) eqn:E; [apply prio_eqb_eq; exact E | discriminate].
  Qed.

  (** With room for everything, the queue is emptied. *)
  Lemma updates_progress m : (forall id p, (length (enc (FPriorityRequest id p)) <= m)%nat /\ (length (enc (FPriorityPush id p)) <= m)%nat) -> forall fuel room c c' fs, q_updates enc fuel room c = Some (c', fs) ->
    (length (q_queue c) < fuel)%nat -> q_buf c = [] -> (length (q_queue c) * m <= room)%nat -> q_queue c' = [].
  Proof.
    intros BND. induction fuel as [|fuel IH]; intros room c c' fs H L B R; [lia|]. cbn [q_updates] in H.
    destruct (q_queue c) as [|id rest] eqn:Q; [inversion H; subst; exact Q|]. cbn [length] in *. set (c0 := q_with_queue rest c) in *.
    assert (GO : forall room', (length rest * m <= room')%nat -> forall c1 fs1, q_streams c1 = q_streams c1 -> q_queue c1 = rest -> q_buf c1 = [] -> q_updates enc fuel room' c1 = Some (c', fs1) -> q_queue c' = []).
    { intros room' R' c1 fs1 _ Q1 B1 U. eapply IH; [exact U | rewrite Q1; lia | exact B1 | rewrite Q1; exact R']. }
    destruct (q_get id c0) as [h|]; [|exact (GO room ltac:(nia) c0 fs eq_refl eq_refl B H)].
    assert (KIND : match encode_frame id h with
      | None => q_updates enc fuel room c0
      | Some f => let '(c1, room1, sent) := q_send_atomic enc room f c0 in
          if sent then match q_updates enc fuel room1 (q_set id (mkH (h_kind h) (h_prio h) (h_prio h)) c1) with Some (c2, fs) => Some (c2, f :: fs) | None => None end
          else Some (q_with_queue (id :: q_queue c1) c1, [])
      end = Some (c', fs)) by (destruct (h_kind h); try discriminate H; exact H). clear H.
    destruct (encode_frame id h) as [f|] eqn:EF; [|exact (GO room ltac:(nia) c0 fs eq_refl eq_refl B KIND)].
    assert (BF : (length (enc f) <= m)%nat) by (apply encode_names in EF; destruct EF as [_ [-> | ->]]; apply BND).
    pose proof (send_atomic_same room f c0) as S. destruct (q_send_atomic enc room f c0) as [[c1 room1] sent]. destruct S as (S1 & S2 & S3 & S4).
    assert (X : (length (q_buf c0) + length (enc f) <= room)%nat) by (cbn [c0 q_with_queue q_buf]; rewrite B; cbn [length]; nia).
    destruct (S4 X) as (-> & R1 & B1). destruct (q_updates enc fuel room1 _) as [[c2 fs2]|] eqn:U; [|discriminate]. inversion KIND; subst.
    eapply (GO (room - length (q_buf c0) - length (enc f))%nat); [| reflexivity | | | exact U].
    - cbn [c0 q_with_queue q_buf]. rewrite B. cbn [length]. nia.
    - cbn. rewrite S2. reflexivity.
    - cbn. exact B1.
  Qed.

  (** *** Runs *)
  Definition Inv (t : list (qop * qout)) (c : ctl) : Prop :=
    J (fun id => asked id t) (fun id => told id t) c /\ q_wire c ++ q_buf c = 0 :: concat (map enc (frames t)).
  Lemma asked_snoc id t x : asked id (t ++ [x]) = asked_one id (asked id t) x. Proof. unfold asked. rewrite fold_left_app. reflexivity. Qed.
  Lemma told_snoc id t x : told id (t ++ [x]) = told_one id (told id t) x. Proof. unfold told. rewrite fold_left_app. reflexivity. Qed.
  Lemma frames_snoc t x : frames (t ++ [x]) = frames t ++ frames_one x. Proof. unfold frames. rewrite flat_map_app. cbn. rewrite app_nil_r. reflexivity. Qed.

  Lemma step_inv t c o : Inv t c -> plain o -> (forall id, In id (opened o) -> ~ In id (skeys c)) ->
    let (x, c') := q_step enc c o in x <> QPanic -> Inv (t ++ [(o, x)]) c' /\
      (forall fs, x = QSent fs -> forall pre f post, fs = pre ++ f :: post -> fresh (fun id => asked id t) (tell_all pre (fun id => told id t)) f) /\
      (forall id, In id (skeys c') -> In id (skeys c) \/ In id (opened o)).
  Proof.
    intros [[ND I] W] PL FR.
    assert (BYTES : forall x c', frames_one (o, x) = [] -> q_wire c' ++ q_buf c' = q_wire c ++ q_buf c -> q_wire c' ++ q_buf c' = 0 :: concat (map enc (frames (t ++ [(o, x)])))).
    { intros x c' E E2. rewrite frames_snoc, E, app_nil_r, E2. exact W. }
    destruct o as [id k p|id|id p|f|room]; cbn [q_step].
    - intros _. splits.
      + split; [|apply BYTES; reflexivity]. split; [cbn; constructor; [apply FR; left; auto | exact ND]|]. cbn [q_streams q_queue]. intros i h X. rewrite asked_snoc, told_snoc. cbn [asked_one told_one].
        destruct X as [X|X].
        * inversion X; subst. rewrite N.eqb_refl. cbn. splits; auto. congruence.
        * assert (i <> id) by (intros ->; eapply (FR id); [left; auto | apply in_map_iff; exists (id, h); auto]).
          destruct (id =? i) eqn:E; [apply N.eqb_eq in E; congruence|]. auto.
      + discriminate.
      + cbn. intros i [X|X]; auto.
    - intros _. splits.
      + split; [|apply BYTES; reflexivity]. split.
        * unfold skeys. cbn. assert (G : forall (l : list (N * handler)), NoDup (map fst l) -> NoDup (map fst (filter (fun x => negb (fst x =? id)) l))).
          { induction l as [|[i h] l IH]; cbn; intro H; auto. inversion H; subst. destruct (i =? id); cbn; auto. constructor; auto. intro X. apply H2.
            apply in_map_iff in X. destruct X as (y & E & X). apply filter_In in X. apply in_map_iff. exists y. tauto. }
          apply G. exact ND.
        * cbn [q_streams q_queue]. intros i h X. apply filter_In in X. rewrite asked_snoc, told_snoc. cbn. apply I. tauto.
      + discriminate.
      + intros i X. left. unfold skeys in *. cbn in X. apply in_map_iff in X. destruct X as (y & E & X). apply filter_In in X. apply in_map_iff. exists y. tauto.
    - destruct (q_get id c) as [h|] eqn:G.
      2:{ intros _. splits; [|discriminate|auto]. split; [|apply BYTES; reflexivity]. split; [exact ND|]. intros i h X. rewrite asked_snoc, told_snoc. cbn. apply I. exact X. }
      assert (IN := q_get_in _ _ _ G). destruct (I id h IN) as (A & B & C).
      assert (K : let (x, c') := if prio_eqb p (h_prio h) then (QChanged false, c) else let c1 := q_set id (mkH (h_kind h) p (h_last h)) c in (QChanged true, q_with_queue (q_queue c1 ++ [id]) c1) in
        x <> QPanic -> Inv (t ++ [(QUpdate id p, x)]) c' /\
        (forall fs, x = QSent fs -> forall pre f post, fs = pre ++ f :: post -> fresh (fun id => asked id t) (tell_all pre (fun id => told id t)) f) /\
        (forall i, In i (skeys c') -> In i (skeys c) \/ In i (opened (QUpdate id p)))).
      { destruct (prio_eqb p (h_prio h)) eqn:E; intros _; (splits; [|discriminate|]).
        - apply prio_eqb_eq in E. split; [|apply BYTES; reflexivity]. split; [exact ND|]. intros i h' X. rewrite asked_snoc, told_snoc. cbn. destruct (id =? i) eqn:EI; [|apply I; exact X].
          apply N.eqb_eq in EI. subst i. pose proof (q_in_get id h' c ND X). assert (h' = h) by congruence. subst h'. subst p. splits; auto.
        - auto.
        - split; [|apply BYTES; reflexivity]. split; [change (NoDup (skeys (q_set id (mkH (h_kind h) p (h_last h)) c))); rewrite skeys_set; exact ND|].
          cbn [q_streams q_with_queue q_queue]. intros i h' X. apply in_set in X. rewrite asked_snoc, told_snoc. cbn. destruct X as [[-> ->]|[X1 X2]].
          + rewrite N.eqb_refl. cbn. splits; auto. intros _. apply in_or_app. right. left. reflexivity.
          + destruct (id =? i) eqn:EI; [apply N.eqb_eq in EI; congruence|]. destruct (I i h' X2) as (A' & B' & C'). splits; auto. intro N'. apply in_or_app. left. auto.
        - intros i X. change (In i (skeys (q_set id (mkH (h_kind h) p (h_last h)) c))) in X. rewrite skeys_set in X. auto. }
      destruct (h_kind h); try exact K. intros _. splits; [|discriminate|auto]. split; [|apply BYTES; reflexivity]. split; [exact ND|]. intros i h' X. rewrite asked_snoc, told_snoc. cbn. apply I. exact X.
    - intros _. splits.
      + split.
        * split; [exact ND|]. cbn [q_streams q_queue]. intros i h X. rewrite asked_snoc, told_snoc. cbn [asked_one told_one frames_one fold_left].
          replace (told_frame i (told i t) f) with (told i t) by (destruct f; cbn in PL |- *; auto; destruct PL). apply I. exact X.
        * rewrite frames_snoc. cbn. rewrite map_app, concat_app. cbn. rewrite app_nil_r, app_assoc, W. reflexivity.
      + discriminate.
      + auto.
    - pose proof (send_buffer_same room c) as S. destruct (q_send_buffer room c) as [c1 room1]. destruct S as (S1 & S2 & S3 & _).
      destruct (q_updates enc (S (length (q_queue c1))) room1 c1) as [[c2 fs]|] eqn:U; [|congruence]. intros _.
      assert (J1 : J (fun id => asked id t) (fun id => told id t) c1) by (split; [unfold skeys; rewrite S1; exact ND | rewrite S1, S2; exact I]).
      destruct (updates_spec _ _ _ _ _ _ _ U J1) as (K1 & K2 & K3 & K4). splits.
      + split.
        * eapply J_ext; [| |exact K1]; intro i; [rewrite asked_snoc; reflexivity | rewrite told_snoc; reflexivity].
        * rewrite frames_snoc, map_app, concat_app, K2. cbn [frames_one]. rewrite app_assoc, S3, W. reflexivity.
      + intros fs' E. inversion E; subst. exact K3.
      + intros i X. left. rewrite K4 in X. unfold skeys in *. rewrite S1 in X. exact X.
  Qed.

  Lemma run_inv : forall ops t0 c0 t c, Inv t0 c0 -> (forall o, In o ops -> plain o) -> NoDup (flat_map opened ops) -> (forall id, In id (flat_map opened ops) -> ~ In id (skeys c0)) ->
    q_run enc c0 ops = (t, c) -> (forall o, ~ In (o, QPanic) t) ->
    Inv (t0 ++ t) c /\ (forall t1 room fs t2, t = t1 ++ (QSend room, QSent fs) :: t2 -> forall pre f post, fs = pre ++ f :: post ->
      fresh (fun id => asked id (t0 ++ t1)) (tell_all pre (fun id => told id (t0 ++ t1))) f).
  Proof.
    induction ops as [|o ops IH]; intros t0 c0 t c IV PL ND FR R NP; cbn [q_run] in R.
    { inversion R; subst. rewrite app_nil_r. split; auto. intros t1 room fs t2 E. destruct t1; discriminate. }
    cbn [flat_map] in ND, FR.
    pose proof (step_inv t0 c0 o IV (PL o (or_introl eq_refl)) (fun id H => FR id (in_or_app _ _ _ (or_introl H)))) as S. destruct (q_step enc c0 o) as [x c1].
    assert (NX : x <> QPanic) by (intros ->; inversion R; subst; eapply NP; left; reflexivity).
    assert (R' : (let (t, c'') := q_run enc c1 ops in ((o, x) :: t, c'')) = (t, c)) by (destruct x; try exact R; congruence).
    destruct (q_run enc c1 ops) as [t2 c2] eqn:R2. inversion R'; subst. destruct (S NX) as (S1 & S2 & S3).
    assert (ND2 : NoDup (flat_map opened ops)) by (destruct o; cbn in ND; try exact ND; inversion ND; auto).
    destruct (IH (t0 ++ [(o, x)]) c1 t2 c S1 (fun o' H => PL o' (or_intror H)) ND2) as [K1 K2]; auto.
    - intros id H K. apply S3 in K. destruct K as [K|K]; [eapply FR; [apply in_or_app; right; exact H | exact K]|].
      destruct o; cbn in K, ND; try contradiction. destruct K as [K|[]]. subst. inversion ND; auto.
    - intros o' H. eapply NP. right. exact H.
    - rewrite <- app_assoc in K1. split; [exact K1|]. intros t1 room fs t3 E pre f post EF. destruct t1 as [|y t1]; cbn in E; inversion E; subst.
      + rewrite app_nil_r. eapply S2; [reflexivity | reflexivity].
      + specialize (K2 t1 room _ t3 eq_refl pre f post eq_refl). rewrite <- app_assoc in K2. exact K2.
  Qed.

  Lemma init_inv : Inv [] q_init.
  Proof. split; [split; [constructor | intros id h []] | reflexivity]. Qed.
End Enc.

(** *** No failed assertion when only requests and pushes are updated *)
Definition okk (k : qkind) : Prop := k = QHttp \/ k = QPush.
Definition K (all : list qop) (c : ctl) : Prop :=
  (forall id h, In (id, h) (q_streams c) -> exists q, In (QOpen id (h_kind h) q) all) /\
  (forall id, In id (q_queue c) -> exists k q, okk k /\ In (QOpen id k q) all).
Lemma opened_once all id k q k' q' : NoDup (flat_map opened all) -> In (QOpen id k q) all -> In (QOpen id k' q') all -> k = k'.
Proof.
  induction all as [|o all IH]; [intros _ []|]. cbn [flat_map]. intros ND A B.
  assert (X : forall k q, In (QOpen id k q) all -> In id (flat_map opened all)) by (intros k0 q0 H; apply in_flat_map; exists (QOpen id k0 q0); split; [exact H | left; reflexivity]).
  destruct A as [A|A], B as [B|B].
  - congruence.
  - subst o. inversion ND; subst. exfalso. eauto.
  - subst o. inversion ND; subst. exfalso. eauto.
  - apply IH; auto. destruct o; cbn in ND; try exact ND. inversion ND; auto.
Qed.
Section Enc2.
  Variable enc : hframe -> list N.
  Lemma K_set all id h h' c : q_get id c = Some h -> h_kind h' = h_kind h -> K all c -> K all (q_set id h' c).
  Proof.
    intros G E [A B]. split; [|exact B]. intros i x X. apply in_set in X. destruct X as [[-> ->]|[_ X]]; [|apply A; exact X]. rewrite E. apply A. apply q_get_in. exact G.
  Qed.
  Lemma updates_kind all : NoDup (flat_map opened all) -> forall fuel room c, K all c ->
    match q_updates enc fuel room c with None => False | Some (c', _) => K all c' end.
  Proof.
    intros ND. induction fuel as [|fuel IH]; intros room c I; cbn [q_updates]; auto. destruct (q_queue c) as [|id rest] eqn:Q; auto.
    set (c0 := q_with_queue rest c). assert (K0 : K all c0).
    { destruct I as [A B]. split; [exact A|]. intros i X. apply B. rewrite Q. right. exact X. }
    destruct (q_get id c0) as [h|] eqn:G; [|apply IH; exact K0].
    assert (OK : okk (h_kind h)).
    { destruct (proj1 I id h (q_get_in _ _ c0 G)) as [q X]. destruct (proj2 I id ltac:(rewrite Q; left; auto)) as (k & q' & Y & Z). rewrite (opened_once _ _ _ _ _ _ ND X Z). exact Y. }
    assert (GOAL : match match encode_frame id h with
      | None => q_updates enc fuel room c0
      | Some f => let '(c1, room1, sent) := q_send_atomic enc room f c0 in
          if sent then match q_updates enc fuel room1 (q_set id (mkH (h_kind h) (h_prio h) (h_prio h)) c1) with Some (c2, fs) => Some (c2, f :: fs) | None => None end
          else Some (q_with_queue (id :: q_queue c1) c1, [])
      end with None => False | Some (c', _) => K all c' end).
    { destruct (encode_frame id h) as [f|]; [|apply IH; exact K0]. pose proof (send_atomic_same enc room f c0) as S. destruct (q_send_atomic enc room f c0) as [[c1 room1] sent].
      destruct S as (S1 & S2 & _). assert (K1 : K all c1) by (unfold K; rewrite S1, S2; exact K0). destruct sent.
      - assert (G1 : q_get id c1 = Some h) by (unfold q_get; rewrite S1; exact G).
        pose proof (IH room1 _ (K_set all id h (mkH (h_kind h) (h_prio h) (h_prio h)) c1 G1 eq_refl K1)) as R. destruct (q_updates enc fuel room1 _) as [[c2 fs]|]; exact R.
      - split; [exact (proj1 K1)|]. cbn. rewrite S2. intros i X. apply (proj2 I). rewrite Q. exact X. }
    destruct OK as [OK|OK]; rewrite OK in GOAL |- *; exact GOAL.
  Qed.
  Lemma step_kind all c o : NoDup (flat_map opened all) -> fair all -> In o all -> K all c -> let (x, c') := q_step enc c o in x <> QPanic /\ K all c'.
  Proof.
    intros ND F IN I. destruct o as [id k p|id|id p|f|room]; cbn [q_step].
    - split; [discriminate|]. split; [|exact (proj2 I)]. cbn. intros i h [X|X]; [inversion X; subst; cbn; eauto | apply (proj1 I); exact X].
    - split; [discriminate|]. split; [|exact (proj2 I)]. cbn. intros i h X. apply filter_In in X. apply (proj1 I). tauto.
    - destruct (q_get id c) as [h|] eqn:G; [|split; [discriminate | exact I]]. destruct (proj1 I id h (q_get_in _ _ _ G)) as [q X].
      pose proof (F id p (h_kind h) IN (ex_intro _ q X)) as NT.
      assert (GOAL : okk (h_kind h) -> let (x, c') := if prio_eqb p (h_prio h) then (QChanged false, c) else let c1 := q_set id (mkH (h_kind h) p (h_last h)) c in (QChanged true, q_with_queue (q_queue c1 ++ [id]) c1) in
        x <> QPanic /\ K all c').
      { intro OK. destruct (prio_eqb p (h_prio h)); (split; [discriminate|]); [exact I|]. pose proof (K_set all id h (mkH (h_kind h) p (h_last h)) c G eq_refl I) as [K1 K2].
        split; [exact K1|]. cbn [q_with_queue q_queue]. intros i Y. apply in_app_or in Y. destruct Y as [Y|[<-|[]]]; [apply K2; exact Y|]. exists (h_kind h), q. auto. }
      unfold okk in GOAL. destruct (h_kind h); [apply GOAL; auto | apply GOAL; auto | congruence | split; [discriminate | exact I]].
    - split; [discriminate | exact I].
    - pose proof (send_buffer_same room c) as S. destruct (q_send_buffer room c) as [c1 room1]. destruct S as (S1 & S2 & _).
      assert (K1 : K all c1) by (unfold K; rewrite S1, S2; exact I). pose proof (updates_kind all ND (S (length (q_queue c1))) room1 c1 K1) as R.
      destruct (q_updates enc _ room1 c1) as [[c2 fs]|]; [split; [discriminate | exact R] | destruct R].
  Qed.
  Lemma run_kind all : NoDup (flat_map opened all) -> fair all -> forall ops c t c', incl ops all -> K all c -> q_run enc c ops = (t, c') -> (forall o, ~ In (o, QPanic) t) /\ K all c'.
  Proof.
    intros ND F. induction ops as [|o ops IH]; intros c t c' IN I R; cbn [q_run] in R.
    { inversion R; subst. auto. }
    pose proof (step_kind all c o ND F (IN o (or_introl eq_refl)) I) as S. destruct (q_step enc c o) as [x c1]. destruct S as [NP S].
    assert (R' : (let (t, c'') := q_run enc c1 ops in ((o, x) :: t, c'')) = (t, c')) by (destruct x; try exact R; congruence).
    destruct (q_run enc c1 ops) as [t2 c2] eqn:R2. inversion R'; subst. destruct (IH c1 t2 c' (fun y Y => IN y (or_intror Y)) S R2) as [A B].
    split; [|exact B]. intros o' [X|X]; [congruence | eapply A; exact X].
  Qed.
End Enc2.
