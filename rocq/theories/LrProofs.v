(** Lists of sent packets: the operations of sent.rs and the loops of LossRecoverySpace. *)
From Coq Require Import Sorted Permutation.
From Verif Require Import Base Lib FcModel LrModel LrSpec.

(** ** Sorted lists *)
Definition loss_le (a b : pkt) : Prop :=
  match p_lost b with
  | None => True
  | Some (tb, _) => match p_lost a with Some (ta, _) => ta <= tb | None => False end
  end.
Definition before (a b : pkt) : Prop := p_pn a < p_pn b /\ p_time a <= p_time b /\ loss_le a b.
Definition pk_ok (T : N) (last : option N) (p : pkt) : Prop :=
  p_time p <= T /\ match p_lost p with Some (t, _) => t <= T | None => True end /\
  match last with Some x => p_pn p <= x | None => False end.
Definition lost_sorted (l : list pkt) := StronglySorted before l.

Lemma ss_filter {A} (R : A -> A -> Prop) f l : StronglySorted R l -> StronglySorted R (filter f l).
Proof.
  induction 1 as [|a l H IH F]; cbn; [constructor|].
  destruct (f a); [|exact IH]. constructor; [exact IH|].
  rewrite Forall_forall in *. intros x Hx. apply F. apply filter_In in Hx. tauto.
Qed.
Lemma ss_map {A} (R : A -> A -> Prop) (g : A -> A) l :
  (forall a b, R a b -> R (g a) (g b)) -> StronglySorted R l -> StronglySorted R (map g l).
Proof.
  intros G. induction 1 as [|a l H IH F]; cbn; [constructor|].
  constructor; [exact IH|]. rewrite Forall_forall in *. intros x Hx. apply in_map_iff in Hx.
  destruct Hx as (y & <- & Hy). apply G, F, Hy.
Qed.
Lemma ss_snoc {A} (R : A -> A -> Prop) l a : StronglySorted R l -> Forall (fun x => R x a) l -> StronglySorted R (l ++ [a]).
Proof.
  induction 1 as [|b l H IH F]; cbn; intros G; [repeat constructor|].
  inv G. constructor; [apply IH; assumption|]. apply Forall_app. split; [exact F|]. repeat constructor. assumption.
Qed.
Lemma ss_imp {A} (R S : A -> A -> Prop) l : (forall a b, R a b -> S a b) -> StronglySorted R l -> StronglySorted S l.
Proof.
  intros G. induction 1 as [|b l H IH F]; constructor; [exact IH|]. eapply Forall_impl; [|exact F]. intros; apply G; assumption.
Qed.
Lemma ss_nodup l : StronglySorted before l -> NoDup (map p_pn l).
Proof.
  induction 1 as [|b l H IH F]; cbn; constructor; [|exact IH].
  intros G. apply in_map_iff in G. destruct G as (x & E & Hx). rewrite Forall_forall in F. apply F in Hx.
  destruct Hx. lia.
Qed.

Lemma filter_none {A} (f : A -> bool) l : Forall (fun x => f x = false) l -> filter f l = [].
Proof. induction 1 as [|x l H _ IH]; cbn; [reflexivity|]. rewrite H. exact IH. Qed.
Lemma filter_all {A} (f : A -> bool) l : Forall (fun x => f x = true) l -> filter f l = l.
Proof. induction 1 as [|x l H _ IH]; cbn; [reflexivity|]. rewrite H, IH. reflexivity. Qed.
Lemma filter_filter {A} (f g : A -> bool) l : filter f (filter g l) = filter (fun x => g x && f x) l.
Proof. induction l as [|x l IH]; cbn; [reflexivity|]. destruct (g x); cbn; [destruct (f x)|]; rewrite ?IH; reflexivity. Qed.

Lemma part_point_split f l :
  StronglySorted (fun a b => f b = true -> f a = true) l ->
  firstn (part_point f l) l = filter f l /\ skipn (part_point f l) l = filter (fun x => negb (f x)) l.
Proof.
  induction 1 as [|a l H [IH1 IH2] F]; cbn; [auto|].
  destruct (f a) eqn:E; cbn.
  - rewrite IH1, IH2. auto.
  - assert (Forall (fun x => f x = false) l).
    { eapply Forall_impl; [|exact F]. cbn. intros x Hx. destruct (f x); [|reflexivity]. specialize (Hx eq_refl). congruence. }
    rewrite filter_none by assumption. split; [reflexivity|].
    rewrite filter_all; [reflexivity|]. eapply Forall_impl; [|eassumption]. cbn. intros x ->. reflexivity.
Qed.

Lemma track_ok T last p l :
  lost_sorted l -> Forall (pk_ok T last) l -> T <= p_time p -> match last with Some x => x < p_pn p | None => True end -> p_lost p = None ->
  track p l = Some (l ++ [p]) /\ lost_sorted (l ++ [p]) /\ Forall (pk_ok (p_time p) (Some (p_pn p))) (l ++ [p]).
Proof.
  intros S F HT HL L.
  assert (FB : Forall (fun x => p_pn x < p_pn p) l).
  { eapply Forall_impl; [|exact F]. intros x (A & B & C). destruct last; [lia|contradiction]. }
  splits.
  - unfold track. destruct l as [|a l'] using rev_ind; [reflexivity|].
    rewrite map_app. cbn [map]. rewrite last_last. apply Forall_app in FB. destruct FB as [_ FB]. inv FB.
    destruct (N.ltb_spec (p_pn a) (p_pn p)); [reflexivity|lia].
  - apply ss_snoc; [exact S|]. rewrite Forall_forall in *. intros x Hx. specialize (F x Hx). specialize (FB x Hx).
    destruct F as (A & B & C). unfold before, loss_le. rewrite L. splits; [exact FB|lia|exact Logic.I].
  - apply Forall_app. split.
    + rewrite Forall_forall in *. intros x Hx. specialize (F x Hx). specialize (FB x Hx).
      destruct F as (A & B & C). unfold pk_ok. splits; [lia| |lia]. destruct (p_lost x) as [[t ?]|]; [lia|exact Logic.I].
    + repeat constructor; [lia|rewrite L; exact Logic.I|lia].
Qed.

(** Two filters of a sorted list of which the first takes smaller elements. *)
Lemma filter_split_app (f g : pkt -> bool) l :
  StronglySorted before l ->
  (forall a b, f a = true -> g b = true -> p_pn a < p_pn b) ->
  filter (fun x => f x || g x) l = filter f l ++ filter g l.
Proof.
  intros S H. induction S as [|a l S IH F]; cbn; [reflexivity|].
  destruct (f a) eqn:Ef; cbn.
  - rewrite IH. destruct (g a) eqn:Eg; [exfalso; specialize (H a a Ef Eg); lia|]. reflexivity.
  - destruct (g a) eqn:Eg; [|exact IH].
    rewrite IH. rewrite (filter_none f l); [reflexivity|].
    rewrite Forall_forall in *. intros x Hx. destruct (f x) eqn:E; [|reflexivity].
    specialize (H x a E Eg). destruct (F x Hx). lia.
Qed.

Lemma take_ranges_from_ok rs : forall prev l,
  StronglySorted before l -> ranges_ok prev rs ->
  take_ranges_from prev rs l
  = Some (filter (fun p => negb (in_ranges rs (p_pn p))) l, rev (filter (fun p => in_ranges rs (p_pn p)) l)).
Proof.
  induction rs as [|[lo hi] rs IH]; intros prev l S R.
  - cbn. f_equal. f_equal; [symmetry; apply filter_all|rewrite filter_none; [reflexivity|]]; rewrite Forall_forall; intros; reflexivity.
  - destruct R as (R1 & R2 & R3). cbn [take_ranges_from].
    replace (match prev with Some s => hi <? s | None => true end) with true.
    2:{ destruct prev; [symmetry; apply N.ltb_lt; exact R2|reflexivity]. }
    assert (S1 : StronglySorted (fun a b => (p_pn b <? lo) = true -> (p_pn a <? lo) = true) l).
    { eapply ss_imp; [|exact S]. cbn. intros a b (X & _) Y. rewrite N.ltb_lt in *. lia. }
    assert (S2 : StronglySorted (fun a b => (p_pn b <=? hi) = true -> (p_pn a <=? hi) = true) l).
    { eapply ss_imp; [|exact S]. cbn. intros a b (X & _) Y. rewrite N.leb_le in *. lia. }
    destruct (part_point_split (fun p => p_pn p <? lo) l S1) as [A1 A2].
    destruct (part_point_split (fun p => p_pn p <=? hi) l S2) as [B1 B2].
    set (i := part_point (fun p => p_pn p <? lo) l) in *.
    set (j := part_point (fun p => p_pn p <=? hi) l) in *.
    assert (Hij : (i <= j)%nat).
    { unfold i, j. clear -S R1. induction S as [|a l S IH F]; cbn; [lia|].
      destruct (N.ltb_spec (p_pn a) lo); [|lia]. destruct (N.leb_spec (p_pn a) hi); lia. }
    destruct (Nat.ltb_spec j i); [lia|].
    (* the taken packets *)
    assert (M : skipn i (firstn j l) = filter (fun p => (lo <=? p_pn p) && (p_pn p <=? hi)) l).
    { rewrite B1. 
      assert (S3 : StronglySorted (fun a b => (p_pn b <? lo) = true -> (p_pn a <? lo) = true) (filter (fun p => p_pn p <=? hi) l)) by (apply ss_filter; exact S1).
      assert (E : i = part_point (fun p => p_pn p <? lo) (filter (fun p => p_pn p <=? hi) l)).
      { unfold i. clear -S R1. induction S as [|a l S IH F]; cbn; [reflexivity|].
        destruct (N.ltb_spec (p_pn a) lo); destruct (N.leb_spec (p_pn a) hi); cbn; try lia.
        - destruct (N.ltb_spec (p_pn a) lo); [|lia]. f_equal. exact IH.
        - destruct (N.ltb_spec (p_pn a) lo); [lia|]. reflexivity.
        - rewrite filter_none; [reflexivity|]. rewrite Forall_forall in *. intros x Hx. destruct (F x Hx). apply N.leb_gt. lia. }
      rewrite E. destruct (part_point_split _ _ S3) as [_ C]. rewrite C, filter_filter.
      apply filter_ext. intros a. rewrite N.ltb_antisym, negb_involutive. apply andb_comm. }
    assert (L : firstn i l ++ skipn j l = filter (fun p => negb ((lo <=? p_pn p) && (p_pn p <=? hi))) l).
    { rewrite A1, B2. rewrite <- filter_split_app; [|exact S|].
      - apply filter_ext. intros a. rewrite negb_andb, N.ltb_antisym. reflexivity.
      - intros a b X Y. rewrite N.ltb_lt in X. apply negb_true_iff, N.leb_gt in Y. lia. }
    assert (R3' : forall q, in_ranges rs q = true -> q < lo).
    { clear -R3. intros q. revert lo R3. induction rs as [|[a b] rs IH]; intros lo R; cbn; [discriminate|].
      destruct R as (R1 & R2 & R3). intros H. apply orb_true_iff in H. destruct H as [H|H].
      - cbn in H. apply andb_true_iff in H. rewrite !N.leb_le in H. lia.
      - specialize (IH _ R3 H). lia. }
    assert (K : filter (fun p => negb (in_ranges ((lo, hi) :: rs) (p_pn p))) l
                = filter (fun p => negb (in_ranges rs (p_pn p))) (firstn i l ++ skipn j l)).
    { rewrite L, filter_filter. apply filter_ext. intros a. cbn. rewrite negb_orb. reflexivity. }
    assert (TK : filter (fun p => in_ranges ((lo, hi) :: rs) (p_pn p)) l
                = filter (fun p => in_ranges rs (p_pn p)) (firstn i l ++ skipn j l) ++ skipn i (firstn j l)).
    { rewrite L, M, filter_filter. rewrite <- filter_split_app; [|exact S|].
      - apply filter_ext. intros a. change (in_ranges ((lo, hi) :: rs) (p_pn a)) with (((lo <=? p_pn a) && (p_pn a <=? hi)) || in_ranges rs (p_pn a)).
        destruct (in_ranges rs (p_pn a)) eqn:E.
        + apply R3' in E. destruct (N.leb_spec lo (p_pn a)); [lia|]. reflexivity.
        + rewrite andb_false_r, orb_false_r. reflexivity.
      - intros a b X Y. apply andb_true_iff in X. destruct X as [_ X]. apply R3' in X.
        apply andb_true_iff in Y. rewrite !N.leb_le in Y. lia. }
    rewrite K, TK, rev_app_distr.
    destruct (Nat.eqb_spec i j) as [Eij|Nij].
    + rewrite IH; [|exact S|exact R3].
      replace (firstn i l ++ skipn j l) with l by (rewrite Eij, firstn_skipn; reflexivity).
      replace (skipn i (firstn j l)) with (@nil pkt).
      2:{ symmetry. apply skipn_all2. rewrite firstn_length. lia. }
      reflexivity.
    + rewrite IH; [|rewrite L; apply ss_filter; exact S|exact R3]. reflexivity.
Qed.

Lemma expired_mono now cd a b : loss_le a b -> expired now cd b = true -> expired now cd a = true.
Proof.
  unfold loss_le, expired. destruct (p_lost b) as [[tb ?]|]; [|discriminate]. destruct (p_lost a) as [[ta ?]|]; [|contradiction].
  rewrite !N.leb_le. lia.
Qed.
Lemma remove_expired_ok now cd l :
  lost_sorted l -> remove_expired now cd l = Some (filter (fun p => negb (expired now cd p)) l, filter (expired now cd) l).
Proof.
  intros S. unfold remove_expired.
  assert (S1 : StronglySorted (fun a b => expired now cd b = true -> expired now cd a = true) l).
  { eapply ss_imp; [|exact S]. intros a b (_ & _ & X). apply expired_mono. exact X. }
  destruct (part_point_split _ _ S1) as [A B].
  destruct l as [|p l']; [reflexivity|].
  destruct (expired now cd p) eqn:E.
  - rewrite A, B.
    replace (forallb _ _) with true; [reflexivity|]. symmetry. apply forallb_forall. intros x Hx. apply filter_In in Hx. tauto.
  - cbn [filter]. rewrite E. cbn [negb]. inv S1.
    assert (FF : Forall (fun x => expired now cd x = false) l').
    { eapply Forall_impl; [|eassumption]. cbn. intros x Hx. destruct (expired now cd x); [|reflexivity]. specialize (Hx eq_refl). congruence. }
    rewrite (filter_none (expired now cd) l') by exact FF. rewrite filter_all; [reflexivity|].
    eapply Forall_impl; [|exact FF]. cbn. intros x ->. reflexivity.
Qed.

(** ** Detecting loss *)
Definition should (now ld la : N) (p : pkt) : bool :=
  (p_pn p <? la) && ((p_time p + ld <=? now) || (p_pn p + PACKET_THRESHOLD <=? la)).
Definition mark (now ld la : N) (p : pkt) : pkt :=
  if should now ld la p then
    fst (declare_lost now (if p_time p + ld <=? now then TimeThreshold else ReorderingThreshold) p)
  else p.
Lemma should_mono now ld la a b : before a b -> should now ld la b = true -> should now ld la a = true.
Proof.
  intros (A & B & _). unfold should. rewrite !andb_true_iff, !orb_true_iff, !N.ltb_lt, !N.leb_le. lia.
Qed.
Lemma detect_loop_ok now ld la l :
  lost_sorted l ->
  detect_loop now ld la l
  = (map (mark now ld la) l,
     map (mark now ld la) (filter (fun p => should now ld la p && negb (is_lost p)) l),
     match filter (fun p => (p_pn p <? la) && negb (should now ld la p)) l with p :: _ => Some (p_time p) | [] => None end).
Proof.
  induction 1 as [|p l S IH F]; [reflexivity|]. cbn [detect_loop map filter].
  destruct (should now ld la p) eqn:E.
  - pose proof E as E'. unfold should in E'. apply andb_true_iff in E'. destruct E' as [E1 E2]. rewrite E1. cbn [andb negb].
    assert (X : mark now ld la p = fst (declare_lost now (if p_time p + ld <=? now then TimeThreshold else ReorderingThreshold) p)) by (unfold mark; rewrite E; reflexivity).
    destruct (p_time p + ld <=? now) eqn:E3.
    + cbn [orb] in E2. rewrite IH. unfold declare_lost in *. destruct (is_lost p); cbn [fst andb negb map] in *; rewrite X; reflexivity.
    + cbn [orb] in E2. rewrite E2. rewrite IH. unfold declare_lost in *. destruct (is_lost p); cbn [fst andb negb map] in *; rewrite X; reflexivity.
  - assert (FF : Forall (fun x => should now ld la x = false) l).
    { eapply Forall_impl; [|exact F]. cbn. intros x Hx. destruct (should now ld la x) eqn:E2; [|reflexivity]. rewrite (should_mono _ _ _ _ _ Hx E2) in E. discriminate. }
    assert (M : map (mark now ld la) l = l).
    { clear -FF. induction FF as [|x l H _ IH]; cbn; [reflexivity|]. rewrite IH. unfold mark. rewrite H. reflexivity. }
    assert (Nn : filter (fun p => should now ld la p && negb (is_lost p)) l = []).
    { apply filter_none. eapply Forall_impl; [|exact FF]. cbn. intros x ->. reflexivity. }
    cbn [andb negb]. rewrite Nn, M. unfold mark. rewrite E. cbn [map].
    destruct (p_pn p <? la) eqn:E1; cbn [andb].
    + unfold should in E. rewrite E1 in E. cbn [andb] in E. apply orb_false_iff in E. destruct E as [E2 E3]. rewrite E2, E3. reflexivity.
    + rewrite filter_none; [reflexivity|]. rewrite Forall_forall in *. intros x Hx. destruct (F x Hx) as (Y & _).
      apply N.ltb_ge in E1. destruct (N.ltb_spec (p_pn x) la); [lia|]. reflexivity.
Qed.
Lemma mark_pn now ld la p : p_pn (mark now ld la p) = p_pn p.
Proof. unfold mark, declare_lost. destruct (should _ _ _ _), (is_lost p); reflexivity. Qed.
Lemma mark_time now ld la p : p_time (mark now ld la p) = p_time p.
Proof. unfold mark, declare_lost. destruct (should _ _ _ _), (is_lost p); reflexivity. Qed.
Lemma mark_type now ld la p : p_type (mark now ld la p) = p_type p.
Proof. unfold mark, declare_lost. destruct (should _ _ _ _), (is_lost p); reflexivity. Qed.
Lemma mark_ae now ld la p : p_ae (mark now ld la p) = p_ae p.
Proof. unfold mark, declare_lost. destruct (should _ _ _ _), (is_lost p); reflexivity. Qed.
Lemma mark_primary now ld la p : p_primary (mark now ld la p) = p_primary p.
Proof. unfold mark, declare_lost. destruct (should _ _ _ _), (is_lost p); reflexivity. Qed.
Lemma mark_len now ld la p : p_len (mark now ld la p) = p_len p.
Proof. unfold mark, declare_lost. destruct (should _ _ _ _), (is_lost p); reflexivity. Qed.
Lemma mark_pto now ld la p : p_pto (mark now ld la p) = p_pto p.
Proof. unfold mark, declare_lost. destruct (should _ _ _ _), (is_lost p); reflexivity. Qed.
Lemma mark_is_lost now ld la p : is_lost (mark now ld la p) = should now ld la p || is_lost p.
Proof.
  unfold mark, declare_lost. destruct (should _ _ _ _); cbn [orb]; [|reflexivity].
  destruct (is_lost p) eqn:E; cbn [fst]; [exact E|reflexivity].
Qed.
Lemma mark_lost now ld la p :
  p_lost (mark now ld la p) = match p_lost p with
    | Some x => Some x
    | None => if should now ld la p then Some (now, if p_time p + ld <=? now then TimeThreshold else ReorderingThreshold) else None end.
Proof.
  unfold mark, declare_lost, is_lost. destruct (should _ _ _ _); destruct (p_lost p) eqn:E; cbn; rewrite ?E; reflexivity.
Qed.
Lemma mark_before now ld la T last a b : T <= now -> pk_ok T last a -> pk_ok T last b -> before a b -> before (mark now ld la a) (mark now ld la b).
Proof.
  intros HT Ka Kb Hab. pose proof Hab as (A & B & C). unfold before, loss_le.
  rewrite !mark_pn, !mark_time, !mark_lost. splits; [exact A|exact B|].
  unfold loss_le in C. destruct Ka as (_ & Ka & _).
  destruct (p_lost b) as [[tb ?]|] eqn:Eb.
  - destruct (p_lost a) as [[ta ?]|]; [exact C|contradiction].
  - destruct (should now ld la b) eqn:Es; [|exact Logic.I].
    rewrite (should_mono _ _ _ _ _ Hab Es). destruct (p_lost a) as [[ta ?]|]; lia.
Qed.
Lemma mark_sorted now ld la T last l : T <= now -> Forall (pk_ok T last) l -> lost_sorted l -> lost_sorted (map (mark now ld la) l).
Proof.
  intros HT F S. induction S as [|a l S IH G]; cbn; [constructor|]. inv F.
  constructor; [apply IH; assumption|]. rewrite Forall_forall in *. intros x Hx. apply in_map_iff in Hx.
  destruct Hx as (y & <- & Hy). eapply mark_before; eauto.
Qed.
Lemma mark_ok now ld la T last p : T <= now -> pk_ok T last p -> pk_ok now last (mark now ld la p).
Proof.
  intros HT (A & B & C). unfold pk_ok. rewrite mark_time, mark_pn, mark_lost. splits; [lia| |exact C].
  destruct (p_lost p) as [[t ?]|]; [lia|]. destruct (should _ _ _ _); [lia|exact Logic.I].
Qed.

(** ** What a packet keeps when its flags change *)
Definition same_core (a b : pkt) : Prop :=
  p_type a = p_type b /\ p_pn a = p_pn b /\ p_ae a = p_ae b /\ p_time a = p_time b /\ p_lost a = p_lost b /\ p_len a = p_len b.
Lemma same_core_refl p : same_core p p.
Proof. unfold same_core. splits; reflexivity. Qed.
Lemma core_before a b a' b' : same_core a a' -> same_core b b' -> before a b -> before a' b'.
Proof.
  intros (_ & A1 & _ & A2 & A3 & _) (_ & B1 & _ & B2 & B3 & _). unfold before, loss_le. rewrite A1, A2, A3, B1, B2, B3. auto.
Qed.
Lemma core_list_sorted l l' : Forall2 same_core l l' -> lost_sorted l -> lost_sorted l'.
Proof.
  unfold lost_sorted. induction 1 as [|a b l l' C H IH]; intros S; [constructor|]. inv S. constructor; [apply IH; assumption|].
  clear IH H2. induction H as [|x y l l' C' H IH]; [constructor|]. inv H3. constructor; [eapply core_before; eauto|auto].
Qed.
Lemma core_ok T last a b : same_core a b -> pk_ok T last a -> pk_ok T last b.
Proof. intros (_ & A1 & _ & A2 & A3 & _). unfold pk_ok. rewrite A1, A2, A3. auto. Qed.
Lemma core_list_ok T last l l' : Forall2 same_core l l' -> Forall (pk_ok T last) l -> Forall (pk_ok T last) l'.
Proof. induction 1; intros F; [constructor|]. inv F. constructor; [eapply core_ok; eauto|auto]. Qed.
Lemma core_map {A} (f : pkt -> A) l l' : (forall a b, same_core a b -> f a = f b) -> Forall2 same_core l l' -> map f l = map f l'.
Proof. intros E. induction 1; cbn; [reflexivity|]. f_equal; auto. Qed.
Lemma core_filter_len (f : pkt -> bool) l l' : (forall a b, same_core a b -> f a = f b) -> Forall2 same_core l l' -> length (filter f l) = length (filter f l').
Proof.
  intros E. induction 1 as [|a b l l' C H IH]; cbn; [reflexivity|]. rewrite (E _ _ C). destruct (f b); cbn; auto.
Qed.

Definition set_flag (p : pkt) : pkt :=
  mkPkt (p_type p) (p_pn p) (p_ae p) (p_time p) (p_primary p) (p_tokens p) (p_lost p) true (p_len p) (p_probe p).
Lemma take_pto_eq p : take_pto p = if probe_candidate p then (set_flag p, true) else (p, false).
Proof. unfold take_pto, probe_candidate. destruct (p_pto p), (is_lost p); reflexivity. Qed.
Lemma set_flag_core p : same_core p (set_flag p).
Proof. unfold same_core. splits; reflexivity. Qed.

(** What [pto_loop] returns: the candidates as far as they fit; those get marked, and the next one. *)
Lemma pto_loop_ok limit : forall l size,
  let '(l', t, n) := pto_loop limit size l in
  Forall2 same_core l l' /\
  exists k rest, filter probe_candidate l = k ++ rest /\ t = map set_flag k /\ size + total_len k <= N.max size limit /\
    (match rest with
     | [] => n = size + total_len k /\ l' = map (fun p => if probe_candidate p then set_flag p else p) l
     | p :: rest' => limit < size + total_len k + p_len p /\ n = size + total_len k + p_len p /\ filter probe_candidate l' = rest'
     end).
Proof.
  induction l as [|p l IH]; intros size; cbn [pto_loop].
  - split; [constructor|]. exists [], []. cbn. splits; try reflexivity; lia.
  - rewrite take_pto_eq. destruct (probe_candidate p) eqn:E.
    + destruct (N.leb_spec (size + p_len p) limit) as [H|H].
      * specialize (IH (size + p_len p)). destruct (pto_loop limit (size + p_len p) l) as [[r t] n].
        destruct IH as (F & k & rest & A & B & C & D). split; [constructor; [apply set_flag_core|exact F]|].
        exists (p :: k), rest. cbn [filter]. rewrite E, A. cbn [total_len fold_right map]. splits.
        -- reflexivity.
        -- rewrite B. reflexivity.
        -- fold (total_len k). lia.
        -- fold (total_len k). destruct rest as [|q rest].
           ++ rewrite E. destruct D as [D1 D2]. split; [lia|]. rewrite D2. reflexivity.
           ++ destruct D as (D1 & D2 & D3). splits; try lia. cbn [filter].
              replace (probe_candidate (set_flag p)) with false by reflexivity. exact D3.
      * split; [constructor; [apply set_flag_core|]; clear; induction l; constructor; auto using same_core_refl|].
        exists [], (filter probe_candidate (p :: l)). cbn [filter]. rewrite E. cbn. splits; try reflexivity; try lia.
    + specialize (IH size). destruct (pto_loop limit size l) as [[r t] n].
      destruct IH as (F & k & rest & A & B & C & D). split; [constructor; [apply same_core_refl|exact F]|].
      exists k, rest. cbn [filter map]. rewrite E, A. splits; try assumption; [reflexivity|].
      destruct rest as [|q rest].
      * destruct D as [D1 D2]. split; [exact D1|]. rewrite D2. reflexivity.
      * exact D.
Qed.
