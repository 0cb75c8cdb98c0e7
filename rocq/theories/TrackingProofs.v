From Verif Require Import Base Lib CodecModel Reader CodecSpec CodecProofs FrameModel FrameSpec FrameProofs FrameProofs2 FrameProofs3
  TrackingModel TrackingSpec.

Definition inR (x : N) (l : list prange) := exists r, In r l /\ pr_smallest r <= x <= pr_largest r.
Definition settled (x : N) (l : list prange) := exists r, In r l /\ pr_needed r = false /\ pr_smallest r <= x <= pr_largest r.
Definition seps (b : N) (l : list prange) := separated b (map pr_pair l).
Definition lowb (m : N) (l : list prange) := Forall (fun r => m <= pr_smallest r) l.

Lemma seps_cons b r l : seps b (r :: l) <-> pr_smallest r <= pr_largest r /\ pr_largest r + 2 <= b /\ seps (pr_smallest r) l.
Proof. unfold seps. cbn [map separated pr_pair]. tauto. Qed.
Lemma seps_weaken b b' l : b <= b' -> seps b l -> seps b' l.
Proof. intros H. destruct l as [|r l]; [intros; exact I|]. rewrite !seps_cons. intros (? & ? & ?). repeat split; auto; lia. Qed.
Lemma seps_bound b l x : seps b l -> inR x l -> x + 2 <= b.
Proof.
  revert b. induction l as [|r l IH]; intros b H [q [Hq Hx]]; [contradiction|]. apply seps_cons in H as (H1 & H2 & H3).
  destruct Hq as [<-|Hq]; [lia|]. assert (x + 2 <= pr_smallest r) by (apply IH; [assumption|exists q; auto]). lia.
Qed.
Lemma inR_cons x r l : inR x (r :: l) <-> pr_smallest r <= x <= pr_largest r \/ inR x l.
Proof.
  split.
  - intros [q [[<-|Hq] Hx]]; [auto|right; exists q; auto].
  - intros [H|[q [Hq Hx]]]; [exists r; split; [left; reflexivity|assumption]|exists q; split; [right; assumption|assumption]].
Qed.
Lemma settled_cons x r l : settled x (r :: l) <-> (pr_needed r = false /\ pr_smallest r <= x <= pr_largest r) \/ settled x l.
Proof.
  split.
  - intros [q [[<-|Hq] Hx]]; [auto|right; exists q; auto].
  - intros [H|[q [Hq Hx]]]; [exists r; split; [left; reflexivity|assumption]|exists q; split; [right; assumption|assumption]].
Qed.
Lemma inR_nil x : ~ inR x []. Proof. intros [q [[] _]]. Qed.
Lemma settled_nil x : ~ settled x []. Proof. intros [q [[] _]]. Qed.

Lemma contains_false r pn : ~ (pr_smallest r <= pn <= pr_largest r) -> pr_contains r pn = false.
Proof. unfold pr_contains. destruct (N.leb_spec (pr_smallest r) pn), (N.leb_spec pn (pr_largest r)); cbn; auto; intros H'; exfalso; apply H'; lia. Qed.

Lemma settled_inR x l : settled x l -> inR x l.
Proof. intros [q (A & B & C)]. exists q; auto. Qed.

Lemma rp_add_spec pn m l : forall b, seps b l -> pn + 2 <= b -> ~ inR pn l -> lowb m l -> m <= pn ->
  exists l', rp_add pn l = Some l' /\ seps b l' /\ (forall x, inR x l' <-> x = pn \/ inR x l) /\
    (length l' <= S (length l))%nat /\ l' <> [] /\ lowb m l' /\
    (forall x, settled x l' -> settled x l /\ x <> pn).
Proof.
  induction l as [|r l IH]; intros b Hs Hb Hn Hm Hmp; cbn [rp_add].
  - eexists; split; [reflexivity|]. unfold pr_new. splits.
    + apply seps_cons. cbn [pr_smallest pr_largest]. splits; [lia|lia|exact I].
    + intros x. rewrite inR_cons. cbn [pr_smallest pr_largest]. split; (intros [H|H]; [left; lia|apply inR_nil in H; contradiction]).
    + cbn; lia.
    + discriminate.
    + constructor; [exact Hmp|constructor].
    + intros x H. exfalso. apply settled_cons in H as [[? _]|H]; [discriminate|apply settled_nil in H; contradiction].
  - rewrite inR_cons in Hn. apply seps_cons in Hs as (H1 & H2 & H3). apply Forall_cons_iff in Hm as [Hm1 Hm2].
    rewrite contains_false by tauto.
    destruct (N.eqb_spec (pr_largest r + 1) pn) as [E1|E1].
    { eexists; split; [reflexivity|]. splits.
      - apply seps_cons; cbn [pr_smallest pr_largest]. splits; [lia|lia|assumption].
      - intros x. rewrite !inR_cons; cbn [pr_smallest pr_largest]. split.
        + intros [H|H]; [|auto]. destruct (N.eq_dec x pn); [auto|right; left; lia].
        + intros [H|[H|H]]; [left; lia|left; lia|auto].
      - cbn; lia.
      - discriminate.
      - constructor; assumption.
      - intros x H. apply settled_cons in H as [[? _]|H]; [discriminate|]. split; [apply settled_cons; auto|].
        intros ->. apply Hn. right. apply settled_inR. exact H. }
    destruct (N.eqb_spec (pr_smallest r) (pn + 1)) as [E2|E2].
    { assert (Hnew : seps (pr_smallest r - 1) l -> seps b (mkPR (pr_largest r) (pr_smallest r - 1) true :: l)).
      { rewrite seps_cons. cbn [pr_smallest pr_largest]. intros; splits; [lia|lia|assumption]. }
      destruct l as [|n l].
      - eexists; split; [reflexivity|]. splits.
        + apply Hnew. exact I.
        + intros x. rewrite !inR_cons; cbn [pr_smallest pr_largest]. split.
          * intros [H|H]; [|auto]. destruct (N.eq_dec x pn); [auto|right; left; lia].
          * intros [H|[H|H]]; [left; lia|left; lia|auto].
        + cbn; lia.
        + discriminate.
        + constructor; [cbn; lia|constructor].
        + intros x H. apply settled_cons in H as [[? _]|H]; [discriminate|]. apply settled_nil in H; contradiction.
      - pose proof H3 as H3'. apply seps_cons in H3' as (G1 & G2 & G3). apply Forall_cons_iff in Hm2 as [Hm2 Hm3].
        destruct (N.eqb_spec pn 0); [lia|].
        destruct (N.eqb_spec (pn - 1) (pr_largest n)) as [E3|E3].
        + cbn [pr_smallest pr_largest pr_needed]. destruct (N.eqb_spec (pr_largest n + 1) (pr_smallest r - 1)); [|lia].
          eexists; split; [reflexivity|]. splits.
          * apply seps_cons. cbn [pr_smallest pr_largest]. splits; [lia|lia|assumption].
          * intros x. rewrite !inR_cons; cbn [pr_smallest pr_largest]. split.
            -- intros [H|H]; [|auto]. destruct (N.eq_dec x pn); [auto|].
               destruct (N.le_gt_cases x (pr_largest n)); [right; right; left; lia|right; left; lia].
            -- intros [H|[H|[H|H]]]; [left; lia|left; lia|left; lia|auto].
          * cbn; lia.
          * discriminate.
          * constructor; [cbn; lia|assumption].
          * intros x H. apply settled_cons in H as [[H _]|H]; [cbn in H; rewrite orb_true_r in H; discriminate|]. split; [rewrite !settled_cons; auto|].
            intros ->. apply Hn. rewrite inR_cons. right. right. apply settled_inR. exact H.
        + eexists; split; [reflexivity|]. splits.
          * apply Hnew. apply seps_cons. splits; [lia|lia|assumption].
          * intros x. rewrite (inR_cons x (mkPR _ _ _)), (inR_cons x r); cbn [pr_smallest pr_largest]. split.
            -- intros [H|H]; [|auto]. destruct (N.eq_dec x pn); [auto|right; left; lia].
            -- intros [H|[H|H]]; [left; lia|left; lia|auto].
          * cbn; lia.
          * discriminate.
          * constructor; [cbn; lia|constructor; assumption].
          * intros x H. apply settled_cons in H as [[? _]|H]; [discriminate|]. split; [rewrite (settled_cons x r); auto|].
            intros ->. apply Hn. right. apply settled_inR. exact H. }
    destruct (N.ltb_spec (pr_largest r) pn) as [E3|E3].
    { eexists; split; [reflexivity|]. unfold pr_new. splits.
      - rewrite seps_cons. cbn [pr_smallest pr_largest]. splits; [lia|lia|]. apply seps_cons. splits; [lia|lia|assumption].
      - intros x. rewrite (inR_cons x (mkPR _ _ _)); cbn [pr_smallest pr_largest]. split; (intros [H|H]; [left; lia|auto]).
      - cbn; lia.
      - discriminate.
      - constructor; [exact Hmp|constructor; assumption].
      - intros x H. apply settled_cons in H as [[? _]|H]; [discriminate|]. split; [exact H|].
        intros ->. apply Hn. rewrite <- inR_cons. apply settled_inR. exact H. }
    assert (Hlow : pn + 2 <= pr_smallest r).
    { destruct (N.le_gt_cases (pr_smallest r) pn); [exfalso; apply Hn; left; lia|lia]. }
    destruct (IH (pr_smallest r) H3 Hlow) as (l' & -> & A1 & A2 & A3 & A4 & A5 & A6); [tauto|assumption|assumption|].
    eexists; split; [reflexivity|]. splits.
    + apply seps_cons. splits; [lia|lia|assumption].
    + intros x. rewrite !inR_cons, A2. tauto.
    + cbn [length]; lia.
    + discriminate.
    + constructor; assumption.
    + intros x H. apply settled_cons in H as [H|H]; rewrite settled_cons.
      * split; [auto|]. destruct H as [_ H]. lia.
      * apply A6 in H. tauto.
Qed.

Lemma in_ranges_spec pn l : forall b, seps b l -> (in_ranges pn l = true <-> inR pn l).
Proof.
  induction l as [|r l IH]; intros b H; cbn [in_ranges].
  - split; [discriminate|]. intros X; apply inR_nil in X; contradiction.
  - apply seps_cons in H as (H1 & H2 & H3). rewrite inR_cons. unfold pr_contains.
    destruct (N.leb_spec pn (pr_largest r)).
    + rewrite orb_true_iff, (IH _ H3). destruct (N.leb_spec (pr_smallest r) pn); cbn [andb]; split; intros [X|X]; auto; try discriminate; try lia; left; lia.
    + split; [discriminate|]. intros [X|X]; [lia|]. pose proof (seps_bound _ _ _ H3 X). lia.
Qed.

Lemma seps_app b l1 l2 : seps b (l1 ++ l2) -> seps b l1 /\ (forall x y, inR x l1 -> inR y l2 -> y + 2 <= x) /\ exists b', seps b' l2.
Proof.
  revert b. induction l1 as [|r l1 IH]; intros b; cbn [app].
  - intros H. split; [exact I|]. split; [|eauto]. intros x y Hx. apply inR_nil in Hx; contradiction.
  - rewrite !seps_cons. intros (H1 & H2 & H3). destruct (IH _ H3) as (A & B & C). repeat split; auto.
    intros x y Hx Hy. apply inR_cons in Hx as [Hx|Hx]; [|auto].
    assert (y + 2 <= pr_smallest r). { eapply seps_bound; [exact H3|]. destruct Hy as [q [Hq ?]]. exists q. split; [apply in_or_app; auto|assumption]. }
    lia.
Qed.

Lemma trim_spec l m b : seps b l -> l <> [] -> lowb m l -> (length l <= 33)%nat ->
  let '(l', m') := trim_ranges l m in
  seps b l' /\ l' <> [] /\ lowb m' l' /\ (length l' <= 32)%nat /\ m <= m' /\
  (forall x, inR x l' -> inR x l) /\ (forall x, inR x l -> x < m' \/ inR x l') /\ (forall x, settled x l' -> settled x l).
Proof.
  intros Hs Hne Hm Hlen. unfold trim_ranges, MAX_TRACKED_RANGES.
  destruct (Nat.ltb_spec 32 (length l)) as [Hl|Hl].
  - destruct (exists_last Hne) as (l0 & o & ->). rewrite removelast_last, last_last.
    rewrite app_length in Hlen, Hl. cbn [length] in Hlen, Hl.
    destruct (seps_app _ _ _ Hs) as (A & B & [b' C]). apply seps_cons in C as (C1 & C2 & _).
    assert (Ho : inR (pr_largest o) [o]) by (apply inR_cons; left; lia).
    apply Forall_app in Hm as [Hm1 Hm2]. apply Forall_cons_iff in Hm2 as [Hm2 _].
    splits.
    + exact A.
    + intros ->. cbn in *. lia.
    + apply Forall_forall. intros r Hr. assert (Hsm : pr_smallest r <= pr_largest r).
      { revert A Hr. clear. revert b. induction l0 as [|q l0 IH]; intros b H Hr; [contradiction|]. apply seps_cons in H as (? & ? & ?). destruct Hr as [<-|Hr]; [assumption|eapply IH; eauto]. }
      assert (inR (pr_smallest r) l0) by (exists r; split; [assumption|lia]). pose proof (B _ _ H Ho). lia.
    + lia.
    + lia.
    + intros x [q [Hq ?]]. exists q. split; [apply in_or_app; auto|assumption].
    + intros x [q [Hq Hx]]. apply in_app_or in Hq as [Hq|[<-|[]]]; [right; exists q; auto|left; lia].
    + intros x [q [Hq ?]]. exists q. split; [apply in_or_app; auto|assumption].
  - splits; auto; lia.
Qed.

Lemma ack_one_spec a l : forall pre cur, rp_ack_one a l = (pre, cur) ->
  map pr_pair (pre ++ cur) = map pr_pair l /\
  forall x, settled x (pre ++ cur) -> settled x l \/ snd a <= x <= fst a.
Proof.
  induction l as [|r l IH]; intros pre cur; cbn [rp_ack_one].
  - intros H; injection H as <- <-. cbn. split; [reflexivity|]. intros x H. auto.
  - destruct (N.ltb_spec (fst a) (pr_smallest r)).
    + destruct (rp_ack_one a l) as [p c] eqn:E. intros H'; injection H' as <- <-. destruct (IH _ _ eq_refl) as [A B].
      cbn [app map]. rewrite A. split; [reflexivity|]. intros x. rewrite !settled_cons. intros [Hx|Hx]; [auto|]. apply B in Hx. tauto.
    + intros H'; injection H' as <- <-. cbn [app map]. unfold pr_acknowledged.
      destruct (N.leb_spec (snd a) (pr_smallest r)), (N.leb_spec (pr_largest r) (fst a)); cbn [andb]; split; try reflexivity;
        intros x; rewrite !settled_cons; cbn [pr_smallest pr_largest pr_needed]; intros [Hx|Hx]; auto.
      right. lia.
Qed.

Lemma ack_all_spec acked : forall l,
  map pr_pair (rp_ack_all acked l) = map pr_pair l /\
  forall x, settled x (rp_ack_all acked l) -> settled x l \/ covers acked x.
Proof.
  induction acked as [|a acked IH]; intros l; cbn [rp_ack_all].
  - split; [reflexivity|auto].
  - destruct (rp_ack_one a l) as [pre cur] eqn:E. destruct (ack_one_spec _ _ _ _ E) as [A B].
    destruct cur as [|c cur].
    + rewrite app_nil_r in *. split; [assumption|]. intros x Hx. apply B in Hx as [Hx|Hx]; [auto|]. right. exists a. split; [left; reflexivity|assumption].
    + destruct (IH (c :: cur)) as [C D]. rewrite map_app, C, <- map_app. split; [exact A|].
      intros x [q [Hq Hx]]. apply in_app_or in Hq as [Hq|Hq].
      * assert (S : settled x (pre ++ c :: cur)) by (exists q; split; [apply in_or_app; auto|assumption]).
        apply B in S as [S|S]; [auto|right; exists a; split; [left; reflexivity|assumption]].
      * assert (S : settled x (rp_ack_all acked (c :: cur))) by (exists q; auto).
        apply D in S as [S|[y [Hy ?]]]; [|right; exists y; split; [right; assumption|assumption]].
        assert (S' : settled x (pre ++ c :: cur)) by (destruct S as [z [Hz ?]]; exists z; split; [apply in_or_app; auto|assumption]).
        apply B in S' as [S'|S']; [auto|right; exists a; split; [left; reflexivity|assumption]].
Qed.

Lemma pairs_inR l l' x : map pr_pair l' = map pr_pair l -> inR x l' -> inR x l.
Proof.
  intros E [q [Hq Hx]]. assert (In (pr_pair q) (map pr_pair l)) by (rewrite <- E; apply in_map; assumption).
  apply in_map_iff in H as (z & Hz & Hin). exists z. split; [assumption|]. unfold pr_pair in Hz. injection Hz as -> ->. assumption.
Qed.
Lemma lowb_pairs m l l' : map pr_pair l' = map pr_pair l -> lowb m l -> lowb m l'.
Proof.
  intros E H. apply Forall_forall. intros q Hq. assert (In (pr_pair q) (map pr_pair l)) by (rewrite <- E; apply in_map; assumption).
  apply in_map_iff in H0 as (z & Hz & Hin). unfold lowb in H. rewrite Forall_forall in H. apply H in Hin. unfold pr_pair in Hz. injection Hz as _ <-. assumption.
Qed.

Definition B62 : N := 2 ^ 62 + 1.

(** The invariant: [P] processed so far, [A] acknowledged ACK ranges, [k] operations done. *)
Record inv (s : tracker) (toks : list (list (N * N))) (P : list N) (A : list (N * N)) (k : N) : Prop := {
  i_sep : seps B62 (t_ranges s);
  i_low : lowb (t_min s) (t_ranges s);
  i_in : forall x, inR x (t_ranges s) -> In x P;
  i_cov : forall x, In x P -> x < t_min s \/ inR x (t_ranges s);
  i_len : (length (t_ranges s) <= 32)%nat;
  i_tok : forall t x, In t toks -> covers t x -> In x P;
  i_tokne : toks <> [] -> t_ranges s <> [];
  i_set : forall x, settled x (t_ranges s) -> covers A x;
  i_time : t_ranges s <> [] -> t_largest_time s <> None;
  i_ecn : fst (fst (t_ecn s)) + snd (fst (t_ecn s)) + snd (t_ecn s) <= k;
  i_nodup : NoDup P
}.

Lemma inv_new app : inv (tracker_new app) [] [] [] 0.
Proof.
  split; cbn; try tauto; try (intros; contradiction); try constructor; try lia.
  - intros x H. apply inR_nil in H; contradiction.
  - intros x H. apply settled_nil in H; contradiction.
Qed.

Lemma is_duplicate_iff pn s toks P A k : inv s toks P A k -> (is_duplicate pn s = true <-> pn < t_min s \/ In pn P).
Proof.
  intros I. unfold is_duplicate. rewrite orb_true_iff, N.ltb_lt, (in_ranges_spec _ _ _ (i_sep _ _ _ _ _ I)). split.
  - intros [H|H]; [auto|]. right. eapply i_in; eauto.
  - intros [H|H]; [auto|]. eapply i_cov; eauto.
Qed.

Definition out_processed (o : tout) : list N := match o with Processed pn => [pn] | _ => [] end.
Definition step_acked (toks : list (list (N * N))) (o : top) : list (N * N) :=
  match o with OAcked i => nth i toks [] | _ => [] end.

Lemma inv_same s s' toks P A k :
  t_ranges s' = t_ranges s -> t_min s' = t_min s -> (t_largest_time s <> None -> t_largest_time s' <> None) ->
  fst (fst (t_ecn s')) + snd (fst (t_ecn s')) + snd (t_ecn s') <= k + 1 ->
  inv s toks P A k -> inv s' toks P A (k + 1).
Proof. intros E1 E2 E3 E4 []. split; rewrite ?E1, ?E2; auto. Qed.

Lemma separated_filter f l : forall b, seps b l -> seps b (filter f l).
Proof.
  induction l as [|r l IH]; intros b H; cbn [filter]; [exact I|]. apply seps_cons in H as (H1 & H2 & H3).
  destruct (f r).
  - apply seps_cons. auto.
  - apply seps_weaken with (pr_smallest r); [lia|]. auto.
Qed.
Lemma separated_firstn n l : forall b, seps b l -> seps b (firstn n l).
Proof.
  revert l. induction n as [|n IH]; intros [|r l] b H; cbn [firstn]; try exact I. apply seps_cons in H as (H1 & H2 & H3).
  apply seps_cons. auto.
Qed.

(** What [write_ack] writes. *)
Lemma write_ack_spec now rtt rem s toks P A k : inv s toks P A k -> k < 2 ^ 62 ->
  exists s' r, write_ack now rtt rem s = Some (s', r) /\
    t_ranges s' = t_ranges s /\ t_min s' = t_min s /\ t_largest_time s' = t_largest_time s /\ t_ecn s' = t_ecn s /\
    match r with
    | None => s' = s
    | Some (l, rs) =>
        rs = map pr_pair (firstn (N.to_nat (N.min (1 + (rem - 50) / 16) 32)) (filter pr_needed (t_ranges s))) /\
        rs <> [] /\ 50 <= rem /\ lenN l <= rem /\ t_ack_time s' = None /\ t_unacked s' = 0 /\ t_last_ack s' = Some now /\
        (forall x, covers rs x -> In x P) /\
        forall after, exists la delay first gaps,
          frame_decode (l ++ after) = FOk (FAck la delay first gaps (if ecn_is_some (t_ecn s) then Some (t_ecn s) else None)) after /\
          decode_ack_frame la first gaps = Some (map flip rs)
    end /\
    (r = None -> ack_now now rtt s = false \/ rem < 50 \/ filter pr_needed (t_ranges s) = []).
Proof.
  intros I Hk. unfold write_ack. change USEFUL_ACK_LEN with 50. change MAX_ACKS_PER_FRAME with 32.
  destruct (ack_now now rtt s) eqn:En; cbn [negb]; [|exists s, None; splits; auto].
  destruct (N.ltb_spec rem 50); [exists s, None; splits; auto|].
  set (mx := N.min (1 + (rem - 50) / 16) 32).
  assert (Hmx : (1 <= N.to_nat mx <= 32)%nat) by (unfold mx; lia).
  set (sel := firstn (N.to_nat mx) (filter pr_needed (t_ranges s))).
  assert (Hsel : seps B62 sel) by (apply separated_firstn, separated_filter, (i_sep _ _ _ _ _ I)).
  assert (Hlen : lenN sel <= mx) by (unfold lenN, sel; rewrite firstn_length; lia).
  assert (Hin : forall x, covers (map pr_pair sel) x -> In x P).
  { intros x [r [Hr Hx]]. apply in_map_iff in Hr as (q & <- & Hq). eapply i_in; [exact I|]. exists q. split; [|exact Hx].
    unfold sel in Hq. assert (In q (filter pr_needed (t_ranges s))).
    { rewrite <- (firstn_skipn (N.to_nat mx)). apply in_or_app. auto. }
    apply filter_In in H0. tauto. }
  assert (Hempty : sel = [] -> filter pr_needed (t_ranges s) = []).
  { unfold sel. destruct (filter pr_needed (t_ranges s)); [auto|]. destruct (N.to_nat mx); [lia|discriminate]. }
  destruct sel as [|f sel'] eqn:Es; cbn [map].
  { exists s, None. splits; auto. }
  pose proof (i_time _ _ _ _ _ I) as Ht.
  destruct (t_largest_time s) as [lt|] eqn:Elt.
  2: { exfalso. apply Ht; [|reflexivity]. intros X. unfold sel in Es. rewrite X in Es. cbn in Es. destruct (N.to_nat mx); discriminate. }
  set (delay := N.min MAX_VARINT ((now - lt) / 1000 / 8)).
  set (ecn := if ecn_is_some (t_ecn s) then Some (t_ecn s) else None).
  apply seps_cons in Hsel as (S1 & S2 & S3).
  destruct (t_ecn s) as [[e0 e1] ce] eqn:Eecn.
  pose proof (i_ecn _ _ _ _ _ I) as Hec. rewrite Eecn in Hec. cbn [fst snd] in Hec.
  assert (RT : forall after, exists l first gaps,
    ack_frame_bytes (pr_pair f) (map pr_pair sel') delay ecn = Some l /\
    frame_decode (l ++ after) = FOk (FAck (pr_largest f) delay first gaps ecn) after /\
    decode_ack_frame (pr_largest f) first gaps = Some (map flip (pr_pair f :: map pr_pair sel'))).
  { intros after. apply ack_round_trip.
    - unfold B62 in S2. lia.
    - exact S1.
    - exact S3.
    - unfold lenN. rewrite map_length. unfold lenN in Hlen. cbn [length] in Hlen. unfold mx in Hlen. lia.
    - unfold delay, MAX_VARINT. lia.
    - unfold ecn. destruct (ecn_is_some (e0, e1, ce)); [|exact Logic.I]. repeat split; lia. }
  destruct (RT []) as (l & fr & gaps & R1 & _). rewrite R1.
  eexists _, (Some (l, _)). split; [reflexivity|]. cbn [t_ranges t_min t_largest_time t_ecn t_ack_time t_unacked t_last_ack].
  splits; auto.
  - discriminate.
  - apply ack_size in R1.
    + unfold lenN in *. rewrite map_length in R1. cbn [length] in Hlen. unfold mx in Hlen.
      assert (16 * ((rem - 50) / 16) <= rem - 50) by (apply N.mul_div_le; discriminate). lia.
    + unfold lenN in *. rewrite map_length. cbn [length] in Hlen. unfold mx in Hlen. lia.
  - intros after. destruct (RT after) as (l2 & fr2 & g2 & R2 & R3 & R4). rewrite R1 in R2. injection R2 as <-. eauto 10.
  - discriminate.
Qed.

Lemma tstep_inv s toks P A k o : op_ok o -> k < 2 ^ 62 -> inv s toks P A k ->
  exists s' toks' out, tstep (s, toks) o = Some (s', toks', out) /\
    inv s' toks' (P ++ out_processed out) (A ++ step_acked toks o) (k + 1) /\
    toks' = toks ++ (match out with Wrote _ rs => [rs] | _ => [] end) /\
    (match o with OAcked _ => forall l rs, out <> Wrote l rs | _ => True end).
Proof.
  intros Hok Hk I. destruct o as [now pn el mark|now rtt rem|i|now|sn tol d io]; cbn [tstep step_acked].
  - cbn [op_ok] in Hok. destruct (is_duplicate pn s) eqn:Ed.
    + exists s, toks, (Dropped pn). cbn [out_processed]. rewrite !app_nil_r. splits; auto.
      eapply inv_same; eauto. pose proof (i_ecn _ _ _ _ _ I); lia.
    + assert (Hnd : ~ (pn < t_min s \/ In pn P)) by (rewrite <- (is_duplicate_iff pn s toks P A k I); congruence).
      unfold set_received.
      assert (Hmin : t_min s <= pn) by (destruct (N.le_gt_cases (t_min s) pn); [assumption|exfalso; auto]).
      destruct (rp_add_spec pn (t_min s) (t_ranges s) B62 (i_sep _ _ _ _ _ I)) as (l1 & -> & S1 & S2 & S3 & S4 & S5 & S6);
        [unfold B62; lia|intros X; apply Hnd; right; eapply i_in; eauto|apply (i_low _ _ _ _ _ I)|assumption|].
      pose proof (i_len _ _ _ _ _ I) as Hlen.
      pose proof (trim_spec l1 (t_min s) B62 S1 S4 S5 ltac:(lia)) as T.
      destruct (trim_ranges l1 (t_min s)) as [l m]. destruct T as (T1 & T2 & T3 & T4 & T5 & T6 & T7 & T8).
      assert (G : forall s', t_ranges s' = l -> t_min s' = m ->
        t_largest_time s' = (if (match t_ranges s with [] => 0 | r :: _ => pr_largest r + 1 end) <=? pn then Some now else t_largest_time s) ->
        t_ecn s' = t_ecn s -> inv (count_ecn mark s') toks (P ++ [pn]) (A ++ []) (k + 1)).
      { intros s' E1 E2 E3 E4.
        assert (X1 : t_ranges (count_ecn mark s') = l) by (unfold count_ecn; destruct (t_ecn s') as [[? ?] ?]; exact E1).
        assert (X2 : t_min (count_ecn mark s') = m) by (unfold count_ecn; destruct (t_ecn s') as [[? ?] ?]; exact E2).
        assert (X3 : t_largest_time (count_ecn mark s') = t_largest_time s') by (unfold count_ecn; destruct (t_ecn s') as [[? ?] ?]; reflexivity).
        split; rewrite ?X1, ?X2, ?X3.
        - exact T1.
        - exact T3.
        - intros x Hx. apply T6, S2 in Hx as [->|Hx]; apply in_or_app; [right; left; reflexivity|left; eapply i_in; eauto].
        - intros x Hx. apply in_app_or in Hx as [Hx|[<-|[]]].
          + apply (i_cov _ _ _ _ _ I) in Hx as [Hx|Hx]; [left; lia|]. apply T7, S2; auto.
          + apply T7, S2; auto.
        - exact T4.
        - intros t x Ht Hx. apply in_or_app. left. eapply i_tok; eauto.
        - intros _. exact T2.
        - intros x Hx. apply T8, S6 in Hx as [Hx _]. rewrite app_nil_r. eapply i_set; eauto.
        - intros _. rewrite E3. destruct (t_ranges s) as [|r0 l0] eqn:Er; [destruct (N.leb_spec 0 pn); [discriminate|lia]|].
          destruct (pr_largest r0 + 1 <=? pn); [discriminate|]. apply (i_time _ _ _ _ _ I). rewrite Er. discriminate.
        - unfold count_ecn. rewrite E4. pose proof (i_ecn _ _ _ _ _ I) as He. destruct (t_ecn s) as [[e0 e1] ce]. cbn [fst snd] in He. cbn [t_ecn].
          destruct (mark =? 1); [cbn [fst snd]; lia|]. destruct (mark =? 2); [cbn [fst snd]; lia|]. destruct (mark =? 3); cbn [fst snd]; lia.
        - apply nodup_snoc; [apply (i_nodup _ _ _ _ _ I)|tauto]. }
      destruct el; eexists _, toks, (Processed pn); cbn [out_processed]; (split; [reflexivity|]); rewrite app_nil_r with (l := toks); (split; [apply G; reflexivity|auto]).
  - destruct (write_ack_spec now rtt rem s toks P A k I Hk) as (s' & r & -> & R1 & R2 & R3 & R4 & R5 & _).
    assert (I' : inv s' toks P A (k + 1)).
    { eapply inv_same; eauto; [congruence|]. rewrite R4. pose proof (i_ecn _ _ _ _ _ I); lia. }
    destruct r as [[l rs]|].
    + destruct R5 as (R50 & R51 & _ & _ & _ & _ & _ & R6 & _). eexists s', _, (Wrote l rs). cbn [out_processed]. split; [reflexivity|]. rewrite !app_nil_r. splits; auto.
      destruct I'. split; auto.
      * intros t x Ht Hx. apply in_app_or in Ht as [Ht|[<-|[]]]; [eauto|auto].
      * intros _ X. rewrite R1 in X. rewrite X in R50. cbn [filter] in R50. rewrite firstn_nil in R50. auto.
    + eexists s', toks, Nothing. cbn [out_processed]. split; [reflexivity|]. rewrite !app_nil_r. splits; auto.
  - destruct (nth_error toks i) as [rs|] eqn:E.
    + rewrite (nth_error_nth _ _ [] E).
      assert (Hne : t_ranges s <> []) by (apply (i_tokne _ _ _ _ _ I); intros ->; destruct i; discriminate).
      unfold rp_acknowledged. destruct (t_ranges s) as [|r0 l0] eqn:Er; [congruence|]. rewrite <- Er in *. clear Er r0 l0.
      destruct (ack_all_spec rs (t_ranges s)) as [A1 A2].
      eexists _, toks, Nothing. cbn [out_processed]. split; [reflexivity|]. rewrite !app_nil_r. splits; auto; [|discriminate].
      destruct I. split; cbn [with_ranges t_ranges t_min t_largest_time t_ecn]; auto.
      * unfold seps in *. rewrite A1. assumption.
      * eapply lowb_pairs; eauto.
      * intros x Hx. apply i_in0. eapply pairs_inR; eauto.
      * intros x Hx. apply i_cov0 in Hx as [Hx|Hx]; [auto|]. right. eapply pairs_inR; [|exact Hx]. auto.
      * rewrite <- (map_length pr_pair), A1, map_length. assumption.
      * intros _ X. rewrite X in A1. destruct (t_ranges s); [congruence|discriminate].
      * intros x Hx. apply A2 in Hx as [Hx|[y [Hy ?]]]; [apply i_set0 in Hx as [y [Hy ?]]|]; exists y; split; auto; apply in_or_app; auto.
      * lia.
    + assert (nth i toks [] = []) as -> by (apply nth_overflow; apply nth_error_None; assumption).
      exists s, toks, Nothing. cbn [out_processed]. rewrite !app_nil_r. splits; auto; [|discriminate].
      eapply inv_same; eauto. pose proof (i_ecn _ _ _ _ _ I); lia.
  - exists (immediate_ack now s), toks, Nothing. cbn [out_processed]. rewrite !app_nil_r. splits; auto.
    eapply inv_same; [..|exact I]; try reflexivity; auto. pose proof (i_ecn _ _ _ _ _ I); cbn [immediate_ack t_ecn]; lia.
  - exists (ack_freq sn tol d io s), toks, Nothing. cbn [out_processed]. rewrite !app_nil_r. splits; auto.
    pose proof (i_ecn _ _ _ _ _ I). unfold ack_freq. destruct (t_freq_seqno s <=? sn); (eapply inv_same; [..|exact I]; try reflexivity; auto; cbn [t_ecn]; lia).
Qed.

Lemma acked_of_cons toks o ops out outs :
  (match o with OAcked _ => forall l rs, out <> Wrote l rs | _ => True end) ->
  acked_of toks (o :: ops) (out :: outs) =
  step_acked toks o ++ acked_of (toks ++ match out with Wrote _ rs => [rs] | _ => [] end) ops outs.
Proof.
  destruct o; destruct out; cbn [acked_of step_acked app]; rewrite ?app_nil_r; auto.
  intros H. exfalso. eapply H; reflexivity.
Qed.

Lemma truns_inv ops : forall s toks P A k, Forall op_ok ops -> k + lenN ops < 2 ^ 62 -> inv s toks P A k ->
  exists s' toks' outs, truns (s, toks) ops = Some (s', toks', outs) /\
    inv s' toks' (P ++ processed outs) (A ++ acked_of toks ops outs) (k + lenN ops).
Proof.
  induction ops as [|o ops IH]; intros s toks P A k Hok Hk I; cbn [truns].
  - exists s, toks, []. split; [reflexivity|]. cbn [processed acked_of]. rewrite !app_nil_r. change (lenN []) with 0. rewrite N.add_0_r. exact I.
  - apply Forall_cons_iff in Hok as [Ho Hops]. rewrite lenN_cons in Hk.
    destruct (tstep_inv s toks P A k o Ho ltac:(lia) I) as (s1 & t1 & out & -> & I1 & Et & Ho1).
    destruct (IH s1 t1 _ _ (k + 1) Hops ltac:(lia) I1) as (s2 & t2 & outs & -> & I2).
    exists s2, t2, (out :: outs). split; [reflexivity|].
    rewrite (acked_of_cons _ _ _ _ _ Ho1), <- Et, app_assoc.
    assert (Ep : processed (out :: outs) = out_processed out ++ processed outs) by (destruct out; reflexivity).
    rewrite Ep, app_assoc, lenN_cons. replace (k + (1 + lenN ops)) with (k + 1 + lenN ops) by lia. exact I2.
Qed.

Lemma trun_inv app ops : Forall op_ok ops -> lenN ops < 2 ^ 62 ->
  exists s toks outs, trun app ops = Some (s, toks, outs) /\ inv s toks (processed outs) (acked_of [] ops outs) (lenN ops).
Proof.
  intros H1 H2. destruct (truns_inv ops _ [] [] [] 0 H1 ltac:(lia) (inv_new app)) as (s & t & outs & A & B). exists s, t, outs. auto.
Qed.

Ltac get_inv H1 H2 H :=
  let s := fresh in let t := fresh in let o := fresh in let E := fresh in
  match type of H with trun ?app ?ops = _ => destruct (trun_inv app ops H1 H2) as (s & t & o & E & I); rewrite E in H; injection H as -> -> -> end.

Lemma no_panic_lemma app ops : Forall op_ok ops -> lenN ops < 2 ^ 62 -> trun app ops <> None.
Proof. intros H1 H2. destruct (trun_inv app ops H1 H2) as (s & t & o & -> & _). discriminate. Qed.

Lemma processed_once_lemma app ops s toks outs : Forall op_ok ops -> lenN ops < 2 ^ 62 ->
  trun app ops = Some (s, toks, outs) -> NoDup (processed outs).
Proof. intros H1 H2 H. get_inv H1 H2 H. apply (i_nodup _ _ _ _ _ I). Qed.

Lemma duplicate_iff_lemma app ops s toks outs pn : Forall op_ok ops -> lenN ops < 2 ^ 62 ->
  trun app ops = Some (s, toks, outs) -> (is_duplicate pn s = true <-> pn < t_min s \/ In pn (processed outs)).
Proof. intros H1 H2 H. get_inv H1 H2 H. eapply is_duplicate_iff. exact I. Qed.

Lemma separated_bounds l : forall b, separated b (map pr_pair l) -> separated b (map pr_pair l).
Proof. auto. Qed.

Lemma bounded_lemma app ops s toks outs : Forall op_ok ops -> lenN ops < 2 ^ 62 ->
  trun app ops = Some (s, toks, outs) ->
  (length (t_ranges s) <= 32)%nat /\ separated (2 ^ 62 + 1) (map pr_pair (t_ranges s)) /\
  (forall pn, holds s pn -> In pn (processed outs)).
Proof. intros H1 H2 H. get_inv H1 H2 H. splits; apply I. Qed.

Lemma fate_lemma app ops s toks outs pn : Forall op_ok ops -> lenN ops < 2 ^ 62 ->
  trun app ops = Some (s, toks, outs) -> In pn (processed outs) ->
  pn < t_min s \/ advertised s pn \/ covers (acked_of [] ops outs) pn.
Proof.
  intros H1 H2 H Hp. get_inv H1 H2 H. apply (i_cov _ _ _ _ _ I) in Hp as [Hp|[r [Hr Hx]]]; [auto|].
  right. destruct (pr_needed r) eqn:En; [left; exists r; auto|]. right. apply (i_set _ _ _ _ _ I). exists r. auto.
Qed.

Lemma truns_app ops1 : forall st ops2, truns st (ops1 ++ ops2) =
  match truns st ops1 with
  | None => None
  | Some (st1, o1) => match truns st1 ops2 with None => None | Some (st2, o2) => Some (st2, o1 ++ o2) end
  end.
Proof.
  induction ops1 as [|o ops1 IH]; intros st ops2; cbn [app truns].
  - destruct (truns st ops2) as [[? ?]|]; reflexivity.
  - destruct (tstep st o) as [[st' out]|]; [|reflexivity]. rewrite IH.
    destruct (truns st' ops1) as [[st1 o1]|]; [|reflexivity]. destruct (truns st1 ops2) as [[? ?]|]; reflexivity.
Qed.

Lemma written_lemma app ops s toks outs now rtt rem s' toks' l rs : Forall op_ok ops -> lenN ops < 2 ^ 62 ->
  trun app ops = Some (s, toks, outs) -> tstep (s, toks) (OWrite now rtt rem) = Some (s', toks', Wrote l rs) ->
  lenN l <= rem /\ (forall pn, covers rs pn -> In pn (processed outs)) /\
  forall after, exists la delay first gaps ecn,
    frame_decode (l ++ after) = FOk (FAck la delay first gaps ecn) after /\ decode_ack_frame la first gaps = Some (map flip rs).
Proof.
  intros H1 H2 H W. get_inv H1 H2 H. cbn [tstep] in W.
  destruct (write_ack_spec now rtt rem s _ _ _ _ I H2) as (s2 & r & E & _ & _ & _ & _ & R & _). rewrite E in W.
  destruct r as [[l2 rs2]|]; [|discriminate]. injection W as <- <- <- <-.
  destruct R as (_ & _ & _ & R1 & _ & _ & _ & R2 & R3). splits; auto.
  intros after. destruct (R3 after) as (la & d & f & g & A & B). eauto 10.
Qed.

Lemma filter_needed_head l x : (exists r, In r l /\ pr_needed r = true /\ pr_smallest r <= x <= pr_largest r) ->
  exists r, In r (filter pr_needed l) /\ pr_smallest r <= x <= pr_largest r.
Proof. intros (r & A & B & C). exists r. split; [apply filter_In; auto|assumption]. Qed.

(** When an ACK is due and something is to be acknowledged, an ACK frame is written: it has
    the number, or is full of ranges above it. *)
Lemma due_written_lemma app ops s toks outs now rtt rem pn : Forall op_ok ops -> lenN ops < 2 ^ 62 ->
  trun app ops = Some (s, toks, outs) -> ack_now now rtt s = true -> 50 <= rem -> advertised s pn ->
  exists s' toks' l rs, tstep (s, toks) (OWrite now rtt rem) = Some (s', toks', Wrote l rs) /\
    t_ack_time s' = None /\
    (covers rs pn \/ lenN rs = N.min (1 + (rem - 50) / 16) 32 /\ forall r, In r rs -> pn < snd r).
Proof.
  intros H1 H2 H Hn Hr Hx. get_inv H1 H2 H. cbn [tstep].
  destruct (write_ack_spec now rtt rem s _ _ _ _ I H2) as (s2 & r & E & _ & _ & _ & _ & R & Rn). rewrite E.
  destruct (filter_needed_head _ _ Hx) as (q & Hq & Hqx).
  destruct r as [[l rs]|].
  - destruct R as (R0 & _ & _ & _ & R4 & _). eexists _, _, l, rs. splits; [reflexivity|exact R4|].
    set (mx := N.min (1 + (rem - 50) / 16) 32) in *. set (fl := filter pr_needed (t_ranges s)) in *.
    rewrite <- (firstn_skipn (N.to_nat mx) fl) in Hq. apply in_app_or in Hq as [Hq|Hq].
    + left. exists (pr_pair q). rewrite R0. split; [apply in_map; assumption|exact Hqx].
    + right. split.
      * rewrite R0. unfold lenN. rewrite map_length, firstn_length. destruct (Nat.le_gt_cases (length fl) (N.to_nat mx)) as [X|X]; [|lia].
        rewrite skipn_all2 in Hq by assumption. contradiction.
      * intros r Hr'. rewrite R0 in Hr'. apply in_map_iff in Hr' as (z & <- & Hz).
        assert (S : seps B62 fl) by (apply separated_filter; apply I). rewrite <- (firstn_skipn (N.to_nat mx) fl) in S.
        assert (Szz : pr_smallest z <= pr_largest z).
        { clear - S Hz. destruct (seps_app _ _ _ S) as [S1 _]. revert S1 Hz. generalize (firstn (N.to_nat mx) fl), B62. intros l0.
          induction l0 as [|y l0 IH]; intros b S1 Hz; [contradiction|]. apply seps_cons in S1 as (? & ? & ?). destruct Hz as [<-|Hz]; [assumption|eauto]. }
        destruct (seps_app _ _ _ S) as (_ & S2 & _).
        assert (pn + 2 <= pr_smallest z); [|cbn; lia]. apply S2; [exists z; split; [assumption|lia]|exists q; auto].
  - exfalso. destruct (Rn eq_refl) as [X|[X|X]]; [congruence|lia|]. rewrite X in Hq. contradiction.
Qed.

(** The timer of an ACK is not cleared except by writing an ACK. *)
Lemma timer_persists_lemma st o s' toks' out t : tstep st o = Some (s', toks', out) -> t_ack_time (fst st) = Some t ->
  (forall l rs, out <> Wrote l rs) -> exists t', t_ack_time s' = Some t'.
Proof.
  destruct st as [s toks]. cbn [fst]. intros H Ht Hout. destruct o; cbn [tstep] in H.
  - destruct (is_duplicate pn s); [injection H as <- <- <-; eauto|]. unfold set_received in H.
    destruct (rp_add pn (t_ranges s)); [|discriminate]. destruct (trim_ranges l (t_min s)) as [l' m'].
    destruct eliciting; injection H as <- <- <-; unfold count_ecn; cbn [t_ecn]; destruct (t_ecn s) as [[? ?] ?]; cbn [t_ack_time]; rewrite ?Ht; eauto.
  - unfold write_ack in H. destruct (negb (ack_now now rtt s)); [injection H as <- <- <-; eauto|].
    destruct (remaining <? USEFUL_ACK_LEN); [injection H as <- <- <-; eauto|].
    destruct (map pr_pair _); [injection H as <- <- <-; eauto|]. destruct (t_largest_time s); [|injection H as <- <- <-; eauto].
    destruct (ack_frame_bytes _ _ _ _); [|discriminate]. injection H as <- <- <-. exfalso. eapply Hout; reflexivity.
  - destruct (nth_error toks i); [|injection H as <- <- <-; eauto]. destruct (rp_acknowledged l (t_ranges s)); [|discriminate]. injection H as <- <- <-. cbn [with_ranges t_ack_time]. eauto.
  - injection H as <- <- <-. cbn. eauto.
  - injection H as <- <- <-. unfold ack_freq. destruct (t_freq_seqno s <=? seqno); cbn; eauto.
Qed.

(** An ack-eliciting packet that is processed arms the timer, no later than the ack delay. *)
Lemma timer_armed_lemma st now pn mark s' toks' : tstep st (OPacket now pn true mark) = Some (s', toks', Processed pn) ->
  exists t, t_ack_time s' = Some t /\ (t_ack_time (fst st) = Some t \/ t <= now + t_delay (fst st)) /\
    (t_app (fst st) = false \/ t_tolerance (fst st) < t_unacked (fst st) + 1 -> t <= now).
Proof.
  destruct st as [s toks]. cbn [fst tstep]. destruct (is_duplicate pn s); [discriminate|]. unfold set_received.
  destruct (rp_add pn (t_ranges s)); [|discriminate]. destruct (trim_ranges l (t_min s)) as [l' m'].
  intros H. injection H as <- <-. unfold count_ecn; cbn [t_ecn]; destruct (t_ecn s) as [[? ?] ?]; cbn [t_ack_time].
  eexists; split; [reflexivity|]. destruct (t_app s); cbn [negb orb]; [|split; [right; lia|intros; lia]].
  destruct (N.ltb_spec (t_tolerance s) (t_unacked s + 1)); rewrite ?orb_true_r, ?orb_false_r; [split; [right; lia|intros; lia]|].
  destruct (negb _ && negb _); [split; [right; lia|intros; lia]|].
  destruct (t_ack_time s); (split; [auto; right; lia|]); intros [X|X]; [discriminate|lia|discriminate|lia].
Qed.

Lemma forget_lemma now pn el mark s toks s' toks' out :
  tstep (s, toks) (OPacket now pn el mark) = Some (s', toks', out) -> t_min s' <> t_min s ->
  exists l, rp_add pn (t_ranges s) = Some l /\ length l = S (length (t_ranges s')) /\ (32 < length l)%nat /\
    forall r, last l (pr_new 0) = r -> t_min s' = pr_largest r + 1.
Proof.
  cbn [tstep]. destruct (is_duplicate pn s); [intros H; injection H as <- _ _; congruence|]. unfold set_received.
  destruct (rp_add pn (t_ranges s)) as [l|]; [|discriminate]. unfold trim_ranges, MAX_TRACKED_RANGES.
  destruct (Nat.ltb_spec 32 (length l)).
  2: { intros H'. destruct el; injection H' as <- _ _; unfold count_ecn; cbn [t_ecn]; destruct (t_ecn s) as [[? ?] ?]; cbn [t_min]; congruence. }
  intros H' _. exists l. split; [reflexivity|].
  assert (E : t_ranges s' = removelast l /\ t_min s' = pr_largest (last l (pr_new 0)) + 1).
  { destruct el; injection H' as <- _ _; unfold count_ecn; cbn [t_ecn]; destruct (t_ecn s) as [[? ?] ?]; cbn [t_min t_ranges]; auto. }
  destruct E as [-> ->]. splits; [|assumption|intros r <-; reflexivity].
  rewrite (app_removelast_last (pr_new 0)) at 1 by (destruct l; [cbn in *; lia|discriminate]).
  rewrite app_length. cbn [length]. lia.
Qed.

Lemma due_served_lemma app ops s toks outs now rtt rem pn : Forall op_ok ops -> lenN ops < 2 ^ 62 ->
  trun app ops = Some (s, toks, outs) -> ack_now now rtt s = true -> 50 <= rem -> advertised s pn ->
  exists s' toks' l rs, tstep (s, toks) (OWrite now rtt rem) = Some (s', toks', Wrote l rs) /\ t_ack_time s' = None.
Proof.
  intros H1 H2 H H3 H4 H5. destruct (due_written_lemma _ _ _ _ _ _ _ _ _ H1 H2 H H3 H4 H5) as (s' & t & l & rs & A & B & _). eauto 10.
Qed.

Definition gap_packets : list top := map (fun i => OPacket 1 (100 + 2 * N.of_nat i) true 0) (seq 0 32).
Definition stuck_ops : list top := gap_packets ++ [OWrite 2 10 1000; OAcked 0; OPacket 3 50 true 0].

Lemma due_refuted_lemma : exists ops s toks outs,
  Forall op_ok ops /\ trun true ops = Some (s, toks, outs) /\ ack_now 1000 10 s = true /\
  forall now rem, 1000 <= now -> tstep (s, toks) (OWrite now 10 rem) = Some (s, toks, Nothing).
Proof.
  exists stuck_ops. destruct (trun true stuck_ops) as [[[s toks] outs]|] eqn:E; [|vm_compute in E; discriminate].
  exists s, toks, outs. split; [|split; [reflexivity|]].
  - unfold stuck_ops. apply Forall_app. split; [|repeat constructor]. apply Forall_map, Forall_forall. intros i Hi.
    apply in_seq in Hi. cbn [op_ok]. lia.
  - assert (Ef : filter pr_needed (t_ranges s) = []) by (vm_compute in E; injection E as <- _ _; reflexivity).
    split; [vm_compute in E; injection E as <- _ _; reflexivity|].
    intros now rem _. cbn [tstep]. unfold write_ack. destruct (negb (ack_now now 10 s)); [reflexivity|].
    destruct (rem <? USEFUL_ACK_LEN); [reflexivity|]. rewrite Ef, firstn_nil. reflexivity.
Qed.

(** Exact ECN counts, ACK_FREQUENCY in force. *)
Lemma tstep_ecn s toks o s' toks' out : tstep (s, toks) o = Some (s', toks', out) ->
  t_ecn s' = (fst (fst (t_ecn s)) + marked 1 [o] [out], snd (fst (t_ecn s)) + marked 2 [o] [out], snd (t_ecn s) + marked 3 [o] [out]).
Proof.
  intros H.
  assert (Same : t_ecn s' = t_ecn s -> (forall m, marked m [o] [out] = 0) ->
     t_ecn s' = (fst (fst (t_ecn s)) + marked 1 [o] [out], snd (fst (t_ecn s)) + marked 2 [o] [out], snd (t_ecn s) + marked 3 [o] [out])).
  { intros E Z. rewrite !Z, E, !N.add_0_r. destruct (t_ecn s) as [[? ?] ?]. reflexivity. }
  destruct o; cbn [tstep] in H.
  - destruct (is_duplicate pn s); [injection H as <- <- <-; apply Same; reflexivity|].
    destruct (set_received now pn eliciting s) as [s1|] eqn:E; [|discriminate]. injection H as <- <- <-.
    assert (E1 : t_ecn s1 = t_ecn s).
    { unfold set_received in E. destruct (rp_add pn (t_ranges s)); [|discriminate]. destruct (trim_ranges l (t_min s)) as [l' m']. destruct eliciting; injection E as <-; reflexivity. }
    unfold count_ecn. rewrite E1. destruct (t_ecn s) as [[e0 e1] ce]. cbn [marked fst snd t_ecn].
    destruct (N.eqb_spec mark 1) as [->|]; [cbn; rewrite !N.add_0_r; reflexivity|].
    destruct (N.eqb_spec mark 2) as [->|]; [cbn; rewrite !N.add_0_r; reflexivity|].
    destruct (N.eqb_spec mark 3) as [->|]; [cbn; rewrite !N.add_0_r; reflexivity|].
    cbn [t_ecn]. rewrite !N.add_0_r. reflexivity.
  - unfold write_ack in H. destruct (negb (ack_now now rtt s)); [injection H as <- <- <-; apply Same; reflexivity|].
    destruct (remaining <? USEFUL_ACK_LEN); [injection H as <- <- <-; apply Same; reflexivity|].
    destruct (map pr_pair _); [injection H as <- <- <-; apply Same; reflexivity|]. destruct (t_largest_time s); [|injection H as <- <- <-; apply Same; reflexivity].
    destruct (ack_frame_bytes _ _ _ _); [|discriminate]. injection H as <- <- <-. apply Same; reflexivity.
  - destruct (nth_error toks i); [|injection H as <- <- <-; apply Same; reflexivity]. destruct (rp_acknowledged l (t_ranges s)); [|discriminate]. injection H as <- <- <-. apply Same; reflexivity.
  - injection H as <- <- <-. apply Same; reflexivity.
  - injection H as <- <- <-. apply Same; [|reflexivity]. unfold ack_freq. destruct (_ <=? _); reflexivity.
Qed.
Lemma truns_ecn ops : forall s toks s' toks' outs, truns (s, toks) ops = Some (s', toks', outs) ->
  t_ecn s' = (fst (fst (t_ecn s)) + marked 1 ops outs, snd (fst (t_ecn s)) + marked 2 ops outs, snd (t_ecn s) + marked 3 ops outs).
Proof.
  induction ops as [|o ops IH]; intros s toks s' toks' outs H; cbn [truns] in H.
  - injection H as <- <- <-. cbn [marked]. rewrite !N.add_0_r. destruct (t_ecn s) as [[? ?] ?]. reflexivity.
  - destruct (tstep (s, toks) o) as [[[s1 toks1] out]|] eqn:E; [|discriminate].
    destruct (truns (s1, toks1) ops) as [[[s2 toks2] outs2]|] eqn:E2; [|discriminate]. injection H as <- <- <-.
    rewrite (IH _ _ _ _ _ E2). rewrite (tstep_ecn _ _ _ _ _ _ E). cbn [fst snd].
    assert (M : forall m, marked m (o :: ops) (out :: outs2) = marked m [o] [out] + marked m ops outs2).
    { intros m. destruct o; cbn [marked]; try reflexivity. destruct out; try reflexivity. rewrite N.add_0_r. reflexivity. }
    rewrite !M, !N.add_assoc. reflexivity.
Qed.
Lemma ecn_lemma app ops s toks outs now rtt rem s' toks' l rs : Forall op_ok ops -> lenN ops < 2 ^ 62 ->
  trun app ops = Some (s, toks, outs) -> tstep (s, toks) (OWrite now rtt rem) = Some (s', toks', Wrote l rs) ->
  forall after, exists la delay first gaps,
    frame_decode (l ++ after) = FOk (FAck la delay first gaps
      (if marked 1 ops outs + marked 2 ops outs + marked 3 ops outs =? 0 then None
       else Some (marked 1 ops outs, marked 2 ops outs, marked 3 ops outs))) after.
Proof.
  intros H1 H2 H W. pose proof (truns_ecn _ _ _ _ _ _ H) as Ee. cbn [tracker_new t_ecn fst snd] in Ee. rewrite !N.add_0_l in Ee.
  get_inv H1 H2 H. cbn [tstep] in W.
  destruct (write_ack_spec now rtt rem s _ _ _ _ I H2) as (s2 & r & E & _ & _ & _ & _ & R & _). rewrite E in W.
  destruct r as [[l2 rs2]|]; [|discriminate]. injection W as <- <- <- <-.
  destruct R as (_ & _ & _ & R1 & _ & _ & _ & R2 & R3).
  intros after. destruct (R3 after) as (la & d & f & g & A & B). rewrite Ee in A. exists la, d, f, g. rewrite A. do 2 f_equal.
  unfold ecn_is_some. destruct (_ + _ + _ =? 0) eqn:Z.
  - replace (0 <? marked 1 ops outs) with false by lia. replace (0 <? marked 2 ops outs) with false by lia. replace (0 <? marked 3 ops outs) with false by lia. reflexivity.
  - destruct (0 <? marked 1 ops outs) eqn:Z1, (0 <? marked 2 ops outs) eqn:Z2, (0 <? marked 3 ops outs) eqn:Z3; try reflexivity. lia.
Qed.
Lemma freq_lemma app ops : forall s toks outs, trun app ops = Some (s, toks, outs) ->
  freq_in_force app ops (t_tolerance s) (t_delay s) (t_ignore_order s).
Proof.
  enough (X : forall s toks outs, trun app ops = Some (s, toks, outs) ->
     ((forall sn tol d io, ~ In (OFreq sn tol d io) ops) /\ t_tolerance s = (if app then 1 else 0) /\ t_delay s = 20000000 /\ t_ignore_order s = false /\ t_freq_seqno s = 0) \/
     exists before after, ops = before ++ OFreq (t_freq_seqno s) (t_tolerance s) (t_delay s) (t_ignore_order s) :: after /\
    (forall sn' tol d io, In (OFreq sn' tol d io) before -> sn' <= t_freq_seqno s) /\
    (forall sn' tol d io, In (OFreq sn' tol d io) after -> sn' < t_freq_seqno s)).
  { intros s toks outs H. destruct (X _ _ _ H) as [(A & B & C & D & _)|(be & af & E & B & A)]; [left; auto|right]. exists be, (t_freq_seqno s), af. auto. }
  induction ops as [|o ops' IH] using rev_ind; intros s toks outs H.
  - injection H as <- <- <-. left. splits; auto.
  - unfold trun in H. rewrite truns_app in H. destruct (truns (tracker_new app, []) ops') as [[[s1 toks1] outs1]|] eqn:E1; [|discriminate].
    cbn [truns] in H. destruct (tstep (s1, toks1) o) as [[[s2 toks2] out]|] eqn:E2; [|discriminate]. injection H as <- <- <-.
    specialize (IH _ _ _ E1).
    assert (Same : (forall sn tol d io, o <> OFreq sn tol d io) \/ (exists sn tol d io, o = OFreq sn tol d io /\ sn < t_freq_seqno s1) ->
       t_freq_seqno s2 = t_freq_seqno s1 /\ t_tolerance s2 = t_tolerance s1 /\ t_delay s2 = t_delay s1 /\ t_ignore_order s2 = t_ignore_order s1 ->
       ((forall sn tol d io, ~ In (OFreq sn tol d io) (ops' ++ [o])) /\ t_tolerance s2 = (if app then 1 else 0) /\ t_delay s2 = 20000000 /\ t_ignore_order s2 = false /\ t_freq_seqno s2 = 0) \/
     exists before after, ops' ++ [o] = before ++ OFreq (t_freq_seqno s2) (t_tolerance s2) (t_delay s2) (t_ignore_order s2) :: after /\
    (forall sn' tol d io, In (OFreq sn' tol d io) before -> sn' <= t_freq_seqno s2) /\
    (forall sn' tol d io, In (OFreq sn' tol d io) after -> sn' < t_freq_seqno s2)).
    { intros Ho (A & B & C & D). rewrite A, B, C, D. destruct IH as [(I1 & I2 & I3 & I4 & I5)|(be & af & Eo & I1 & I2)].
      - destruct Ho as [Ho|(sn & tol & d & io & -> & Hs)]; [|lia]. left. splits; auto. intros sn tol d io X. apply in_app_iff in X. destruct X as [X|[X|[]]]; [exact (I1 _ _ _ _ X)|exact (Ho _ _ _ _ X)].
      - right. exists be, (af ++ [o]). splits; [rewrite Eo at 1; rewrite <- app_assoc; reflexivity|exact I1|].
        intros sn tol d io X. apply in_app_iff in X. destruct X as [X|[X|[]]]; [exact (I2 _ _ _ _ X)|]. destruct Ho as [Ho|(sn' & tol' & d' & io' & Eo' & Hs)]; [exfalso; exact (Ho _ _ _ _ X)|].
        rewrite Eo' in X. injection X as -> -> -> ->. exact Hs. }
    destruct o; cbn [tstep] in E2.
    + apply Same; [left; discriminate|]. destruct (is_duplicate pn s1); [injection E2 as <- <- <-; auto|].
      destruct (set_received now pn eliciting s1) as [s3|] eqn:E; [|discriminate]. injection E2 as <- <- <-.
      unfold set_received in E. destruct (rp_add pn (t_ranges s1)); [|discriminate]. destruct (trim_ranges l (t_min s1)) as [l' m'].
      destruct eliciting; injection E as <-; unfold count_ecn; cbn [t_ecn]; destruct (t_ecn s1) as [[? ?] ?]; cbn; auto.
    + apply Same; [left; discriminate|]. unfold write_ack in E2. destruct (negb (ack_now now rtt s1)); [injection E2 as <- <- <-; auto|].
      destruct (remaining <? USEFUL_ACK_LEN); [injection E2 as <- <- <-; auto|].
      destruct (map pr_pair _); [injection E2 as <- <- <-; auto|]. destruct (t_largest_time s1); [|injection E2 as <- <- <-; auto].
      destruct (ack_frame_bytes _ _ _ _); [|discriminate]. injection E2 as <- <- <-. cbn; auto.
    + apply Same; [left; discriminate|]. destruct (nth_error toks1 i); [|injection E2 as <- <- <-; auto]. destruct (rp_acknowledged l (t_ranges s1)); [|discriminate]. injection E2 as <- <- <-. cbn; auto.
    + apply Same; [left; discriminate|]. injection E2 as <- <- <-. cbn; auto.
    + unfold ack_freq in E2. destruct (t_freq_seqno s1 <=? seqno) eqn:El; injection E2 as <- <- <-.
      * right. exists ops', []. cbn [t_freq_seqno t_tolerance t_delay t_ignore_order]. splits; [reflexivity| |intros ? ? ? ? []].
        intros sn tol d io X. destruct IH as [(I1 & _)|(be & af & Eo & I1 & I2)]; [destruct (I1 _ _ _ _ X)|].
        rewrite Eo in X. apply in_app_iff in X. destruct X as [X|[X|X]]; [specialize (I1 _ _ _ _ X); lia|assert (sn = t_freq_seqno s1) by congruence; lia|specialize (I2 _ _ _ _ X); lia].
      * apply Same; auto. right. exists seqno, tolerance, delay, ignore_order. split; [reflexivity|lia].
Qed.
Lemma by_time_lemma app ops s toks outs now rtt rem pn t : Forall op_ok ops -> lenN ops < 2 ^ 62 ->
  trun app ops = Some (s, toks, outs) -> t_ack_time s = Some t -> t <= now -> 50 <= rem -> advertised s pn ->
  exists s' toks' l rs, tstep (s, toks) (OWrite now rtt rem) = Some (s', toks', Wrote l rs) /\ t_ack_time s' = None.
Proof.
  intros H1 H2 H Ht Hn Hr Ha. destruct (due_written_lemma app ops s toks outs now rtt rem pn H1 H2 H) as (s' & toks' & l & rs & A & B & _); auto.
  - unfold ack_now. rewrite Ht. replace (t <=? now) with true by lia. reflexivity.
  - exists s', toks', l, rs. auto.
Qed.
Lemma not_before_lemma st now rtt rem s' toks' l rs : tstep st (OWrite now rtt rem) = Some (s', toks', Wrote l rs) ->
  exists t, t_ack_time (fst st) = Some t /\ (t <= now \/ exists last, t_last_ack (fst st) = Some last /\ last + rtt <= now).
Proof.
  destruct st as [s toks]. cbn [tstep fst]. unfold write_ack. destruct (ack_now now rtt s) eqn:E; cbn [negb]; [|discriminate]. intros _.
  unfold ack_now in E. destruct (t_ack_time s) as [t|]; [|discriminate]. exists t. split; [reflexivity|].
  apply orb_prop in E. destruct E as [E|E]; [left; lia|right]. destruct (t_last_ack s) as [la|]; [|discriminate]. exists la. split; [reflexivity|lia].
Qed.
