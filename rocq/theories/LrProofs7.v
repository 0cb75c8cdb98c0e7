(** Loss recovery: what comes back is what was sent, statistics, and what the path is told. *)
From Verif Require Import Base Lib FcModel LrModel LrSpec LrProofs LrProofs2 LrProofs3 LrProofs4 LrProofs5 LrProofs6.

(** ** Identity of packets *)
Definition idsub (a b : list pkt) : Prop := forall p, In p a -> In (ident p) (map ident b).
Lemma idsub_refl a : idsub a a.
Proof. intros p H. apply in_map. exact H. Qed.
Lemma idsub_trans a b c : idsub a b -> idsub b c -> idsub a c.
Proof. intros H K p Hp. specialize (H p Hp). apply in_map_iff in H. destruct H as (q & E & Hq). rewrite <- E. apply K. exact Hq. Qed.
Lemma idsub_incl a b : incl a b -> idsub a b.
Proof. intros H p Hp. apply in_map. apply H. exact Hp. Qed.
Lemma idsub_map f a : (forall p, ident (f p) = ident p) -> idsub (map f a) a.
Proof. intros H p Hp. apply in_map_iff in Hp. destruct Hp as (q & <- & Hq). rewrite H. apply in_map. exact Hq. Qed.
Lemma idsub_app a b c : idsub a c -> idsub b c -> idsub (a ++ b) c.
Proof. intros H K p Hp. apply in_app_iff in Hp. destruct Hp; auto. Qed.
Lemma idsub_cons x a b : In (ident x) (map ident b) -> idsub a b -> idsub (x :: a) b.
Proof. intros H K p [<-|Hp]; auto. Qed.
Lemma idsub_nil b : idsub [] b.
Proof. intros p []. Qed.

Lemma take_ranges_id rs : forall prev l l' t, take_ranges_from prev rs l = Some (l', t) -> incl l' l /\ incl t l.
Proof.
  induction rs as [|[lo hi] rs IH]; intros prev l l' t H; cbn [take_ranges_from] in H.
  - apply some_inj in H. apply pair_equal_spec in H. destruct H as [<- <-]. split; [apply incl_refl|intros x []].
  - destruct (match prev with Some s => hi <? s | None => true end); [|discriminate].
    set (j := part_point (fun p => p_pn p <=? hi) l) in H. set (i := part_point (fun p => p_pn p <? lo) l) in H.
    destruct (Nat.ltb j i); [discriminate|]. destruct (Nat.eqb i j); [eapply IH; eassumption|].
    destruct (take_ranges_from (Some lo) rs (firstn i l ++ skipn j l)) as [[l1 m]|] eqn:E; [|discriminate]. apply some_inj in H. apply pair_equal_spec in H. destruct H as [<- <-].
    destruct (IH _ _ _ _ E) as [A B].
    assert (C : incl (firstn i l ++ skipn j l) l). { intros x Hx. apply in_app_iff in Hx. destruct Hx as [Hx|Hx]; [rewrite <- (firstn_skipn i l)|rewrite <- (firstn_skipn j l)]; apply in_app_iff; auto. }
    split; [eapply incl_tran; eassumption|]. apply incl_app; [|eapply incl_tran; eassumption].
    intros x Hx. apply in_rev in Hx. rewrite <- (firstn_skipn j l). apply in_app_iff. left. rewrite <- (firstn_skipn i (firstn j l)). apply in_app_iff. auto.
Qed.
Lemma detect_loop_id now ld la : forall l, let '(r, lost, _) := detect_loop now ld la l in idsub r l /\ idsub lost l.
Proof.
  assert (W : forall x a b, idsub a b -> idsub a (x :: b)) by (intros x a b H p Hp; right; apply H; exact Hp).
  induction l as [|p l IH]; cbn [detect_loop]; [split; apply idsub_nil|].
  destruct (p_pn p <? la); [|split; [apply idsub_refl|apply idsub_nil]].
  destruct (if p_time p + ld <=? now then _ else _) as [t|]; [|split; [apply idsub_refl|apply idsub_nil]].
  assert (D : ident (fst (declare_lost now t p)) = ident p) by (unfold declare_lost; destruct (is_lost p); reflexivity).
  destruct (declare_lost now t p) as [p' first]. cbn [fst] in D. destruct (detect_loop now ld la l) as [[r lost] ooo]. destruct IH as [A B].
  assert (C : In (ident p') (map ident (p :: l))) by (rewrite D; left; reflexivity).
  split; [apply idsub_cons; auto|]. destruct first; [apply idsub_cons|]; auto.
Qed.
Lemma detect_lost_id now ld cd s s' lost gone : detect_lost now ld cd s = Some (s', lost, gone) -> idsub (l_pkts s') (l_pkts s) /\ idsub lost (l_pkts s) /\ idsub gone (l_pkts s).
Proof.
  unfold detect_lost, remove_old_lost, remove_expired. intros H.
  assert (R : forall l g, match l_pkts s with [] => Some (l_pkts s, []) | p :: _ => if expired now cd p then if forallb (fun p => negb (expired now cd p)) (skipn (part_point (expired now cd) (l_pkts s)) (l_pkts s)) then Some (skipn (part_point (expired now cd) (l_pkts s)) (l_pkts s), firstn (part_point (expired now cd) (l_pkts s)) (l_pkts s)) else None else Some (l_pkts s, []) end = Some (l, g) -> incl l (l_pkts s) /\ incl g (l_pkts s)).
  { intros l g E. remember (l_pkts s) as x. assert (Y : (l = x /\ g = []) \/ (exists k, l = skipn k x /\ g = firstn k x)).
    { destruct x as [|p x]; [inv E; auto|]. destruct (expired now cd p); [|inv E; auto]. destruct (forallb _ _); [|discriminate].
      apply some_inj in E. apply pair_equal_spec in E. destruct E as [<- <-]. right. eauto. }
    destruct Y as [[-> ->]|(k & -> & ->)]; [split; [apply incl_refl|intros ? []]|]. split; intros y Hy; rewrite <- (firstn_skipn k x); apply in_app_iff; auto. }
  destruct (match l_pkts s with [] => Some (l_pkts s, []) | _ => _ end) as [[l g]|]; [|discriminate]. destruct (R l g eq_refl) as [R1 R2]. clear R.
  destruct (csub (l_out s) (count_ae g)) as [out|]; [|discriminate]. cbn [l_largest with_pkts l_pkts] in H.
  destruct (l_largest s) as [la|].
  - pose proof (detect_loop_id now ld la l) as D. destruct (detect_loop now ld la l) as [[x y] z]. destruct D as [D1 D2]. apply some_inj in H. apply pair_equal_spec in H. destruct H as [H <-]. apply pair_equal_spec in H. destruct H as [<- <-]. cbn.
    splits; [eapply idsub_trans; [exact D1|apply idsub_incl; exact R1]|eapply idsub_trans; [exact D2|apply idsub_incl; exact R1]|apply idsub_incl; exact R2].
  - apply some_inj in H. apply pair_equal_spec in H. destruct H as [H <-]. apply pair_equal_spec in H. destruct H as [<- <-]. cbn. splits; [apply idsub_incl; exact R1|apply idsub_nil|apply idsub_incl; exact R2].
Qed.
Lemma pto_loop_id limit : forall l size, let '(r, t, _) := pto_loop limit size l in idsub r l /\ idsub t l.
Proof.
  assert (W : forall x a b, idsub a b -> idsub a (x :: b)) by (intros x a b H p Hp; right; apply H; exact Hp).
  induction l as [|p l IH]; intros size; cbn [pto_loop]; [split; apply idsub_nil|].
  rewrite take_pto_eq. destruct (probe_candidate p).
  - assert (C : In (ident (set_flag p)) (map ident (p :: l))) by (left; reflexivity).
    destruct (size + p_len p <=? limit).
    + specialize (IH (size + p_len p)). destruct (pto_loop limit (size + p_len p) l) as [[r t] n]. destruct IH. split; apply idsub_cons; auto.
    + split; [apply idsub_cons; [exact C|apply W, idsub_refl]|apply idsub_nil].
  - specialize (IH size). destruct (pto_loop limit size l) as [[r t] n]. destruct IH. split; [apply idsub_cons; [left; reflexivity|]|]; auto.
Qed.

Definition opk (o : option lsp) : list pkt := match o with Some s => l_pkts s | None => [] end.
Definition all_tracked (r : lr) : list pkt := opk (r_i r) ++ opk (r_h r) ++ opk (r_a r).
Lemma all_in sp r p : In p (tracked sp r) -> In p (all_tracked r).
Proof. unfold all_tracked, tracked. destruct sp; cbn [get_sp]; unfold opk; rewrite !in_app_iff; auto. Qed.
Lemma in_all r p : In p (all_tracked r) -> exists sp, In p (tracked sp r).
Proof. unfold all_tracked. rewrite !in_app_iff. intros [H|[H|H]]; [exists SpInitial|exists SpHandshake|exists SpApp]; exact H. Qed.
Lemma idsub_all_of r' b : (forall sp, idsub (tracked sp r') b) -> idsub (all_tracked r') b.
Proof. intros H p Hp. apply in_all in Hp. destruct Hp as (sp & Hp). eapply H; eauto. Qed.
Lemma idsub_sp sp r s x : get_sp sp r = Some s -> idsub x (l_pkts s) -> idsub x (all_tracked r).
Proof. intros E H. eapply idsub_trans; [exact H|]. intros p Hp. apply in_map. eapply (all_in sp). unfold tracked. rewrite E. exact Hp. Qed.
Lemma all_set sp s' r s b : get_sp sp r = Some s -> idsub (l_pkts s') b -> idsub (all_tracked r) b -> idsub (all_tracked (set_sp sp (Some s') r)) b.
Proof.
  intros E H K. apply idsub_all_of. intros sp'. rewrite tracked_set. destruct (space_eqb sp' sp); [exact H|]. intros p Hp. apply K. eapply all_in; eauto.
Qed.
Lemma all_ext r r' : r_i r' = r_i r -> r_h r' = r_h r -> r_a r' = r_a r -> all_tracked r' = all_tracked r.
Proof. unfold all_tracked. intros -> -> ->. reflexivity. Qed.
Lemma timeout_space_id now ld cd sp r o r' o' b : timeout_space now ld cd sp (r, o) = Some (r', o') -> idsub (all_tracked r) b -> idsub (o_lost o) b -> idsub (o_gone o) b ->
  idsub (all_tracked r') b /\ idsub (o_lost o') b /\ idsub (o_gone o') b /\ o_acked o' = [] \/ (r' = r /\ o' = o).
Proof.
  unfold timeout_space. destruct (get_sp sp r) as [s|] eqn:E; [|intros H; inv H; auto]. destruct (detect_lost now ld cd s) as [[[s' lost] gone]|] eqn:D; [|discriminate].
  intros H A B C. apply some_inj in H. apply pair_equal_spec in H. destruct H as [<- <-]. cbn [o_lost o_gone o_acked]. destruct (detect_lost_id _ _ _ _ _ _ _ D) as (D1 & D2 & D3).
  assert (X : forall y, idsub y (l_pkts s) -> idsub y b) by (intros y Hy; eapply idsub_trans; [eapply idsub_sp; eauto|exact A]).
  left. splits; [eapply all_set; eauto|apply idsub_app; auto|apply idsub_app; auto|reflexivity].
Qed.
Lemma pto_space_id limit size sp r r' t n b : pto_space_packets limit size sp r = (r', t, n) -> idsub (all_tracked r) b -> idsub (all_tracked r') b /\ idsub t b.
Proof.
  unfold pto_space_packets. destruct (get_sp sp r) as [s|] eqn:E; [|intros H A; inv H; split; [exact A|apply idsub_nil]].
  pose proof (pto_loop_id limit (l_pkts s) size) as P. destruct (pto_loop limit size (l_pkts s)) as [[l x] m]. destruct P as [P1 P2]. intros H A.
  apply pair_equal_spec in H. destruct H as [H _]. apply pair_equal_spec in H. destruct H as [<- <-].
  assert (X : forall y, idsub y (l_pkts s) -> idsub y b) by (intros y Hy; eapply idsub_trans; [eapply idsub_sp; eauto|exact A]).
  split; [eapply all_set; eauto; apply X; exact P1|auto].
Qed.
Lemma pto_collect_id limit retr r r' l b : pto_collect limit retr r = (r', l) -> idsub (all_tracked r) b -> idsub (all_tracked r') b /\ idsub l b.
Proof.
  intros H A. unfold pto_collect in H.
  assert (G : forall sp (x : lr * list pkt * N), idsub (all_tracked (fst (fst x))) b /\ idsub (snd (fst x)) b ->
     let y := (let '(r, l, n) := x in if sp_in sp retr then let '(r', t, n') := pto_space_packets limit n sp r in (r', l ++ t, n') else x) in
     idsub (all_tracked (fst (fst y))) b /\ idsub (snd (fst y)) b).
  { intros sp [[r0 l0] n0] [P Q]. cbn [fst snd] in *. destruct (sp_in sp retr); [|auto]. destruct (pto_space_packets limit n0 sp r0) as [[r1 t] n1] eqn:E.
    destruct (pto_space_id _ _ _ _ _ _ _ b E P). cbn. split; [assumption|apply idsub_app; assumption]. }
  pose proof (G SpApp _ (G SpHandshake _ (G SpInitial (r, [], 0) (conj A (idsub_nil b))))) as X. cbn zeta in X. rewrite H in X. exact X.
Qed.
Lemma ignore_id o : let '(o', d) := ignore_sp o in opk o' = [] /\ d = opk o.
Proof. destruct o; cbn; auto. Qed.

Lemma step_id r o r' out : lr_step r o = Some (r', out) ->
  let b := all_tracked r ++ ev_sent (o_cc out) in
  idsub (all_tracked r') b /\ idsub (o_acked out) b /\ idsub (o_lost out) b /\ idsub (o_dropped out) b.
Proof.
  intros H. cbn zeta.
  assert (AB : forall c, idsub (all_tracked r) (all_tracked r ++ c)) by (intros c; apply idsub_incl, incl_appl, incl_refl).
  destruct o as [prim t pn time ae tokens len probe|sp rs delay now ld base|now ld base mtu keys| | | |sp base now|mtu avail paced rec]; cbn [lr_step] in H.
  - unfold lr_sent in H. set (p0 := pkt_new t pn time ae tokens len probe) in *. set (r1 := match r_pto r with Some _ => _ | None => r end) in H.
    assert (E1 : all_tracked r1 = all_tracked r) by (unfold r1; destruct (r_pto r); reflexivity).
    destruct (get_sp (space_of (p_type p0)) r1) as [s|] eqn:E.
    + unfold lsp_sent in H. destruct (track _ (l_pkts s)) as [l|] eqn:ET; [|discriminate]. apply some_inj in H. apply pair_equal_spec in H. destruct H as [<- <-]. cbn [o_acked o_lost o_dropped o_cc ev_sent flat_map app].
      set (p := if prim then p0 else clear_primary p0) in *.
      assert (EL : l = l_pkts s ++ [p]). { unfold track in ET. destruct (last _ None) as [x|]; [destruct (x <? p_pn p); [|discriminate]|]; apply some_inj in ET; auto. }
      splits; try apply idsub_nil. eapply all_set; [exact E| |rewrite E1; apply AB]. cbn [l_pkts]. rewrite EL. apply idsub_app.
      * eapply idsub_trans; [eapply idsub_sp; [exact E|apply idsub_refl]|]. rewrite E1. apply AB.
      * apply idsub_incl, incl_appr, incl_refl.
    + apply some_inj in H. apply pair_equal_spec in H. destruct H as [<- <-]. rewrite E1. cbn. splits; try apply idsub_nil. apply AB.
  - unfold lr_ack in H. destruct (get_sp sp r) as [s|] eqn:E; [|inv H; cbn; splits; try apply idsub_nil; apply AB].
    unfold remove_acked in H. destruct (take_ranges rs (l_pkts s)) as [[l acked]|] eqn:ET; [|discriminate]. destruct (take_ranges_id _ _ _ _ _ ET) as [T1 T2].
    destruct (count_acked acked (l_out s) (r_stats r)) as [[[out' st] any]|]; [|discriminate].
    assert (X : forall y c, idsub y (l_pkts s) -> idsub y (all_tracked r ++ c)) by (intros y c Hy; eapply idsub_trans; [eapply idsub_sp; eauto|apply AB]).
    set (r1 := set_stats st (set_sp sp (Some (with_pkts l out' s)) r)) in H.
    assert (R1 : forall c, idsub (all_tracked r1) (all_tracked r ++ c)).
    { intros c. replace (all_tracked r1) with (all_tracked (set_sp sp (Some (with_pkts l out' s)) r)) by (destruct sp; reflexivity). eapply all_set; [exact E|apply X, idsub_incl, T1|apply AB]. }
    destruct acked as [|big acked]; [inv H; cbn; splits; try apply idsub_nil; apply R1|].
    match type of H with match detect_lost ?a ?b ?c ?d with _ => _ end = _ => destruct (detect_lost a b c d) as [[[s3 lost] gone]|] eqn:D end; [|discriminate].
    destruct (detect_lost_id _ _ _ _ _ _ _ D) as (D1 & D2 & _).
    apply some_inj in H. apply pair_equal_spec in H. destruct H as [<- <-]. cbn [o_acked o_lost o_dropped o_cc].
    match type of D1 with idsub _ ?x => assert (D0 : x = l) by (destruct (opt_lt _ _); reflexivity) end. rewrite D0 in D1, D2.
    assert (L : forall y, idsub y l -> idsub y (l_pkts s)) by (intros y Hy; eapply idsub_trans; [exact Hy|apply idsub_incl; exact T1]).
    splits; [|apply X, idsub_incl; exact T2|apply X, L, D2|apply idsub_nil].
    match goal with |- idsub (all_tracked ?x) _ => replace (all_tracked x) with (all_tracked (set_sp sp (Some s3) r1)) by (destruct sp; reflexivity) end.
    assert (G1 : get_sp sp r1 = Some (with_pkts l out' s)) by (destruct sp; reflexivity).
    eapply all_set; [exact G1|apply X, L, D1|apply R1].
  - unfold lr_timeout in H. set (cd := pto_period base r) in H. set (b := all_tracked r).
    destruct (timeout_space now ld cd SpInitial (r, no_out)) as [[ra oa]|] eqn:E1; [|discriminate]. cbn [obind] in H.
    destruct (timeout_space now ld cd SpHandshake (ra, oa)) as [[rb ob]|] eqn:E2; [|discriminate]. cbn [obind] in H.
    destruct (timeout_space now ld cd SpApp (rb, ob)) as [[rc oc]|] eqn:E3; [|discriminate]. cbn [obind] in H.
    assert (S1 : idsub (all_tracked ra) b /\ idsub (o_lost oa) b /\ idsub (o_gone oa) b).
    { destruct (timeout_space_id _ _ _ _ _ _ _ _ b E1 (idsub_refl _) (idsub_nil b) (idsub_nil b)) as [(A & B & C & _)|(-> & ->)]; splits; auto; cbn; try apply idsub_refl; apply idsub_nil. }
    destruct S1 as (A1 & A2 & A3).
    assert (S2 : idsub (all_tracked rb) b /\ idsub (o_lost ob) b /\ idsub (o_gone ob) b).
    { destruct (timeout_space_id _ _ _ _ _ _ _ _ b E2 A1 A2 A3) as [(A & B & C & _)|(-> & ->)]; splits; auto. }
    destruct S2 as (B1 & B2 & B3).
    assert (S3 : idsub (all_tracked rc) b /\ idsub (o_lost oc) b /\ idsub (o_gone oc) b).
    { destruct (timeout_space_id _ _ _ _ _ _ _ _ b E3 B1 B2 B3) as [(A & B & C & _)|(-> & ->)]; splits; auto. }
    destruct S3 as (C1 & C2 & C3).
    set (r2 := set_stats _ rc) in H. assert (R2 : idsub (all_tracked r2) b) by exact C1.
    destruct (maybe_fire_pto base now mtu keys r2) as [[r3 l]|] eqn:EF; [|discriminate]. cbn [obind] in H. apply some_inj in H. apply pair_equal_spec in H. destruct H as [<- <-]. cbn [o_acked o_lost o_dropped o_cc].
    assert (F : idsub (all_tracked r3) b /\ idsub l b).
    { unfold maybe_fire_pto in EF. destruct (fire_set base now r2) as [[[[sp|] allow] retr]|]; [| |discriminate].
      - destruct (pto_collect _ retr r2) as [r4 l4] eqn:EC. destruct (pto_collect_id _ _ _ _ _ b EC R2) as [P Q].
        unfold fire_pto in EF. destruct (sp_in sp allow); [|discriminate]. apply some_inj in EF. apply pair_equal_spec in EF. destruct EF as [<- <-]. split; [|exact Q].
        set (r5 := set_pto _ r4). assert (R5 : idsub (all_tracked r5) b) by exact P.
        destruct sp; try exact R5. unfold maybe_prime. destruct keys; [|exact R5]. destruct (r_pto r5); [|exact R5]. destruct (space_eqb _ _); [|exact R5]. destruct (r_i r5) as [i|] eqn:Ei; [|exact R5]. destruct (l_largest i); [|exact R5].
        destruct (r_h r5) as [hh|] eqn:Eh; [|exact R5]. destruct (l_last_ae hh); [exact R5|]. destruct (l_largest hh); [exact R5|].
        eapply (all_set SpHandshake); [exact Eh| |exact R5]. cbn. intros q Hq. apply R5. eapply (all_in SpHandshake). unfold tracked. cbn [get_sp]. rewrite Eh. exact Hq.
      - inv EF. split; [exact R2|apply idsub_nil]. }
    destruct F as [F1 F2].
    assert (Y : forall x c, idsub x b -> idsub x (b ++ c)) by (intros x c Hx; eapply idsub_trans; [exact Hx|apply AB]).
    splits; try apply idsub_nil; apply Y; auto. apply idsub_app; auto.
  - unfold lr_drop_0rtt in H. destruct (r_a r) as [s|] eqn:E; [|inv H; cbn; splits; try apply idsub_nil; apply AB]. destruct (l_largest s); [inv H; cbn; splits; try apply idsub_nil; apply AB|].
    cbn in H. inv H. cbn [o_acked o_lost o_dropped o_cc]. splits; try apply idsub_nil.
    + unfold all_tracked. cbn. rewrite app_nil_r. intros p Hp. apply in_map. unfold all_tracked. rewrite !in_app_iff in *. tauto.
    + eapply idsub_trans; [|apply AB]. eapply (idsub_sp SpApp); [exact E|apply idsub_refl].
  - unfold lr_retry in H. pose proof (ignore_id (r_i r)) as I1. pose proof (ignore_id (r_h r)) as I2. pose proof (ignore_id (r_a r)) as I3.
    destruct (ignore_sp (r_i r)) as [i di], (ignore_sp (r_h r)) as [h dh], (ignore_sp (r_a r)) as [a da]. apply some_inj in H. apply pair_equal_spec in H. destruct H as [<- <-]. cbn [o_acked o_lost o_dropped o_cc].
    destruct I1 as [I1 ->], I2 as [I2 ->], I3 as [I3 ->]. splits; try apply idsub_nil.
    + unfold all_tracked at 1. cbn. rewrite I1, I2, I3. apply idsub_nil.
    + apply AB.
  - apply some_inj in H. apply pair_equal_spec in H. destruct H as [<- <-]. cbn. splits; try apply idsub_nil.
    eapply idsub_trans; [|apply AB]. apply idsub_all_of. intros sp. unfold tracked. replace (get_sp sp (lr_migrate r)) with (option_map lsp_migrate (get_sp sp r)) by (destruct sp; reflexivity).
    destruct (get_sp sp r) as [s|] eqn:E; cbn [option_map]; [|apply idsub_nil]. eapply idsub_sp; [exact E|]. cbn. apply idsub_map. reflexivity.
  - unfold lr_discard in H. assert (X : exists s, get_sp sp r = Some s /\ o_acked out = [] /\ o_lost out = [] /\ o_dropped out = l_pkts s /\ (forall s', idsub (tracked s' r') (tracked s' r))).
    { destruct sp; [| |discriminate]; destruct (get_sp _ r) as [s|] eqn:E; try discriminate.
      - inv H. exists s. splits; try reflexivity. intros s'. unfold tracked. destruct s'; cbn; try apply idsub_refl; apply idsub_nil.
      - destruct (lr_confirm base now _) as [r2|] eqn:EC; [|discriminate]. inv H. exists s. splits; try reflexivity.
        assert (G : forall s', get_sp s' r' = get_sp s' (set_sp SpHandshake None r)).
        { unfold lr_confirm in EC. destruct (r_confirmed _); [discriminate|]. destruct (pto_time _ _ _) as [[t|]|]; [|inv EC; intros []; reflexivity|discriminate].
          destruct (t <? now); [|inv EC; intros []; reflexivity]. unfold fire_pto in EC. destruct (sp_in _ _); [|discriminate]. apply some_inj in EC. subst r'. intros []; reflexivity. }
        intros s'. unfold tracked. rewrite G. destruct s'; cbn; try apply idsub_refl; apply idsub_nil. }
    destruct X as (s & E & -> & -> & -> & X). splits; try apply idsub_nil.
    + apply idsub_all_of. intros s'. eapply idsub_trans; [apply X|]. intros p Hp. apply AB. eapply all_in; eauto.
    + eapply idsub_trans; [|apply AB]. eapply idsub_sp; [exact E|apply idsub_refl].
  - unfold send_profile in H. assert (X : forall r2 pf, (match (let rest := if mtu <? avail then Some (r, if paced then prof_paced else prof_limited mtu) else if rec then option_map (pair r) (prof_pto mtu (mkSet true true true)) else Some (r, prof_limited avail) in
        match r_pto r with Some p => if 0 <? pt_packets p then option_map (pair (set_pto (Some (mkPto (pt_space p) (pt_count p) (pt_packets p - 1) (pt_probe p))) r)) (prof_pto mtu (pt_probe p)) else rest | None => rest end) with Some x => x = (r2, pf) | None => False end) -> all_tracked r2 = all_tracked r).
    { intros r2 pf. cbn zeta. destruct (r_pto r) as [p|]; [destruct (0 <? pt_packets p)|]; try (destruct (mtu <? avail); [intros X; inv X; reflexivity|]; destruct rec; [destruct (prof_pto mtu _); cbn; [intros X; inv X; reflexivity|contradiction]|intros X; inv X; reflexivity]).
      destruct (prof_pto mtu (pt_probe p)); cbn; [intros X; inv X; reflexivity|contradiction]. }
    match type of H with match ?x with _ => _ end = _ => destruct x as [[r2 pf]|]; [|discriminate] end. specialize (X r2 pf eq_refl). inv H. rewrite X. cbn. splits; try apply idsub_nil. apply AB.
Qed.

Lemma runs_id ops : forall r h r', lr_runs r ops = Some (r', h) ->
  let b := all_tracked r ++ flat_map (fun x => ev_sent (o_cc (snd x))) h in
  idsub (all_tracked r') b /\ forall x, In x h -> idsub (o_acked (snd x)) b /\ idsub (o_lost (snd x)) b /\ idsub (o_dropped (snd x)) b.
Proof.
  induction ops as [|o ops IH]; intros r h r' H; cbn [lr_runs] in H.
  - inv H. cbn. rewrite app_nil_r. split; [apply idsub_refl|intros x []].
  - destruct (lr_step r o) as [[r1 out]|] eqn:E; [|discriminate]. destruct (lr_runs r1 ops) as [[r2 h2]|] eqn:E2; [|discriminate]. inv H.
    destruct (step_id _ _ _ _ E) as (A & B & C & D). specialize (IH _ _ _ E2). cbn zeta in IH. destruct IH as [I1 I2]. cbn [flat_map snd].
    assert (X : idsub (all_tracked r1 ++ flat_map (fun x => ev_sent (o_cc (snd x))) h2) (all_tracked r ++ ev_sent (o_cc out) ++ flat_map (fun x => ev_sent (o_cc (snd x))) h2)).
    { apply idsub_app; [eapply idsub_trans; [exact A|]|apply idsub_incl]; [apply idsub_incl; rewrite app_assoc; apply incl_appl, incl_refl|]. apply incl_appr, incl_appr, incl_refl. }
    assert (Y : forall y, idsub y (all_tracked r ++ ev_sent (o_cc out)) -> idsub y (all_tracked r ++ ev_sent (o_cc out) ++ flat_map (fun x => ev_sent (o_cc (snd x))) h2)).
    { intros y Hy. eapply idsub_trans; [exact Hy|]. apply idsub_incl. rewrite app_assoc. apply incl_appl, incl_refl. }
    split; [eapply idsub_trans; eassumption|]. intros x [<-|Hx]; [cbn [snd]; auto|]. destruct (I2 x Hx) as (P & Q & R). splits; eapply idsub_trans; eassumption.
Qed.

(** ** Statistics and what the path is told *)
Lemma count_acked_stats l : forall out st o st' e, count_acked l out st = Some (o, st', e) ->
  st_lost st' + lenN (filter is_lost l) = st_lost st /\ st_late st' = st_late st + lenN (filter is_lost l) /\
  st_bytes_lost st' + total_len (filter is_lost l) = st_bytes_lost st /\ e = existsb p_ae l /\ st_pto_ack st' = st_pto_ack st + lenN (filter p_pto l).
Proof.
  induction l as [|p l IH]; intros out st o st' e H; cbn [count_acked] in H.
  - apply some_inj in H. apply pair_equal_spec in H. destruct H as [H <-]. apply pair_equal_spec in H. destruct H as [_ <-]. cbn. splits; lia || reflexivity.
  - destruct (if p_ae p then csub out 1 else Some out) as [o1|]; [|discriminate]. cbn [filter]. unfold csub in H.
    destruct (is_lost p).
    + destruct (N.leb_spec 1 (st_lost st)) as [L1|L1]; [|discriminate]. destruct (N.leb_spec (p_len p) (st_bytes_lost st)) as [L2|L2]; [|discriminate].
      destruct (count_acked l o1 _) as [[[x y] z]|] eqn:E; [|discriminate]. apply some_inj in H. apply pair_equal_spec in H. destruct H as [H <-]. apply pair_equal_spec in H. destruct H as [<- <-].
      destruct (IH _ _ _ _ _ E) as (A & B & C & D & F). rewrite lenN_cons. unfold total_len in *. cbn [fold_right]. cbn [existsb].
      destruct (p_pto p); cbn [st_lost st_late st_bytes_lost st_pto_ack] in *; rewrite ?lenN_cons; splits; try lia; rewrite D; reflexivity.
    + destruct (count_acked l o1 _) as [[[x y] z]|] eqn:E; [|discriminate]. apply some_inj in H. apply pair_equal_spec in H. destruct H as [H <-]. apply pair_equal_spec in H. destruct H as [<- <-].
      destruct (IH _ _ _ _ _ E) as (A & B & C & D & F). cbn [existsb].
      destruct (p_pto p); cbn [st_lost st_late st_bytes_lost st_pto_ack] in *; rewrite ?lenN_cons; splits; try lia; rewrite D; reflexivity.
Qed.
Lemma set_sp_stats sp s r : r_stats (set_sp sp s r) = r_stats r.
Proof. destruct sp; reflexivity. Qed.
Lemma pto_space_stats limit size sp r r' t n : pto_space_packets limit size sp r = (r', t, n) -> r_stats r' = r_stats r.
Proof. unfold pto_space_packets. destruct (get_sp sp r); [|intros H; inv H; reflexivity]. destruct (pto_loop _ _ _) as [[a b] c]. intros H. apply pair_equal_spec in H. destruct H as [H _]. apply pair_equal_spec in H. destruct H as [<- _]. apply set_sp_stats. Qed.
Lemma detect_loop_lost now ld la : forall l, let '(_, lost, _) := detect_loop now ld la l in Forall (fun p => is_lost p = true) lost.
Proof.
  induction l as [|p l IH]; cbn [detect_loop]; [constructor|]. destruct (p_pn p <? la); [|constructor].
  destruct (if p_time p + ld <=? now then _ else _) as [t|]; [|constructor].
  assert (D : snd (declare_lost now t p) = true -> is_lost (fst (declare_lost now t p)) = true) by (unfold declare_lost; destruct (is_lost p); [discriminate|reflexivity]).
  destruct (declare_lost now t p) as [p' first]. cbn [fst snd] in D. destruct (detect_loop now ld la l) as [[r lost] ooo]. destruct first; [constructor; auto|assumption].
Qed.
Lemma detect_lost_all now ld cd s s' lost gone : detect_lost now ld cd s = Some (s', lost, gone) -> filter is_lost lost = lost.
Proof.
  unfold detect_lost. destruct (remove_old_lost now cd s) as [[s1 g]|]; [|discriminate]. destruct (l_largest s1) as [la|].
  - pose proof (detect_loop_lost now ld la (l_pkts s1)) as D. destruct (detect_loop now ld la (l_pkts s1)) as [[x y] z]. intros H. apply some_inj in H. apply pair_equal_spec in H. destruct H as [H _]. apply pair_equal_spec in H. destruct H as [_ <-].
    apply filter_all. exact D.
  - intros H. apply some_inj in H. apply pair_equal_spec in H. destruct H as [H _]. apply pair_equal_spec in H. destruct H as [_ <-]. reflexivity.
Qed.
Lemma pto_loop_unlost limit : forall l size, let '(_, t, _) := pto_loop limit size l in filter is_lost t = [].
Proof.
  intros l size. pose proof (pto_loop_ok limit l size) as P. destruct (pto_loop limit size l) as [[r t] n]. destruct P as (_ & k & rest & E & -> & _).
  apply filter_none. rewrite Forall_forall. intros p Hp. apply in_map_iff in Hp. destruct Hp as (q & <- & Hq).
  assert (X : In q (filter probe_candidate l)) by (rewrite E; apply in_app_iff; auto). apply filter_In in X. destruct X as [_ X]. unfold probe_candidate in X. apply andb_true_iff in X. destruct X as [_ X]. apply negb_true_iff in X. exact X.
Qed.
Lemma pto_space_unlost limit size sp r r' t n : pto_space_packets limit size sp r = (r', t, n) -> filter is_lost t = [].
Proof. unfold pto_space_packets. destruct (get_sp sp r); [|intros H; inv H; reflexivity]. pose proof (pto_loop_unlost limit (l_pkts l) size) as P. destruct (pto_loop _ _ _) as [[a b] c]. intros H. apply pair_equal_spec in H. destruct H as [H _]. apply pair_equal_spec in H. destruct H as [_ <-]. exact P. Qed.
Lemma pto_collect_stats limit retr r r' l : pto_collect limit retr r = (r', l) -> r_stats r' = r_stats r /\ filter is_lost l = [].
Proof.
  intros H. unfold pto_collect in H.
  assert (G : forall sp (x : lr * list pkt * N), r_stats (fst (fst x)) = r_stats r /\ filter is_lost (snd (fst x)) = [] ->
     let y := (let '(r, l, n) := x in if sp_in sp retr then let '(r', t, n') := pto_space_packets limit n sp r in (r', l ++ t, n') else x) in
     r_stats (fst (fst y)) = r_stats r /\ filter is_lost (snd (fst y)) = []).
  { intros sp [[r0 l0] n0] [P Q]. cbn [fst snd] in *. destruct (sp_in sp retr); [|auto]. destruct (pto_space_packets limit n0 sp r0) as [[r1 t] n1] eqn:E.
    cbn. rewrite (pto_space_stats _ _ _ _ _ _ _ E), filter_app, Q, (pto_space_unlost _ _ _ _ _ _ _ E). auto. }
  pose proof (G SpApp _ (G SpHandshake _ (G SpInitial (r, [], 0) (conj eq_refl eq_refl)))) as X. cbn zeta in X. rewrite H in X. exact X.
Qed.
Lemma maybe_prime_stats now keys r : r_stats (maybe_prime now keys r) = r_stats r.
Proof.
  unfold maybe_prime. destruct keys; [|reflexivity]. destruct (r_pto r); [|reflexivity]. destruct (space_eqb _ _); [|reflexivity]. destruct (r_i r) as [i|]; [|reflexivity]. destruct (l_largest i); [|reflexivity].
  destruct (r_h r) as [hh|]; [|reflexivity]. destruct (l_last_ae hh); [reflexivity|]. destruct (l_largest hh); reflexivity.
Qed.
Definition told (out : lout) : Prop :=
  ev_acked (o_cc out) = o_acked out /\ ev_lost (o_cc out) = filter is_lost (o_lost out) /\ ev_discarded (o_cc out) = o_dropped out.
Definition counted (a b : lstats) (out : lout) : Prop :=
  st_lost b + lenN (filter is_lost (o_acked out)) = st_lost a + lenN (filter is_lost (o_lost out)) /\
  st_late b = st_late a + lenN (filter is_lost (o_acked out)) /\
  st_bytes_lost b + total_len (filter is_lost (o_acked out)) = st_bytes_lost a + total_len (filter is_lost (o_lost out)) /\
  st_pto_ack b = st_pto_ack a + lenN (filter p_pto (o_acked out)).
Lemma counted_id st out : filter is_lost (o_lost out) = [] -> o_acked out = [] -> counted st st out.
Proof. intros E1 E2. unfold counted. rewrite E1, E2. cbn. splits; lia. Qed.
Lemma ev_maps d : ev_acked (map CcDiscard d) = [] /\ ev_lost (map CcDiscard d) = [] /\ ev_discarded (map CcDiscard d) = d.
Proof. induction d as [|x d (A & B & C)]; cbn; [auto|]. unfold ev_acked, ev_lost, ev_discarded in *. rewrite A, B, C. auto. Qed.
Lemma timeout_space_told now ld cd sp r o r' o' : timeout_space now ld cd sp (r, o) = Some (r', o') -> told o -> filter is_lost (o_lost o) = o_lost o -> o_acked o = [] -> o_dropped o = [] ->
  told o' /\ filter is_lost (o_lost o') = o_lost o' /\ o_acked o' = [] /\ o_dropped o' = [] /\ r_stats r' = r_stats r.
Proof.
  unfold timeout_space. destruct (get_sp sp r) as [s|] eqn:E; [|intros H; inv H; auto]. destruct (detect_lost now ld cd s) as [[[s' lost] gone]|] eqn:D; [|discriminate].
  intros H (A & B & C) F G K. apply some_inj in H. apply pair_equal_spec in H. destruct H as [<- <-]. pose proof (detect_lost_all _ _ _ _ _ _ _ D) as DL. unfold told. cbn [o_acked o_lost o_dropped o_cc].
  unfold ev_acked, ev_lost, ev_discarded in *. rewrite !flat_map_app, filter_app, A, B, C, DL, F, G, K. cbn. rewrite !app_nil_r. splits; try reflexivity. apply set_sp_stats.
Qed.
Lemma step_told r o r' out : lr_step r o = Some (r', out) -> told out /\ counted (r_stats r) (r_stats r') out.
Proof.
  intros H. unfold told.
  destruct o as [prim t pn time ae tokens len probe|sp rs delay now ld base|now ld base mtu keys| | | |sp base now|mtu avail paced rec]; cbn [lr_step] in H.
  - unfold lr_sent in H. set (r1 := match r_pto r with Some _ => _ | None => r end) in H. assert (E1 : r_stats r1 = r_stats r) by (unfold r1; destruct (r_pto r); reflexivity).
    destruct (get_sp _ r1) as [s|]; [destruct (lsp_sent _ s); [|discriminate]|]; apply some_inj in H; apply pair_equal_spec in H; destruct H as [<- <-]; cbn; rewrite ?set_sp_stats, E1; splits; try reflexivity; apply counted_id; reflexivity.
  - unfold lr_ack in H. destruct (get_sp sp r) as [s|] eqn:E; [|inv H; cbn; splits; try reflexivity; apply counted_id; reflexivity].
    unfold remove_acked in H. destruct (take_ranges rs (l_pkts s)) as [[l acked]|] eqn:ET; [|discriminate].
    destruct (count_acked acked (l_out s) (r_stats r)) as [[[out' st] any]|] eqn:EC; [|discriminate]. destruct (count_acked_stats _ _ _ _ _ _ EC) as (C1 & C2 & C3 & _ & C4).
    destruct acked as [|big acked].
    + inv H. cbn. splits; try reflexivity. rewrite ?set_sp_stats. cbn [st_lost st_late st_bytes_lost] in *. cbn in C1, C2, C3, C4. unfold counted. cbn. splits; lia.
    + match type of H with match detect_lost ?a ?b ?c ?d with _ => _ end = _ => destruct (detect_lost a b c d) as [[[s3 lost] gone]|] eqn:D end; [|discriminate].
      pose proof (detect_lost_all _ _ _ _ _ _ _ D) as DL.
      apply some_inj in H. apply pair_equal_spec in H. destruct H as [<- <-]. cbn [o_acked o_lost o_dropped o_cc]. unfold ev_acked, ev_lost, ev_discarded. rewrite !flat_map_app.
      match goal with |- context [if ?c then [CcRtt _ _ _] else []] => destruct c end; cbn [flat_map app]; rewrite ?app_nil_r, DL; splits; try reflexivity;
        unfold counted; cbn [o_acked o_lost set_pto set_stats r_stats count_lost st_lost st_late st_bytes_lost st_pto_ack]; rewrite DL; change sum_len with total_len; splits; lia.
  - unfold lr_timeout in H. set (cd := pto_period base r) in H.
    destruct (timeout_space now ld cd SpInitial (r, no_out)) as [[ra oa]|] eqn:E1; [|discriminate]. cbn [obind] in H.
    destruct (timeout_space now ld cd SpHandshake (ra, oa)) as [[rb ob]|] eqn:E2; [|discriminate]. cbn [obind] in H.
    destruct (timeout_space now ld cd SpApp (rb, ob)) as [[rc oc]|] eqn:E3; [|discriminate]. cbn [obind] in H.
    destruct (timeout_space_told _ _ _ _ _ _ _ _ E1) as (A1 & A2 & A3 & A4 & A5); [unfold told; auto|reflexivity|reflexivity|reflexivity|].
    destruct (timeout_space_told _ _ _ _ _ _ _ _ E2 A1 A2 A3 A4) as (B1 & B2 & B3 & B4 & B5).
    destruct (timeout_space_told _ _ _ _ _ _ _ _ E3 B1 B2 B3 B4) as (C1 & C2 & C3 & C4 & C5).
    set (r2 := set_stats _ rc) in H.
    destruct (maybe_fire_pto base now mtu keys r2) as [[r3 l]|] eqn:EF; [|discriminate]. cbn [obind] in H. apply some_inj in H. apply pair_equal_spec in H. destruct H as [<- <-].
    assert (F : r_stats r3 = r_stats r2 /\ filter is_lost l = []).
    { unfold maybe_fire_pto in EF. destruct (fire_set base now r2) as [[[[sp|] allow] retr]|]; [| |discriminate].
      - destruct (pto_collect _ retr r2) as [r4 l4] eqn:EC. destruct (pto_collect_stats _ _ _ _ _ EC) as [P Q].
        unfold fire_pto in EF. destruct (sp_in sp allow); [|discriminate]. apply some_inj in EF. apply pair_equal_spec in EF. destruct EF as [<- <-]. split; [|exact Q].
        destruct sp; rewrite ?maybe_prime_stats; exact P.
      - inv EF. auto. }
    destruct F as [F1 F2]. destruct C1 as (D1 & D2 & D3). cbn [o_acked o_lost o_dropped o_cc]. rewrite filter_app, F2, app_nil_r, D1, D2, D3, C3, C4. splits; try reflexivity.
    unfold counted. cbn [o_acked o_lost]. rewrite filter_app, F2, app_nil_r, F1, C2. unfold r2. cbn [set_stats r_stats count_lost st_lost st_late st_bytes_lost st_pto_ack filter]. change sum_len with total_len. rewrite C5, B5, A5. change (total_len []) with 0. change (lenN []) with 0. splits; lia.
  - unfold lr_drop_0rtt in H. destruct (r_a r) as [s|] eqn:E; [|inv H; cbn; splits; try reflexivity; apply counted_id; reflexivity]. destruct (l_largest s); [inv H; cbn; splits; try reflexivity; apply counted_id; reflexivity|].
    cbn in H. inv H. cbn [o_acked o_lost o_dropped o_cc]. destruct (ev_maps (l_pkts s)) as (A & B & C). splits; try assumption. apply counted_id; reflexivity.
  - unfold lr_retry in H. destruct (ignore_sp (r_i r)) as [i di], (ignore_sp (r_h r)) as [h dh], (ignore_sp (r_a r)) as [a da]. apply some_inj in H. apply pair_equal_spec in H. destruct H as [<- <-]. cbn [o_acked o_lost o_dropped o_cc].
    destruct (ev_maps (di ++ dh ++ da)) as (A & B & C). splits; try assumption. apply counted_id; reflexivity.
  - apply some_inj in H. apply pair_equal_spec in H. destruct H as [<- <-]. cbn. splits; try reflexivity. apply counted_id; reflexivity.
  - unfold lr_discard in H. destruct sp; [| |discriminate]; destruct (get_sp _ r) as [s|] eqn:E; try discriminate; destruct (ev_maps (l_pkts s)) as (A & B & C).
    + inv H. cbn [o_acked o_lost o_dropped o_cc]. splits; try assumption. apply counted_id; reflexivity.
    + destruct (lr_confirm base now _) as [r2|] eqn:EC; [|discriminate]. inv H. cbn [o_acked o_lost o_dropped o_cc]. splits; try assumption.
      assert (G : r_stats r' = r_stats r).
      { unfold lr_confirm in EC. destruct (r_confirmed _); [discriminate|]. destruct (pto_time _ _ _) as [[t|]|]; [|inv EC; reflexivity|discriminate].
        destruct (t <? now); [|inv EC; reflexivity]. unfold fire_pto in EC. destruct (sp_in _ _); [|discriminate]. apply some_inj in EC. subst r'. reflexivity. }
      rewrite G. apply counted_id; reflexivity.
  - match type of H with match ?x with _ => _ end = _ => destruct x as [[r2 pf]|] eqn:E; [|discriminate] end. inv H. cbn. splits; try reflexivity.
    assert (G : r_stats r' = r_stats r).
    { unfold send_profile in E. destruct (r_pto r) as [p|]; [destruct (0 <? pt_packets p)|]; try (destruct (mtu <? avail); [inv E; reflexivity|]; destruct rec; [destruct (prof_pto mtu _); cbn in E; [inv E; reflexivity|discriminate]|inv E; reflexivity]).
      destruct (prof_pto mtu (pt_probe p)); cbn in E; [inv E; reflexivity|discriminate]. }
    rewrite G. apply counted_id; reflexivity.
Qed.
Definition sumN (f : lout -> N) (h : hist) : N := fold_right (fun x a => f (snd x) + a) 0 h.
Lemma runs_told ops : forall r h r', lr_runs r ops = Some (r', h) ->
  (forall x, In x h -> told (snd x)) /\
  st_lost (r_stats r') + sumN (fun o => lenN (filter is_lost (o_acked o))) h = st_lost (r_stats r) + sumN (fun o => lenN (filter is_lost (o_lost o))) h /\
  st_late (r_stats r') = st_late (r_stats r) + sumN (fun o => lenN (filter is_lost (o_acked o))) h /\
  st_bytes_lost (r_stats r') + sumN (fun o => total_len (filter is_lost (o_acked o))) h = st_bytes_lost (r_stats r) + sumN (fun o => total_len (filter is_lost (o_lost o))) h /\
  st_pto_ack (r_stats r') = st_pto_ack (r_stats r) + sumN (fun o => lenN (filter p_pto (o_acked o))) h.
Proof.
  induction ops as [|o ops IH]; intros r h r' H; cbn [lr_runs] in H.
  - inv H. cbn. splits; lia || (intros x []).
  - destruct (lr_step r o) as [[r1 out]|] eqn:E; [|discriminate]. destruct (lr_runs r1 ops) as [[r2 h2]|] eqn:E2; [|discriminate]. inv H.
    destruct (step_told _ _ _ _ E) as (A & B1 & B2 & B3 & B4). destruct (IH _ _ _ E2) as (I1 & I2 & I3 & I4 & I5). unfold sumN in *. cbn [fold_right snd]. splits; try lia.
    intros x [<-|Hx]; auto.
Qed.
