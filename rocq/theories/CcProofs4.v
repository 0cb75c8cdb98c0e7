(** Proofs about loss recovery together with the congestion controllers: bytes in flight. *)
From Coq Require Import Sorted Permutation.
From Verif Require Import Base Lib FcModel LrModel LrSpec LrProofs LrProofs2 LrProofs3 LrProofs4 LrProofs5 LrProofs6.
From Verif Require Import CcModel CcSpec CcProofs CcProofs2 CcProofs3.

(** ** Sums *)
Lemma in_flight_eq : forall l, in_flight l = acked_bytes l.
Proof. reflexivity. Qed.
Lemma in_flight_cons : forall p l, in_flight (p :: l) = (if cc_outstanding p then p_len p else 0) + in_flight l.
Proof. intros p l. unfold in_flight, cc_outstanding. cbn [filter]. destruct (p_ae p && p_primary p && negb (is_lost p)); [unfold total_len; cbn [fold_right]; lia|lia]. Qed.
Lemma in_flight_app : forall a b, in_flight (a ++ b) = in_flight a + in_flight b.
Proof. induction a as [|p a IH]; intros b; [reflexivity|]. cbn [app]. rewrite !in_flight_cons, IH. lia. Qed.
Lemma in_flight_rev : forall l, in_flight (rev l) = in_flight l.
Proof. induction l as [|p l IH]; [reflexivity|]. cbn [rev]. rewrite in_flight_app, IH, !in_flight_cons. change (in_flight []) with 0. lia. Qed.
Lemma in_flight_split : forall f l, in_flight l = in_flight (filter f l) + in_flight (filter (fun x => negb (f x)) l).
Proof. induction l as [|p l IH]; [reflexivity|]. cbn [filter]. destruct (f p); cbn [negb]; rewrite !in_flight_cons, IH; lia. Qed.
Lemma taken_flight : forall rs l, in_flight l = in_flight (taken rs l) + in_flight (untaken rs l).
Proof. intros rs l. unfold taken, untaken. rewrite in_flight_rev. apply in_flight_split. Qed.
Lemma sum_cons : forall p l, total_len (filter cc_in_flight (p :: l)) = (if cc_in_flight p then p_len p else 0) + total_len (filter cc_in_flight l).
Proof. intros p l. cbn [filter]. destruct (cc_in_flight p); [unfold total_len; cbn [fold_right]; lia|lia]. Qed.
Lemma expired_lost : forall now cd p, expired now cd p = true -> is_lost p = true.
Proof. intros now cd p. unfold expired, is_lost. destruct (p_lost p); [reflexivity|discriminate]. Qed.
Lemma markO_flight : forall now ld la p, cc_in_flight (markO now ld la p) = cc_in_flight p.
Proof. intros now ld [la|] p; [|reflexivity]. unfold cc_in_flight. cbn [markO]. now rewrite mark_ae, mark_primary. Qed.
Lemma detect_flight : forall now ld cd la l,
  in_flight (after_detect now ld cd la l) + total_len (filter cc_in_flight (lost_detect now ld cd la l)) = in_flight l.
Proof.
  intros now ld cd la l. rewrite (in_flight_split (expired now cd) l).
  assert (E : in_flight (filter (expired now cd) l) = 0).
  { induction l as [|p l IH]; [reflexivity|]. cbn [filter]. destruct (expired now cd p) eqn:X; [|exact IH]. rewrite in_flight_cons, IH. unfold cc_outstanding. rewrite (expired_lost _ _ _ X). now rewrite andb_false_r. }
  rewrite E. unfold after_detect, lost_detect. set (Y := filter _ l). clearbody Y. clear E l. induction Y as [|p Y IH]; [reflexivity|]. cbn [map filter].
  rewrite !in_flight_cons. unfold cc_outstanding at 1 2. rewrite markO_is_lost. fold (cc_in_flight (markO now ld la p)). fold (cc_in_flight p). rewrite markO_flight, markO_len.
  destruct (shouldO now ld la p) eqn:Sh, (is_lost p) eqn:Lo; cbn [andb negb orb map]; rewrite ?sum_cons, ?markO_flight, ?markO_len, ?andb_false_r, ?andb_true_r; lia.
Qed.
Lemma markO_time : forall now ld la p, p_time (markO now ld la p) = p_time p.
Proof. intros now ld [la|] p; [apply mark_time|reflexivity]. Qed.
Lemma lost_detect_facts : forall now ld cd la l sp, StronglySorted before l -> Forall (fun p => of_space sp p = true) l ->
  in_order (lost_detect now ld cd la l) /\ Forall (fun p => of_space sp p = true) (lost_detect now ld cd la l) /\
  forall p, In p (lost_detect now ld cd la l) -> is_lost p = true /\ exists q, In q l /\ p_pn q = p_pn p /\ is_lost q = false.
Proof.
  intros now ld cd la l sp S F. unfold lost_detect. set (f := fun p => _ && _). set (Y := filter f _).
  assert (SY : StronglySorted before Y) by (apply ss_filter, ss_filter; exact S). assert (FY : Forall (fun p => of_space sp p = true) Y) by (apply Forall_filter, Forall_filter; exact F).
  splits.
  - clear - SY. induction SY as [|a Y S IH G]; cbn; [constructor|]. constructor; [exact IH|]. rewrite Forall_forall in *. intros x Hx. apply in_map_iff in Hx. destruct Hx as (y & <- & Hy).
    rewrite !markO_pn, !markO_time. destruct (G y Hy) as (A & B & _). auto.
  - rewrite Forall_forall in *. intros x Hx. apply in_map_iff in Hx. destruct Hx as (y & <- & Hy). rewrite of_space_markO. auto.
  - intros p Hp. apply in_map_iff in Hp. destruct Hp as (y & <- & Hy). unfold Y in Hy. apply filter_In in Hy. destruct Hy as [Hy Fy]. apply filter_In in Hy. destruct Hy as [Hy _].
    unfold f in Fy. apply andb_true_iff in Fy. destruct Fy as [F1 F2]. rewrite markO_is_lost, F1, markO_pn. split; [reflexivity|]. exists y. splits; auto. now apply negb_true_iff.
Qed.
Lemma pto_loop_flight : forall limit l size l' t n, pto_loop limit size l = (l', t, n) -> in_flight l' = in_flight l.
Proof.
  intros limit. induction l as [|p l IH]; intros size l' t n H; cbn [pto_loop] in H; [now injection H as <- _ _|].
  assert (T : cc_outstanding (fst (take_pto p)) = cc_outstanding p /\ p_len (fst (take_pto p)) = p_len p) by (unfold take_pto; destruct (p_pto p || is_lost p); split; reflexivity).
  destruct (take_pto p) as [p' b] eqn:TP. cbn [fst] in T. destruct T as [T1 T2]. destruct b.
  - destruct (_ <=? _).
    + destruct (pto_loop limit (size + p_len p) l) as [[r t'] n'] eqn:E. injection H as <- _ _. rewrite !in_flight_cons, T1, T2, (IH _ _ _ _ E). reflexivity.
    + injection H as <- _ _. rewrite !in_flight_cons, T1, T2. reflexivity.
  - destruct (pto_loop limit size l) as [[r t'] n'] eqn:E. injection H as <- _ _. rewrite !in_flight_cons, (IH _ _ _ _ E). reflexivity.
Qed.
Lemma flight_one : forall sp r r', (forall sp', sp' <> sp -> tracked sp' r' = tracked sp' r) ->
  flight r' + in_flight (tracked sp r) = flight r + in_flight (tracked sp r').
Proof.
  intros sp r r' H. unfold flight. destruct sp.
  - rewrite (H SpHandshake), (H SpApp) by discriminate. lia.
  - rewrite (H SpInitial), (H SpApp) by discriminate. lia.
  - rewrite (H SpInitial), (H SpHandshake) by discriminate. lia.
Qed.
Lemma get_tracked : forall sp r r', get_sp sp r' = get_sp sp r -> tracked sp r' = tracked sp r.
Proof. intros sp r r' H. unfold tracked. now rewrite H. Qed.

(** ** One controller never panics *)
Definition good (c : cc) : Prop := floor_inv 1 c /\ (c_stored c <> None -> c_wa c <> Cubic false).
Lemma good_new : forall ss wa m spur, 0 < m -> good (cc_new ss wa m spur).
Proof.
  intros ss wa m spur M. split; [|cbn; intros X; now elim X]. split; [|split]; cbn; [|discriminate|lia]. unfold cwnd. cbn. pose proof (initial_floor m). lia.
Qed.
Lemma run_sent : forall p c, good c -> let c' := cc_sent p c in good c' /\ c_lost c' = c_lost c /\ c_bif c' = c_bif c + (if cc_in_flight p then p_len p else 0).
Proof.
  intros p c (F & W) c'. assert (Fl : floor_inv 1 c') by (apply (floor_step 1 c (CSent p)); [reflexivity|discriminate|exact F]).
  pose proof (cc_sent_spec p c) as E. cbn zeta in E. fold c' in E. destruct E as (E1 & _ & E2 & _ & _ & _ & _ & E3 & _ & _ & _ & _ & _ & E4 & _).
  unfold good. rewrite E1, E2. splits; auto.
Qed.
Lemma run_ecn : forall p c, good c -> let c' := cc_ecn p c in good c' /\ c_lost c' = c_lost c /\ c_bif c' = c_bif c.
Proof.
  intros p c (F & W) c'. assert (Fl : floor_inv 1 c') by (apply (floor_step 1 c (CEcn p)); [reflexivity|discriminate|exact F]).
  subst c'. unfold good, cc_ecn, congestion_event in *. destruct (after_rec p c); [|cbn; splits; auto]. destruct (wa_reduce _ _ _ _). cbn [fst] in *. cbn. splits; auto.
Qed.
Lemma se_ok : forall rtt w now s, 3 <= rtt -> exists s' e, se_acked_pkts rtt w now s = Some (s', e).
Proof.
  intros rtt w now s R. unfold se_acked_pkts.
  assert (I : exists s1, (match se_idx s with None => se_initialize rtt now s | Some _ => Some s end) = Some s1).
  { destruct (se_idx s); [eauto|]. unfold se_initialize, WINDOW_SIZE_FACTOR, SCALE, W. destruct (rtt * 350 / 100 / 10 =? 0) eqn:D; [|eauto]. exfalso.
    apply N.eqb_eq in D. assert (1 <= rtt * 350 / 100 / 10); [|lia]. apply N.div_le_lower_bound; [lia|]. apply N.div_le_lower_bound; lia. }
  destruct I as (s1 & ->). destruct (se_idx s1) as [cur|]; [|eauto]. destruct (se_bin_end s1) as [e|]; [|eauto]. destruct (now <=? e); [eauto|].
  destruct (se_update now cur e s1) as [s' [c'|]]; eauto.
Qed.
Lemma ss_ok : forall rtt l w now s, 3 <= rtt -> exists s' e, ss_acked rtt l w now s = Some (s', e).
Proof.
  intros rtt l w now [|h|s] R; cbn; [eauto| |].
  - destruct (hy_acked rtt l w h). eauto.
  - destruct (se_ok rtt w now s R) as (s' & e & ->). eauto.
Qed.
Lemma run_acked : forall ps now pto rtt bfi c, ps <> [] -> 0 < bfi -> 3 <= rtt -> good c ->
  exists c', cc_acked ps now pto rtt bfi c = Some c' /\ good c' /\ incl (c_lost c') (c_lost c) /\ c_bif c' = c_bif c - acked_bytes ps.
Proof.
  intros ps now pto rtt bfi c NE B R (F & W).
  assert (D : exists c0, detect_spurious ps (cleanup now pto c) = Some c0).
  { unfold detect_spurious, cleanup. cbn [c_lost with_lost]. destruct (filter (fun x => now - snd x <=? pto * 2) (c_lost c)) as [|x l]; [eauto|].
    set (l' := filter _ (x :: l)). destruct l'; [|eauto]. unfold on_spurious. cbn [c_stored with_lost c_wa cwnd c_cur c_spur]. destruct (c_stored c) as [s|] eqn:St; [|eauto].
    destruct (_ <=? _); [eauto|]. destruct (negb _); [eauto|]. destruct (c_wa c) as [|[]] eqn:Wa; cbn; [eauto|eauto|]. exfalso. apply W; [discriminate|reflexivity]. }
  destruct D as (c0 & D). assert (X : exists c', cc_acked ps now pto rtt bfi c = Some c').
  { unfold cc_acked. destruct ps as [|big ps']; [now elim NE|]. rewrite D. cbn [obind].
    destruct (ack_loop (big :: ps') c0 true 0) as [[c2 lim] n] eqn:AL. set (c3 := if in_slow_start _ then _ else _). destruct lim; [eauto|].
    assert (CW : 2 <= cwnd c3).
    { assert (cwnd c3 = cwnd c2) by (unfold c3; destruct (in_slow_start _); reflexivity). apply ack_loop_spec in AL. destruct AL as (_ & _ & _ & _ & _ & _ & _ & _ & _ & _ & E & _).
      unfold cwnd in *. rewrite H, E. apply detect_spec in D. destruct F as (F1 & F2 & _). destruct D as (_ & _ & _ & _ & _ & _ & _ & _ & D).
      destruct D as [(_ & -> & _)|(s & _ & S & _ & _ & [(_ & _ & ->)|(_ & -> & _)])]; [unfold cwnd in F1; lia|specialize (F2 s S); lia|unfold cwnd in F1; lia]. }
    assert (G : exists c4, grow_slow (p_pn big) rtt now n c3 = Some c4).
    { unfold grow_slow. destruct (match s_ssthresh (c_cur c3) with None => true | Some t => _ end); [|eauto]. destruct (ss_ok rtt (p_pn big) (s_cwnd (c_cur c3)) now (c_ss c3) R) as (s' & e & ->). destruct e; eauto. }
    destruct G as (c4 & G). rewrite G. cbn [obind]. apply grow_slow_spec in G. unfold grow_avoid. destruct (match s_ssthresh (c_cur c4) with None => false | Some t => _ end); [|eauto].
    destruct (wa_bytes bfi (s_cwnd (c_cur c4)) (c_wa c4) =? 0) eqn:Z; [|eauto]. exfalso. apply N.eqb_eq in Z. destruct (c_wa c4); cbn in Z; [|lia].
    destruct G as (_ & _ & _ & _ & _ & _ & _ & _ & _ & _ & _ & _ & G & _). unfold cwnd in *. lia. }
  destruct X as (c' & X). exists c'. assert (Fl : floor_inv 1 c') by (apply (floor_step 1 c (CAcked ps now pto rtt bfi)); [exact X|discriminate|exact F]).
  pose proof X as X'. apply cc_acked_spec in X'. destruct X' as (c0' & D' & _ & _ & _ & _ & L & _ & Bf & St & _ & Wa & _). rewrite D in D'. injection D' as <-.
  apply detect_spec in D. destruct D as (_ & _ & _ & _ & _ & IL & _ & _ & D). splits; auto; [|now rewrite L]. split; [exact Fl|]. rewrite St, Wa.
  destruct D as [(_ & _ & E1 & E2)|(s & _ & _ & E & _)]; [rewrite E1, E2; exact W|]. rewrite E. intros Y. now elim Y.
Qed.
Lemma run_lost : forall first prev pto ps sp c, good c -> in_order ps -> Forall (fun p => of_space sp p = true) ps ->
  (forall x p, In x (c_lost c) -> In p ps -> space_of (snd (fst x)) = sp -> fst (fst x) <> p_pn p) ->
  exists c', cc_lost first prev pto ps c = Some c' /\ good c' /\ c_bif c' = c_bif c - total_len (filter cc_in_flight ps) /\
    forall x, In x (c_lost c') -> In x (c_lost c) \/ exists p, In p ps /\ x = key_of p.
Proof.
  intros first prev pto ps sp c G Or Sp Fr.
  assert (LL : exists c1, lost_loop ps c = Some c1).
  { clear G. revert c Fr. induction ps as [|p ps IH]; intros c Fr; cbn [lost_loop]; [eauto|]. inv Or. inv Sp.
    assert (Fr' : forall x q, In x (c_lost c) -> In q ps -> space_of (snd (fst x)) = sp -> fst (fst x) <> p_pn q) by (intros x q X Q; apply Fr; [exact X|now right]).
    destruct (cc_in_flight p); [|apply IH; auto]. destruct (p_probe p); [apply IH; auto|].
    destruct (existsb (same_key p) (c_lost (with_bif (c_bif c - p_len p) c))) eqn:Ex.
    - exfalso. apply existsb_exists in Ex. destruct Ex as (x & X & K). cbn in X. unfold same_key in K. apply andb_true_iff in K. destruct K as [K1 K2]. apply ptype_eqb_eq in K2.
      apply (Fr x p X); [now left| |lia]. rewrite <- K2. unfold of_space in H3. apply space_eqb_eq in H3. exact H3.
    - apply IH; auto. intros x q [<-|X] Q S; [|apply Fr'; auto]. cbn. rewrite Forall_forall in H2. specialize (H2 q Q). lia. }
  destruct LL as (c1 & LL). pose proof (lost_loop_keys _ _ _ LL) as (_ & _ & K). pose proof (lost_loop_same _ _ _ LL) as (Sm & _ & _ & Bf). destruct Sm as [Q1 Q2 Q3 Q4 Q5 Q6 Q7 Q8].
  assert (X : exists c', cc_lost first prev pto ps c = Some c' /\ (c_stored c' <> None -> c_wa c' <> Cubic false) /\ c_bif c' = c_bif c1 /\ c_lost c' = c_lost c1).
  { unfold cc_lost. destruct ps as [|p0 ps0]; [injection LL as <-; exists c; splits; auto; apply G|]. rewrite LL. cbn [obind]. set (ps := p0 :: ps0) in *.
    assert (W1 : c_stored c1 <> None -> c_wa c1 <> Cubic false) by (rewrite Q2, Q4; apply G).
    destruct (last_of _) as [p|]; [|exists c1; auto]. destruct (persistent_iff first prev pto (non_probe ps) (fst (congestion_event false p c1))) as (c' & P & _); [apply sorted_filter; exact Or|].
    exists c'. split; [exact P|]. apply persistent_spec in P.
    assert (E : (c_stored (fst (congestion_event false p c1)) <> None -> c_wa (fst (congestion_event false p c1)) <> Cubic false) /\ c_bif (fst (congestion_event false p c1)) = c_bif c1 /\ c_lost (fst (congestion_event false p c1)) = c_lost c1).
    { unfold congestion_event. destruct (after_rec p c1); [|auto]. destruct (wa_reduce _ _ _ _). cbn. splits; auto. intros _. destruct (c_wa c1); discriminate. }
    destruct P as [->|(s & -> & _)]; [exact E|]. exact E. }
  destruct X as (c' & X & Wf & Bf' & L'). exists c'. splits; auto.
  - split; [|exact Wf]. apply (floor_step 1 c (CLost first prev pto ps)); [exact X|discriminate|apply G].
  - congruence.
  - rewrite L'. intros x Hx. destruct (K x Hx) as [Y|(p & Y & _ & _ & Z)]; eauto.
Qed.
Lemma run_discards : forall e d c, good c -> in_flight d <= c_bif c ->
  exists c', cc_runs c (flat_map (cops_of e) (map CcDiscard d)) = Some c' /\ good c' /\ c_lost c' = c_lost c /\ c_bif c' = c_bif c - in_flight d.
Proof.
  intros e. induction d as [|p d IH]; intros c G L; cbn [map flat_map cops_of app cc_runs]; [exists c; change (in_flight []) with 0; splits; auto; lia|].
  rewrite in_flight_cons in L. cbn [cc_step]. unfold cc_discard. destruct (cc_outstanding p) eqn:O.
  - destruct (N.leb_spec (p_len p) (c_bif c)); [|lia]. destruct (IH (with_bif (c_bif c - p_len p) c)) as (c' & R & G' & L' & B'); [exact G|cbn; lia|].
    exists c'. splits; auto. rewrite B', in_flight_cons, O. cbn. lia.
  - destruct (IH c) as (c' & R & G' & L' & B'); [exact G|lia|]. exists c'. splits; auto. rewrite B', in_flight_cons, O. lia.
Qed.

(** ** The invariant of the system *)
Definition known (last : space -> option N) (r : lr) (c : cc) : Prop := forall x, In x (c_lost c) ->
  let sp := space_of (snd (fst x)) in
  match last sp with Some l => fst (fst x) <= l | None => False end /\ forall q, In q (tracked sp r) -> p_pn q = fst (fst x) -> is_lost q = true.
Definition path_inv (last : space -> option N) (y : sys) (i : nat) (c : cc) : Prop :=
  good c /\ known last (y_lr y) c /\ c_bif c = if Nat.eqb i (y_prim y) then flight (y_lr y) else 0.
Record SI (T : N) (last : space -> option N) (gone : spset) (y : sys) : Prop := {
  si_inv : INV T last gone (y_lr y); si_ti : TI last (y_lr y);
  si_paths : forall i c, nth_error (y_paths y) i = Some c -> path_inv last y i c;
  si_prim : (y_prim y < length (y_paths y))%nat }.
Lemma upd_length : forall {A} (l : list A) i x, length (upd_nth i x l) = length l.
Proof. induction l as [|y l IH]; intros [|i] x; cbn; auto. Qed.
Lemma upd_nth_eq : forall {A} (l : list A) i j x y, nth_error (upd_nth i x l) j = Some y -> (i = j /\ y = x) \/ (i <> j /\ nth_error l j = Some y).
Proof.
  induction l as [|z l IH]; intros [|i] [|j] x y H; cbn in *; try discriminate.
  - left. split; congruence.
  - right. split; [discriminate|exact H].
  - right. split; [discriminate|exact H].
  - destruct (IH _ _ _ _ H) as [[-> ->]|[N1 N2]]; [left; auto|right; split; [congruence|exact N2]].
Qed.
Lemma upd_nth_same : forall {A} (l : list A) i x, (i < length l)%nat -> nth_error (upd_nth i x l) i = Some x.
Proof. induction l as [|y l IH]; intros [|i] x H; cbn in *; [lia|lia|reflexivity|]. apply IH. lia. Qed.
Lemma in_pns : forall sp l n, In n (pns sp l) <-> exists p, In p l /\ of_space sp p = true /\ p_pn p = n.
Proof.
  intros sp l n. unfold pns. rewrite in_map_iff. split.
  - intros (p & <- & H). apply filter_In in H. destruct H. eauto.
  - intros (p & H & S & <-). exists p. split; [reflexivity|]. apply filter_In. auto.
Qed.
Lemma of_space_own : forall p, of_space (space_of (p_type p)) p = true.
Proof. intros p. unfold of_space. apply space_eqb_refl. Qed.
Lemma known_step : forall T last last' gone r r' out c, INV T last gone r -> known last r c -> (forall sp, eff sp (tracked sp r) (tracked sp r') out) ->
  (forall sp, sent_ok_in (last sp) (last' sp) (pns sp (ev_sent (o_cc out)))) ->
  known last' r' c /\
  (forall p, In p (o_lost out) -> is_lost p = true ->
     let sp := space_of (p_type p) in
     match last' sp with Some l => p_pn p <= l | None => False end /\ (forall q, In q (tracked sp r') -> p_pn q = p_pn p -> is_lost q = true) /\
     forall x, In x (c_lost c) -> space_of (snd (fst x)) = sp -> fst (fst x) <> p_pn p).
Proof.
  intros T last last' gone r r' out c H K E S. split.
  - intros x X. destruct (K x X) as [K1 K2]. cbn zeta in *. set (sp := space_of (snd (fst x))) in *. specialize (E sp). specialize (S sp). split.
    + destruct S as [(_ & [->|(l & -> & S)])|(n & _ & -> & S)]; [exact K1| |]; destruct (last sp); try contradiction; lia.
    + intros q Q Eq. destruct E as (_ & _ & _ & E4 & _ & E6). apply E4; [exact Q|]. right.
      destruct (E6 (p_pn q)) as [Y|Y]; [now apply in_map|apply in_map_iff in Y; destruct Y as (z & Z1 & Z2); exists z; splits; auto; apply K2; auto; congruence|].
      exfalso. destruct S as [(S & _)|(n & S & _ & S')]; rewrite S in Y; [destruct Y|]. destruct Y as [Y|[]]. rewrite Eq in Y. subst n. destruct (last sp); [lia|contradiction].
  - intros p P L sp. specialize (E sp). specialize (S sp). destruct E as (_ & _ & E3 & E4 & _ & _).
    assert (I : In (p_pn p) (pns sp (filter is_lost (o_lost out)))) by (apply in_pns; exists p; splits; [apply filter_In; auto|apply of_space_own|reflexivity]).
    destruct (E3 _ I) as ((q & Q1 & Q2 & Q3) & _). destruct (inv_tracked _ _ _ _ sp H) as (_ & _ & PK). rewrite Forall_forall in PK. destruct (PK q Q1) as (_ & _ & Le). rewrite Q2 in Le.
    splits.
    + destruct S as [(_ & [->|(l & -> & S)])|(n & _ & -> & S)]; [exact Le| |]; destruct (last sp); try contradiction; lia.
    + intros z Z Ez. apply E4; [exact Z|]. left. now rewrite Ez.
    + intros x X Sx Ex. destruct (K x X) as [_ K2]. cbn zeta in K2. rewrite Sx in K2. specialize (K2 q Q1). rewrite K2 in Q3; [discriminate|congruence].
Qed.
(** A step of loss recovery, reported to path [i]. *)
Lemma lift_ok : forall T last gone y T' last' gone' r' out i c c' e x,
  SI T last gone y -> x = Some (r', out) -> INV T' last' gone' r' -> TI last' r' -> (forall sp, eff sp (tracked sp (y_lr y)) (tracked sp r') out) ->
  (forall sp, sent_ok_in (last sp) (last' sp) (pns sp (ev_sent (o_cc out)))) ->
  nth_error (y_paths y) i = Some c -> cc_runs c (flat_map (cops_of e) (o_cc out)) = Some c' -> good c' ->
  (forall z, In z (c_lost c') -> In z (c_lost c) \/ exists p, In p (o_lost out) /\ is_lost p = true /\ z = key_of p) ->
  c_bif c' = (if Nat.eqb i (y_prim y) then flight r' else 0) -> (i = y_prim y \/ flight r' = flight (y_lr y)) ->
  exists y', lift y i x e = Some y' /\ SI T' last' gone' y' /\ length (y_paths y') = length (y_paths y).
Proof.
  intros T last gone y T' last' gone' r' out i c c' e x S -> I' T1 E So Nc Rc G' Kc B Fl. exists (mkSys r' (upd_nth i c' (y_paths y)) (y_prim y)).
  cbn [lift]. rewrite Nc, Rc. split; [reflexivity|]. split; [|cbn; apply upd_length]. destruct S as [S1 S2 S3 S4]. constructor; cbn [y_lr y_paths y_prim]; auto; [|now rewrite upd_length].
  intros j d Hj. apply upd_nth_eq in Hj. destruct Hj as [(<- & ->)|(Nij & Hj)].
  - unfold path_inv. cbn [y_lr y_prim]. splits; auto. destruct (S3 _ _ Nc) as (_ & K & _). destruct (known_step _ _ _ _ _ _ _ _ S1 K E So) as [K1 K2].
    intros z Z. destruct (Kc z Z) as [Y|(p & P & L & ->)]; [apply K1; exact Y|]. destruct (K2 p P L) as (A & B' & _). cbn. auto.
  - destruct (S3 _ _ Hj) as (G & K & Bj). unfold path_inv. cbn [y_lr y_prim]. splits; auto; [apply (known_step _ _ _ _ _ _ _ _ S1 K E So)|]. rewrite Bj.
    destruct (Nat.eqb_spec j (y_prim y)) as [->|]; [|reflexivity]. destruct Fl as [Fl|Fl]; [congruence|now rewrite Fl].
Qed.
Lemma prim_path : forall T last gone y, SI T last gone y -> exists c, nth_error (y_paths y) (y_prim y) = Some c /\ path_inv last y (y_prim y) c /\ c_bif c = flight (y_lr y).
Proof.
  intros T last gone y [_ _ S3 S4]. destruct (nth_error (y_paths y) (y_prim y)) as [c|] eqn:E; [|apply nth_error_None in E; lia]. exists c. specialize (S3 _ _ E). splits; auto.
  destruct S3 as (_ & _ & B). now rewrite Nat.eqb_refl in B.
Qed.
