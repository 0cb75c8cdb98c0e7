(** Loss recovery: every operation keeps the invariant. *)
From Coq Require Import Sorted Permutation.
From Verif Require Import Base Lib FcModel LrModel LrSpec LrProofs LrProofs2.

Lemma sp_ok_mono T T' last sp s : T <= T' -> sp_ok T last sp s -> sp_ok T' last sp s.
Proof.
  intros H (Z & S & F & G & O & L). unfold sp_ok. splits; try assumption.
  eapply Forall_impl; [|exact F]. intros p (A & B & C). unfold pk_ok. splits; [lia| |exact C]. destruct (p_lost p) as [[t ?]|]; [lia|exact Logic.I].
Qed.
Lemma inv_get T last gone r sp s : INV T last gone r -> get_sp sp r = Some s -> sp_in sp gone = false /\ sp_ok T (last sp) sp s.
Proof. intros (H & _) E. specialize (H sp). rewrite E in H. exact H. Qed.
Lemma inv_tracked T last gone r sp : INV T last gone r -> StronglySorted before (tracked sp r) /\ Forall (fun p => of_space sp p = true) (tracked sp r) /\ Forall (pk_ok T (last sp)) (tracked sp r).
Proof.
  intros H. unfold tracked. destruct (get_sp sp r) as [s|] eqn:E; [|splits; constructor].
  destruct (inv_get _ _ _ _ _ _ H E) as (_ & _ & S & F & G & _). splits; assumption.
Qed.
Lemma inv_nodup T last gone r sp : INV T last gone r -> NoDup (map p_pn (tracked sp r)).
Proof. intros H. apply ss_nodup. apply (inv_tracked _ _ _ _ sp H). Qed.
Lemma tracked_get sp r s : get_sp sp r = Some s -> tracked sp r = l_pkts s.
Proof. intros E. unfold tracked. rewrite E. reflexivity. Qed.

Lemma tot_set f sp s0 s r : get_sp sp r = Some s0 -> tot f (set_sp sp (Some s) r) + f (l_pkts s0) = tot f r + f (l_pkts s).
Proof. intros E. unfold tot, tracked. destruct sp; cbn in *; rewrite E; lia. Qed.
Lemma tot_pto f p r : tot f (set_pto p r) = tot f r.
Proof. reflexivity. Qed.
Lemma tot_stats f st r : tot f (set_stats st r) = tot f r.
Proof. reflexivity. Qed.
Lemma inv_pto T last gone r p : INV T last gone r -> INV T last gone (set_pto p r).
Proof.
  intros (A & B). unfold INV. split; [|exact B].
  intros sp. rewrite get_set_pto. apply A.
Qed.
Lemma tot_ge f sp r s : get_sp sp r = Some s -> f (l_pkts s) <= tot f r.
Proof. intros E. unfold tot, tracked. destruct sp; cbn in *; rewrite E; lia. Qed.
Lemma split_ranges_ae rs l : count_ae l = count_ae (filter (fun p => in_ranges rs (p_pn p)) l) + count_ae (filter (fun p => negb (in_ranges rs (p_pn p))) l).
Proof. exact (count_ae_split (fun p => in_ranges rs (p_pn p)) l). Qed.
Lemma split_ranges_n rs l : nlost l = nlost (filter (fun p => in_ranges rs (p_pn p)) l) + nlost (filter (fun p => negb (in_ranges rs (p_pn p))) l).
Proof. exact (nlost_split (fun p => in_ranges rs (p_pn p)) l). Qed.
Lemma split_ranges_b rs l : blost l = blost (filter (fun p => in_ranges rs (p_pn p)) l) + blost (filter (fun p => negb (in_ranges rs (p_pn p))) l).
Proof. exact (blost_split (fun p => in_ranges rs (p_pn p)) l). Qed.
Lemma inv_set T T' last last' gone r sp s0 s st :
  INV T last gone r -> T <= T' -> get_sp sp r = Some s0 -> sp_ok T' (last' sp) sp s -> (forall sp', sp' <> sp -> last' sp' = last sp') ->
  tot nlost r + nlost (l_pkts s) <= st_lost st + nlost (l_pkts s0) ->
  tot blost r + blost (l_pkts s) <= st_bytes_lost st + blost (l_pkts s0) ->
  INV T' last' gone (set_stats st (set_sp sp (Some s) r)).
Proof.
  intros (A & B & C & D & E) HT G K U X Y. unfold INV. splits.
  - intros sp'. rewrite get_set_stats, get_set. specialize (A sp'). destruct (space_eqb sp' sp) eqn:Q.
    + apply space_eqb_eq in Q. subst sp'. rewrite G in A. split; [apply A|exact K].
    + destruct (get_sp sp' r) as [s'|]; [|exact A]. destruct A as [A1 A2]. split; [exact A1|].
      rewrite U; [eapply sp_ok_mono; eauto|]. intros ->. rewrite space_eqb_refl in Q. discriminate.
  - exact B.
  - destruct sp; exact C.
  - rewrite tot_stats. pose proof (tot_set nlost sp s0 s r G). cbn [r_stats set_stats]. lia.
  - rewrite tot_stats. pose proof (tot_set blost sp s0 s r G). cbn [r_stats set_stats]. lia.
Qed.
Lemma set_stats_same r : set_stats (r_stats r) r = r.
Proof. destruct r; reflexivity. Qed.
Lemma r_stats_set sp s r : r_stats (set_sp sp s r) = r_stats r.
Proof. destruct sp; reflexivity. Qed.
Lemma r_pto_set sp s r : r_pto (set_sp sp s r) = r_pto r.
Proof. destruct sp; reflexivity. Qed.
Lemma r_fast_set sp s r : r_fast (set_sp sp s r) = r_fast r.
Proof. destruct sp; reflexivity. Qed.
Lemma r_confirmed_set sp s r : r_confirmed (set_sp sp s r) = r_confirmed r.
Proof. destruct sp; reflexivity. Qed.
Lemma pto_period_ext base r r' : r_pto r = r_pto r' -> r_fast r = r_fast r' -> pto_period base r = pto_period base r'.
Proof. intros A B. unfold pto_period. rewrite A, B. reflexivity. Qed.

Lemma inv_last T last gone r sp x : INV T last gone r -> get_sp sp r = None -> INV T (upd last sp x) gone r.
Proof.
  intros (A & B) G. unfold INV. split; [|exact B]. intros sp'. specialize (A sp'). unfold upd.
  destruct (space_eqb sp' sp) eqn:Q; [|exact A]. apply space_eqb_eq in Q. subst. rewrite G in *. exact A.
Qed.
Lemma inv_time T T' last gone r : INV T last gone r -> T <= T' -> INV T' last gone r.
Proof.
  intros (A & B) H. split; [|exact B]. intros sp. specialize (A sp). destruct (get_sp sp r); [|exact A].
  split; [apply A|]. eapply sp_ok_mono; [exact H|apply A].
Qed.

(** ** Sending *)
Lemma sent_ok T last gone r prim t pn time ae tokens len probe :
  INV T last gone r -> T <= time -> match last (space_of t) with Some x => x < pn | None => True end ->
  exists r' out, lr_sent prim (pkt_new t pn time ae tokens len probe) r = Some (r', out) /\
    INV time (upd last (space_of t) (Some pn)) gone r' /\
    (forall sp, eff sp (tracked sp r) (tracked sp r') out) /\
    (forall sp, sp <> space_of t -> get_sp sp r' = get_sp sp r) /\
    match get_sp (space_of t) r with
    | Some s => let p := if prim then pkt_new t pn time ae tokens len probe else clear_primary (pkt_new t pn time ae tokens len probe) in
                tracked (space_of t) r' = tracked (space_of t) r ++ [p] /\ out = mkOut [] [] [] [] [CcSent p]
    | None => get_sp (space_of t) r' = None /\ out = no_out
    end.
Proof.
  intros H HT HL. unfold lr_sent. cbn [p_type pkt_new]. set (sp := space_of t) in *.
  set (r1 := match r_pto r with Some s => set_pto (Some (pto_sent sp s)) r | None => r end).
  assert (H1 : INV T last gone r1) by (unfold r1; destruct (r_pto r); [apply inv_pto|]; exact H).
  assert (Tr : forall s, tracked s r1 = tracked s r) by (intros s; unfold r1; destruct (r_pto r); [apply tracked_pto|reflexivity]).
  assert (Gr : forall s, get_sp s r1 = get_sp s r) by (intros s; unfold r1; destruct (r_pto r); [apply get_set_pto|reflexivity]).
  rewrite Gr. destruct (get_sp sp r) as [s|] eqn:E.
  - set (p := if prim then pkt_new t pn time ae tokens len probe else clear_primary (pkt_new t pn time ae tokens len probe)).
    assert (P1 : p_pn p = pn) by (unfold p; destruct prim; reflexivity).
    assert (P2 : p_time p = time) by (unfold p; destruct prim; reflexivity).
    assert (P3 : p_lost p = None) by (unfold p; destruct prim; reflexivity).
    assert (P4 : p_type p = t) by (unfold p; destruct prim; reflexivity).
    rewrite <- Gr in E. destruct (inv_get _ _ _ _ _ _ H1 E) as (Hg & Z & S & F & G & O & L).
    destruct (track_ok T (last sp) p (l_pkts s) S F) as (K1 & K2 & K3); [lia|rewrite P1; exact HL|exact P3|].
    unfold lsp_sent. rewrite K1. eexists. eexists. split; [reflexivity|].
    set (s' := mkLsp _ _ _ _ _ _ _).
    assert (K4 : of_space sp p = true) by (unfold of_space; rewrite P4; apply space_eqb_refl).
    assert (OK : sp_ok time (Some pn) sp s').
    { unfold sp_ok, s'. cbn [l_space l_largest l_largest_time l_last_ae l_out l_pkts l_ooo]. rewrite P1, P2 in K3. splits; try assumption.
      - apply Forall_app. split; [exact G|]. repeat constructor. exact K4.
      - rewrite count_ae_app, count_ae_cons. destruct (p_ae p); unfold count_ae at 2; cbn [filter]; unfold lenN at 1; cbn [length]; lia.
      - destruct (p_ae p); [discriminate|]. intros Q. specialize (L Q). destruct (negb (space_eqb (l_space s) SpApp) && _); [discriminate|exact L]. }
    splits.
    + rewrite <- (set_stats_same (set_sp sp (Some s') r1)), r_stats_set. eapply inv_set; [exact H1|exact HT|exact E| | | |].
      * unfold upd. rewrite space_eqb_refl. exact OK.
      * intros sp' Nq. unfold upd. destruct (space_eqb sp' sp) eqn:Q; [apply space_eqb_eq in Q; contradiction|reflexivity].
      * unfold s'. cbn [l_pkts]. rewrite nlost_app, nlost_cons. unfold is_lost at 1. rewrite P3. destruct H1 as (_ & _ & _ & D & _).
        unfold nlost at 3; cbn [filter]; unfold lenN at 1; cbn [length]. lia.
      * unfold s'. cbn [l_pkts]. rewrite blost_app, blost_cons. unfold is_lost at 1. rewrite P3. destruct H1 as (_ & _ & _ & _ & D).
        change (blost []) with 0. lia.
    + intros sp'. rewrite tracked_set. rewrite <- Tr. destruct (space_eqb sp' sp) eqn:Q.
      * apply space_eqb_eq in Q. subst sp'. rewrite (tracked_get _ _ _ E). apply eff_sent with (p := p); try assumption.
        -- unfold is_lost. rewrite P3. reflexivity.
        -- intros q Hq. rewrite Forall_forall in F. specialize (F q Hq). destruct F as (_ & _ & F). rewrite P1. destruct (last sp); [lia|contradiction].
        -- rewrite <- (tracked_get _ _ _ E). eapply inv_nodup; eauto.
        -- reflexivity.
      * assert (N1 : sp' <> sp) by (intros ->; rewrite space_eqb_refl in Q; discriminate).
        assert (N2 : pns sp' [p] = []) by (apply (pns_other sp sp'); [exact N1|repeat constructor; exact K4]).
        apply eff_id; try reflexivity; [eapply inv_nodup; eauto|exact N2].
    + intros sp' N1. rewrite get_set. destruct (space_eqb sp' sp) eqn:Q; [apply space_eqb_eq in Q; contradiction|apply Gr].
    + rewrite tracked_set, space_eqb_refl. rewrite <- Tr, (tracked_get _ _ _ E). reflexivity.
    + reflexivity.
  - exists r1, no_out. splits; try reflexivity.
    + apply inv_last; [eapply inv_time; eauto|rewrite Gr; exact E].
    + intros sp'. rewrite <- Tr. apply eff_id; try reflexivity. eapply inv_nodup; eauto.
    + intros sp' _. apply Gr.
    + rewrite Gr. exact E.
Qed.

(** ** Acknowledging *)
Definition new_largest (rs : list (N * N)) (l : list pkt) (la : option N) : option N :=
  match taken rs l with [] => la | p :: _ => if opt_lt (p_pn p) la then Some (p_pn p) else la end.
Lemma taken_facts T last sp rs s :
  sp_ok T last sp s ->
  sp_ok T last sp (with_pkts (untaken rs (l_pkts s)) (l_out s - count_ae (taken rs (l_pkts s))) s) /\
  count_ae (taken rs (l_pkts s)) <= l_out s.
Proof.
  intros (Z & S & F & G & O & L). pose proof (split_ranges_ae rs (l_pkts s)) as Hc.
  assert (E : count_ae (taken rs (l_pkts s)) = count_ae (filter (fun p => in_ranges rs (p_pn p)) (l_pkts s))) by (unfold taken; apply count_ae_rev).
  rewrite E. split; [|lia]. unfold sp_ok, with_pkts. cbn [l_space l_largest l_largest_time l_last_ae l_out l_pkts l_ooo]. unfold untaken. splits.
  - exact Z.
  - apply ss_filter. exact S.
  - apply Forall_filter. exact F.
  - apply Forall_filter. exact G.
  - lia.
  - intros H. apply L. lia.
Qed.
Lemma nlost_detect now ld cd la l :
  nlost (after_detect now ld cd la l) + nlost (filter (expired now cd) l) = nlost l + lenN (lost_detect now ld cd la l) /\
  blost (after_detect now ld cd la l) + blost (filter (expired now cd) l) = blost l + total_len (lost_detect now ld cd la l).
Proof.
  rewrite (nlost_split (expired now cd) l), (blost_split (expired now cd) l).
  unfold after_detect, lost_detect. set (Y := filter (fun p => negb (expired now cd p)) l).
  assert (A : nlost (map (markO now ld la) Y) = nlost Y + lenN (map (markO now ld la) (filter (fun p => shouldO now ld la p && negb (is_lost p)) Y)) /\
    blost (map (markO now ld la) Y) = blost Y + total_len (map (markO now ld la) (filter (fun p => shouldO now ld la p && negb (is_lost p)) Y))).
  { clearbody Y. induction Y as [|p Y [I1 I2]]; [split; reflexivity|]. cbn [map filter].
    rewrite !nlost_cons, !blost_cons, markO_is_lost, markO_len, I1, I2.
    destruct (shouldO now ld la p) eqn:Q, (is_lost p); cbn [andb orb negb map]; rewrite ?lenN_cons; try (split; lia).
    split; [lia|]. unfold total_len. cbn [fold_right]. rewrite markO_len. lia. }
  lia.
Qed.

Lemma opt_lt_cases a b : opt_lt a b = true \/ (opt_lt a b = false /\ exists x, b = Some x /\ a <= x).
Proof. destruct b as [x|]; cbn; [|auto]. destruct (N.ltb_spec x a); [auto|]. right. split; [reflexivity|]. exists x. split; [reflexivity|lia]. Qed.

Definition ack_sample (rs : list (N * N)) (delay now : N) (s : lsp) (confirmed : option N) : list ccev :=
  match taken rs (l_pkts s) with
  | [] => []
  | big :: _ =>
      if opt_lt (p_pn big) (l_largest s) && existsb p_ae (taken rs (l_pkts s)) && p_primary big && (p_time big <=? now)
      then [CcRtt (now - p_time big) delay (match confirmed with Some t => t <? p_time big | None => false end)] else []
  end.

Lemma ack_ok T last gone r sp rs delay now ld base :
  INV T last gone r -> T <= now -> ranges_ok None rs ->
  exists r' out, lr_ack sp rs delay now ld base r = Some (r', out) /\
    INV now last gone r' /\
    (forall sp', eff sp' (tracked sp' r) (tracked sp' r') out) /\
    (forall sp', sp' <> sp -> get_sp sp' r' = get_sp sp' r) /\
    match get_sp sp r with
    | None => r' = r /\ out = no_out
    | Some s =>
        let l := l_pkts s in
        let la := new_largest rs l (l_largest s) in
        let cd := pto_period base r in
        exists s', get_sp sp r' = Some s' /\ l_largest s' = la /\ l_last_ae s' = l_last_ae s /\
        match taken rs l with
        | [] => l_pkts s' = l /\ l_ooo s' = l_ooo s /\ out = no_out /\ r_pto r' = r_pto r
        | _ => l_pkts s' = after_detect now ld cd la (untaken rs l) /\ l_ooo s' = ooo_detect now ld cd la (untaken rs l) /\
               r_pto r' = None /\
               out = mkOut (taken rs l) (lost_detect now ld cd la (untaken rs l)) [] (filter (expired now cd) (untaken rs l))
                       (ack_sample rs delay now s (r_confirmed r) ++ [CcLost (l_largest_time s) (lost_detect now ld cd la (untaken rs l)); CcAcked (taken rs l)])
        end
    end.
Proof.
  intros H HT HR. unfold lr_ack. destruct (get_sp sp r) as [s|] eqn:E.
  2:{ exists r, no_out. splits; try reflexivity; [eapply inv_time; eauto|]. intros sp'. apply eff_id; try reflexivity. eapply inv_nodup; eauto. }
  destruct (inv_get _ _ _ _ _ _ H E) as (Hg & OK). pose proof OK as (Z & S & F & G & O & L).
  assert (TK : take_ranges rs (l_pkts s) = Some (untaken rs (l_pkts s), taken rs (l_pkts s))) by (apply take_ranges_from_ok; assumption).
  destruct (taken_facts T (last sp) sp rs s OK) as (OK1 & Hc).
  pose proof (split_ranges_n rs (l_pkts s)) as Hn.
  pose proof (split_ranges_b rs (l_pkts s)) as Hb.
  fold (untaken rs (l_pkts s)) in Hn, Hb.
  assert (En : nlost (taken rs (l_pkts s)) = nlost (filter (fun p => in_ranges rs (p_pn p)) (l_pkts s))) by (unfold taken; apply nlost_rev).
  assert (Eb : blost (taken rs (l_pkts s)) = blost (filter (fun p => in_ranges rs (p_pn p)) (l_pkts s))) by (unfold taken; apply blost_rev).
  rewrite <- En in Hn. rewrite <- Eb in Hb.
  pose proof H as (_ & _ & _ & D1 & D2).
  assert (T1 : nlost (l_pkts s) <= tot nlost r) by (eapply tot_ge; exact E).
  assert (T2 : blost (l_pkts s) <= tot blost r) by (eapply tot_ge; exact E).
  destruct (count_acked_ok (taken rs (l_pkts s)) (l_out s) (r_stats r)) as (st & CA & X1 & X2 & X3 & X4); [lia|lia|lia|].
  unfold remove_acked. rewrite TK, CA.
  set (s1 := with_pkts (untaken rs (l_pkts s)) (l_out s - count_ae (taken rs (l_pkts s))) s) in *.
  assert (I1 : INV T last gone (set_stats st (set_sp sp (Some s1) r))).
  { eapply inv_set; [exact H|apply N.le_refl|exact E|exact OK1|reflexivity| |]; unfold s1; cbn [l_pkts with_pkts]; lia. }
  assert (Gf : Forall (fun p => of_space sp p = true) (taken rs (l_pkts s))).
  { unfold taken. apply Forall_rev, Forall_filter. exact G. }
  destruct (taken rs (l_pkts s)) as [|big more] eqn:ET.
  - (* nothing new *)
    assert (EU : untaken rs (l_pkts s) = l_pkts s).
    { assert (filter (fun p => in_ranges rs (p_pn p)) (l_pkts s) = []) as Q.
      { unfold taken in ET. apply (f_equal (@rev _)) in ET. rewrite rev_involutive in ET. exact ET. }
      unfold untaken. apply filter_all. rewrite Forall_forall. intros p Hp. destruct (in_ranges rs (p_pn p)) eqn:Q2; [|reflexivity].
      exfalso. assert (In p []) as []. rewrite <- Q. apply filter_In. auto. }
    eexists. exists no_out. split; [reflexivity|]. splits.
    + eapply inv_time; eauto.
    + intros sp'. rewrite tracked_stats, tracked_set. destruct (space_eqb sp' sp) eqn:Q.
      * apply space_eqb_eq in Q. subst sp'. rewrite (tracked_get _ _ _ E). unfold s1. cbn [l_pkts with_pkts]. rewrite EU.
        apply eff_id; try reflexivity. apply ss_nodup. exact S.
      * apply eff_id; try reflexivity. eapply inv_nodup; eauto.
    + intros sp' Nq. rewrite get_set_stats, get_set. destruct (space_eqb sp' sp) eqn:Q; [apply space_eqb_eq in Q; contradiction|reflexivity].
    + exists s1. rewrite get_set_stats, get_set, space_eqb_refl. unfold new_largest. rewrite ET. splits; try reflexivity.
      * unfold s1. cbn [l_pkts with_pkts]. exact EU.
      * cbn. apply r_pto_set.
  - set (s2 := if opt_lt (p_pn big) (l_largest s1) then _ else s1).
    assert (NL : l_largest s2 = new_largest rs (l_pkts s) (l_largest s)).
    { unfold new_largest. rewrite ET. unfold s2. change (l_largest s1) with (l_largest s). destruct (opt_lt (p_pn big) (l_largest s)); reflexivity. }
    assert (P2 : l_pkts s2 = untaken rs (l_pkts s)) by (unfold s2; destruct (opt_lt (p_pn big) (l_largest s1)); reflexivity).
    assert (A2 : l_last_ae s2 = l_last_ae s) by (unfold s2; destruct (opt_lt (p_pn big) (l_largest s1)); reflexivity).
    assert (OK2 : sp_ok T (last sp) sp s2).
    { unfold s2. destruct (opt_lt (p_pn big) (l_largest s1)); exact OK1. }
    assert (PP : pto_period base (set_stats st (set_sp sp (Some s1) r)) = pto_period base r) by (apply pto_period_ext; [apply r_pto_set|apply r_fast_set]).
    rewrite PP. set (cd := pto_period base r).
    destruct (detect_lost_ok T (last sp) sp now ld cd s2 OK2 HT) as (s3 & DE & OK3 & Q1 & Q2 & Q3 & Q4 & Q5).
    rewrite DE, P2, NL in *. rewrite <- ET in *.
    set (la := new_largest rs (l_pkts s) (l_largest s)) in *. set (LD := lost_detect now ld cd la (untaken rs (l_pkts s))) in *.
    set (r' := set_pto None _).
    destruct (nlost_detect now ld cd la (untaken rs (l_pkts s))) as [Y1 Y2]. fold LD in Y1, Y2.
    eexists. eexists. split; [reflexivity|]. splits.
    + unfold r'. apply inv_pto.
      assert (E1 : get_sp sp (set_stats st (set_sp sp (Some s1) r)) = Some s1) by (rewrite get_set_stats, get_set, space_eqb_refl; reflexivity).
      eapply inv_set; [exact I1|exact HT|exact E1|exact OK3|reflexivity| |]; rewrite Q1, tot_stats.
      * pose proof (tot_set nlost sp s s1 r E). change (l_pkts s1) with (untaken rs (l_pkts s)) in *. cbn [count_lost st_lost]. lia.
      * pose proof (tot_set blost sp s s1 r E). change (l_pkts s1) with (untaken rs (l_pkts s)) in *. cbn [count_lost st_bytes_lost]. rewrite sum_len_total. lia.
    + assert (FL : Forall (fun p => of_space sp p = true) LD).
      { unfold LD, lost_detect. rewrite Forall_forall. intros p Hp. apply in_map_iff in Hp. destruct Hp as (q & <- & Hq). rewrite of_space_markO.
        rewrite Forall_forall in G. apply G. unfold untaken in Hq. rewrite !filter_In in Hq. tauto. }
      assert (FG : Forall (fun p => of_space sp p = true) (filter (expired now cd) (untaken rs (l_pkts s)))) by (unfold untaken; apply Forall_filter, Forall_filter; exact G).
      assert (FS : ev_sent (ack_sample rs delay now s (r_confirmed r) ++ [CcLost (l_largest_time s) LD; CcAcked (taken rs (l_pkts s))]) = []).
      { unfold ev_sent. rewrite flat_map_app. cbn. rewrite app_nil_r. unfold ack_sample. destruct (taken rs (l_pkts s)) as [|b ?]; [reflexivity|]. destruct (_ && (_ <=? _)); reflexivity. }
      intros sp'. unfold r'. rewrite tracked_pto, tracked_stats, tracked_set. destruct (space_eqb sp' sp) eqn:Q.
      * apply space_eqb_eq in Q. subst sp'. rewrite (tracked_get _ _ _ E). eapply (eff_detect sp rs now ld cd la); cbn [o_acked o_lost o_dropped o_gone o_cc].
        -- exact S.
        -- exact G.
        -- rewrite Q1. clear. generalize (after_detect now ld cd la (untaken rs (l_pkts s))). intros l. induction l; constructor; auto using same_core_refl.
        -- cbn [o_cc]. erewrite (f_equal (pns sp)); [|]. 2:{ instantiate (1 := []). revert FS. unfold ack_sample. rewrite ET. intros FS. exact FS. } reflexivity.
        -- apply pns_same. exact Gf.
        -- apply pns_same. exact FG.
        -- reflexivity.
        -- unfold LD. rewrite lost_detect_all. apply pns_same. exact FL.
      * assert (N1 : sp' <> sp) by (intros ->; rewrite space_eqb_refl in Q; discriminate).
        rewrite tracked_stats, tracked_set, Q. apply eff_id; try reflexivity; cbn [o_acked o_lost o_dropped o_gone o_cc].
        -- eapply inv_nodup; eauto.
        -- erewrite (f_equal (pns sp')); [|]. 2:{ instantiate (1 := []). revert FS. unfold ack_sample. rewrite ET. intros FS. exact FS. } reflexivity.
        -- apply (pns_other sp); assumption.
        -- apply (pns_other sp); assumption.
        -- unfold LD. rewrite lost_detect_all. apply (pns_other sp); assumption.
    + intros sp' Nq. unfold r'. rewrite get_set_pto, get_set_stats, get_set. destruct (space_eqb sp' sp) eqn:Q; [apply space_eqb_eq in Q; contradiction|].
      rewrite get_set_stats, get_set, Q. reflexivity.
    + exists s3. unfold r'. rewrite get_set_pto, get_set_stats, get_set, space_eqb_refl. rewrite ET. splits; try reflexivity.
      * exact Q3.
      * rewrite Q5. exact A2.
      * exact Q1.
      * exact Q2.
      * unfold ack_sample. rewrite ET. reflexivity.
Qed.
