(** Loss recovery: timeouts, discarding, and histories. *)
From Coq Require Import Sorted Permutation.
From Verif Require Import Base Lib FcModel LrModel LrSpec LrProofs LrProofs2 LrProofs3 LrProofs4.

Lemma lost_sp_all now ld cd o : filter is_lost (lost_sp now ld cd o) = lost_sp now ld cd o.
Proof. destruct o; cbn [lost_sp]; [apply lost_detect_all|reflexivity]. Qed.
Lemma lost_sp_space T last gone r sp now ld cd : INV T last gone r -> Forall (fun p => of_space sp p = true) (lost_sp now ld cd (get_sp sp r)).
Proof.
  intros H. destruct (inv_tracked _ _ _ _ sp H) as (_ & G & _). unfold tracked in G. destruct (get_sp sp r) as [s|]; cbn [lost_sp]; [|constructor].
  unfold lost_detect. rewrite Forall_forall in *. intros p Hp. apply in_map_iff in Hp. destruct Hp as (q & <- & Hq). rewrite of_space_markO.
  apply G. rewrite !filter_In in Hq. tauto.
Qed.
Lemma gone_sp_space T last gone r sp now cd : INV T last gone r -> Forall (fun p => of_space sp p = true) (gone_sp now cd (get_sp sp r)).
Proof.
  intros H. destruct (inv_tracked _ _ _ _ sp H) as (_ & G & _). unfold tracked in G. destruct (get_sp sp r) as [s|]; cbn [gone_sp]; [|constructor].
  apply Forall_filter. exact G.
Qed.
(** Of three lists, one for each space, only one has packets of a given space. *)
Lemma pns_three (f : space -> list pkt) sp :
  (forall s, Forall (fun p => of_space s p = true) (f s)) -> pns sp (f SpInitial ++ f SpHandshake ++ f SpApp) = map p_pn (f sp).
Proof.
  intros H. rewrite !pns_app.
  destruct sp.
  - rewrite (pns_same SpInitial _ (H SpInitial)), (pns_other SpHandshake SpInitial _ ltac:(discriminate) (H SpHandshake)), (pns_other SpApp SpInitial _ ltac:(discriminate) (H SpApp)), !app_nil_r. reflexivity.
  - rewrite (pns_other SpInitial SpHandshake _ ltac:(discriminate) (H SpInitial)), (pns_same SpHandshake _ (H SpHandshake)), (pns_other SpApp SpHandshake _ ltac:(discriminate) (H SpApp)), !app_nil_r. reflexivity.
  - rewrite (pns_other SpInitial SpApp _ ltac:(discriminate) (H SpInitial)), (pns_other SpHandshake SpApp _ ltac:(discriminate) (H SpHandshake)), (pns_same SpApp _ (H SpApp)). reflexivity.
Qed.

Definition detected_lists (now ld cd : N) (r : lr) : list pkt :=
  lost_sp now ld cd (r_i r) ++ lost_sp now ld cd (r_h r) ++ lost_sp now ld cd (r_a r).
Definition fires (base now : N) (r : lr) : bool := due base now SpInitial r || due base now SpHandshake r || due base now SpApp r.

Lemma due_ext base now sp r r' : r_pto r = r_pto r' -> r_fast r = r_fast r' ->
  (match get_sp sp r, get_sp sp r' with Some s, Some s' => pto_base_time s = pto_base_time s' | None, None => True | _, _ => False end) -> due base now sp r = due base now sp r'.
Proof.
  intros A B C. unfold due, pto_time. rewrite (pto_period_ext base _ _ A B). destruct (get_sp sp r), (get_sp sp r'); try contradiction; [|reflexivity].
  rewrite C. reflexivity.
Qed.

Lemma timeout_ok T last gone r now ld base mtu keys :
  INV T last gone r -> T <= now ->
  exists r' out rd t, lr_timeout now ld base mtu keys r = Some (r', out) /\
    INV now last gone r' /\ (forall sp, eff sp (tracked sp r) (tracked sp r') out) /\
    let cd := pto_period base r in
    (forall sp, detected now ld cd (last sp) sp (get_sp sp r) (get_sp sp rd)) /\
    r_pto rd = r_pto r /\ r_fast rd = r_fast r /\
    out = mkOut [] (detected_lists now ld cd r ++ t SpInitial ++ t SpHandshake ++ t SpApp) []
            (gone_sp now cd (r_i r) ++ gone_sp now cd (r_h r) ++ gone_sp now cd (r_a r))
            (cc_sp now ld cd (r_i r) ++ cc_sp now ld cd (r_h r) ++ cc_sp now ld cd (r_a r)) /\
    (forall sp, Forall2 same_core (tracked sp rd) (tracked sp r')) /\
    (forall sp, match get_sp sp rd, get_sp sp r' with Some s, Some s' => l_largest s' = l_largest s /\ l_ooo s' = l_ooo s | None, None => True | _, _ => False end) /\
    (if fires base now rd then
       exists rp, flagged (mkSet (due base now SpInitial rd || due base now SpHandshake rd) (due base now SpHandshake rd) (due base now SpApp rd)) (2 * mtu) rd rp t /\
         (forall sp, tracked sp r' = tracked sp rp) /\ (exists p, r_pto r' = Some p /\ pt_packets p = 2 /\ pt_count p = match r_pto r with Some q => pt_count q + 1 | None => 1 end)
     else (forall sp, t sp = []) /\ (forall sp, get_sp sp r' = get_sp sp rd) /\ r_pto r' = r_pto r).
Proof.
  intros H HT. set (cd := pto_period base r).
  destruct (timeout_detect_ok T last gone r now ld cd H HT) as (r1 & A1 & A2 & A3 & A4 & A5 & A6 & A7).
  unfold lr_timeout. fold cd.
  assert (E : forall (f : lr * lout -> option (lr * lout)),
     obind (timeout_space now ld cd SpInitial (r, no_out)) (fun x => obind (timeout_space now ld cd SpHandshake x) (fun x => obind (timeout_space now ld cd SpApp x) f))
     = obind (obind (timeout_space now ld cd SpInitial (r, no_out)) (fun x => obind (timeout_space now ld cd SpHandshake x) (fun x => timeout_space now ld cd SpApp x))) f).
  { intros f. destruct (timeout_space now ld cd SpInitial (r, no_out)) as [x|]; [|reflexivity]. cbn [obind]. destruct (timeout_space now ld cd SpHandshake x); reflexivity. }
  rewrite E, A1. cbn [obind o_lost o_gone o_cc]. clear E A1.
  fold (detected_lists now ld cd r) in *. set (DL := detected_lists now ld cd r) in *.
  set (rd := set_stats (count_lost DL (r_stats r1)) r1) in *.
  assert (FL : filter is_lost DL = DL) by (unfold DL, detected_lists; rewrite !filter_app, !lost_sp_all; reflexivity).
  assert (Trd : forall sp, tracked sp rd = match get_sp sp r with Some s => after_detect now ld cd (l_largest s) (l_pkts s) | None => [] end).
  { intros sp. unfold rd, tracked. rewrite get_set_stats. specialize (A3 sp). destruct (get_sp sp r), (get_sp sp r1); cbn [detected] in A3; try contradiction; [|reflexivity].
    destruct A3 as (_ & -> & _). reflexivity. }
  (* the effect, given what follows detection *)
  assert (EFF : forall b t, Forall2 same_core (tracked SpInitial rd) (tracked SpInitial b) -> Forall2 same_core (tracked SpHandshake rd) (tracked SpHandshake b) -> Forall2 same_core (tracked SpApp rd) (tracked SpApp b) ->
     Forall (fun p => is_lost p = false) t ->
     forall sp, eff sp (tracked sp r) (tracked sp b) (mkOut [] (DL ++ t) [] (gone_sp now cd (r_i r) ++ gone_sp now cd (r_h r) ++ gone_sp now cd (r_a r)) (cc_sp now ld cd (r_i r) ++ cc_sp now ld cd (r_h r) ++ cc_sp now ld cd (r_a r)))).
  { intros b t C1 C2 C3 Ft sp.
    assert (C : Forall2 same_core (tracked sp rd) (tracked sp b)) by (destruct sp; assumption). clear C1 C2 C3.
    destruct (inv_tracked _ _ _ _ sp H) as (S & G & _).
    assert (P1 : pns sp (filter is_lost (DL ++ t)) = map p_pn (lost_sp now ld cd (get_sp sp r))).
    { rewrite filter_app, FL, (filter_none _ t), app_nil_r by exact Ft. apply (pns_three (fun s => lost_sp now ld cd (get_sp s r))). intros s. eapply lost_sp_space; eauto. }
    assert (P2 : pns sp (gone_sp now cd (r_i r) ++ gone_sp now cd (r_h r) ++ gone_sp now cd (r_a r)) = map p_pn (gone_sp now cd (get_sp sp r))).
    { apply (pns_three (fun s => gone_sp now cd (get_sp s r))). intros s. eapply gone_sp_space; eauto. }
    assert (P3 : ev_sent (cc_sp now ld cd (r_i r) ++ cc_sp now ld cd (r_h r) ++ cc_sp now ld cd (r_a r)) = []).
    { destruct (r_i r), (r_h r), (r_a r); reflexivity. }
    rewrite Trd in C. unfold tracked in *. destruct (get_sp sp r) as [s|] eqn:Es.
    - apply (eff_detect sp [] now ld cd (l_largest s)); cbn [o_acked o_lost o_dropped o_gone o_cc]; rewrite ?untaken_nil, ?taken_nil, ?P3; try reflexivity; try assumption.
    - inv C. apply eff_id; cbn [o_acked o_lost o_dropped o_gone o_cc]; rewrite ?P3, ?P1, ?P2; try reflexivity. constructor. }
  unfold maybe_fire_pto. rewrite (fire_set_ok now last gone rd base now A2).
  destruct (fires base now rd) eqn:EF.
  - assert (exists sp, (if due base now SpInitial rd then Some SpInitial else if due base now SpHandshake rd then Some SpHandshake else if due base now SpApp rd then Some SpApp else None) = Some sp /\ due base now sp rd = true) as (fsp & Ef1 & Ef2).
    { unfold fires in EF. destruct (due base now SpInitial rd) eqn:D1; [exists SpInitial; auto|]. destruct (due base now SpHandshake rd) eqn:D2; [exists SpHandshake; auto|].
      destruct (due base now SpApp rd) eqn:D3; [exists SpApp; auto|discriminate]. }
    rewrite Ef1. set (retr := mkSet (due base now SpInitial rd || _) _ _).
    change (MAX_PTO_PACKET_COUNT * mtu) with (2 * mtu).
    destruct (pto_collect_ok (2 * mtu) retr rd) as (rp & t & P1 & P2 & P3 & P4 & P5 & P6).
    rewrite P1. destruct (flagged_core _ _ _ _ _ P2) as (K1 & K2 & K3).
    assert (I1 : INV now last gone rp) by (eapply inv_core; eauto).
    assert (AR : sp_in fsp (mkSet (armed base SpInitial rd) (armed base SpHandshake rd) (armed base SpApp rd)) = true).
    { unfold due in Ef2. unfold armed. destruct fsp; cbn [sp_in in_i in_h in_a]; destruct (pto_time base _ rd) as [[x|]|]; try discriminate; reflexivity. }
    unfold fire_pto. rewrite AR. set (np := match r_pto rp with Some s => _ | None => _ end).
    assert (I2 : INV now last gone (set_pto (Some np) rp)) by (apply inv_pto; exact I1).
    destruct (maybe_prime_ok now last gone now keys _ I2) as (M1 & M2 & M3 & M4).
    set (r' := match fsp with SpInitial => maybe_prime now keys (set_pto (Some np) rp) | _ => set_pto (Some np) rp end).
    assert (R1 : INV now last gone r') by (unfold r'; destruct fsp; assumption).
    assert (R2 : forall sp, tracked sp r' = tracked sp rp) by (intros sp; unfold r'; destruct fsp; rewrite ?M2; apply tracked_pto).
    assert (R3 : r_pto r' = Some np) by (unfold r'; destruct fsp; rewrite ?maybe_prime_pto; reflexivity).
    exists r', (mkOut [] (DL ++ t SpInitial ++ t SpHandshake ++ t SpApp) [] (gone_sp now cd (r_i r) ++ gone_sp now cd (r_h r) ++ gone_sp now cd (r_a r)) (cc_sp now ld cd (r_i r) ++ cc_sp now ld cd (r_h r) ++ cc_sp now ld cd (r_a r))), rd, t.
    splits.
    + cbn [obind]. reflexivity.
    + exact R1.
    + apply EFF; try (rewrite R2; apply K1). apply Forall_app. split; [apply K2|]. apply Forall_app. split; apply K2.
    + intros sp. unfold rd. rewrite get_set_stats. apply A3.
    + exact A4.
    + exact A5.
    + reflexivity.
    + intros sp. rewrite R2. apply K1.
    + intros sp. specialize (K3 sp). specialize (M4 sp). rewrite get_set_pto in M4.
      assert (Q : match get_sp sp rp, get_sp sp r' with Some s, Some s' => l_largest s' = l_largest s /\ l_ooo s' = l_ooo s | None, None => True | _, _ => False end).
      { unfold r'. destruct fsp; [exact M4| |]; rewrite get_set_pto; destruct (get_sp sp rp); auto. }
      destruct (get_sp sp rd), (get_sp sp rp), (get_sp sp r'); try contradiction; auto. destruct Q as [Q1 Q2]. rewrite Q1, Q2, K3. auto.
    + rewrite EF. exists rp. splits; [exact P2|exact R2|]. exists np. splits; [exact R3| |].
      * unfold np. destruct (r_pto rp); reflexivity.
      * unfold np. rewrite P3. change (r_pto rd) with (r_pto r1). rewrite A4. destruct (r_pto r); reflexivity.
  - assert (Ef1 : (if due base now SpInitial rd then Some SpInitial else if due base now SpHandshake rd then Some SpHandshake else if due base now SpApp rd then Some SpApp else None) = None).
    { unfold fires in EF. destruct (due base now SpInitial rd), (due base now SpHandshake rd), (due base now SpApp rd); try discriminate; reflexivity. }
    rewrite Ef1. exists rd, (mkOut [] (DL ++ [] ++ [] ++ []) [] (gone_sp now cd (r_i r) ++ gone_sp now cd (r_h r) ++ gone_sp now cd (r_a r)) (cc_sp now ld cd (r_i r) ++ cc_sp now ld cd (r_h r) ++ cc_sp now ld cd (r_a r))), rd, (fun _ => []).
    splits.
    + reflexivity.
    + exact A2.
    + apply EFF; try apply core_refl_list. constructor.
    + intros sp. unfold rd. rewrite get_set_stats. apply A3.
    + exact A4.
    + exact A5.
    + reflexivity.
    + intros sp. apply core_refl_list.
    + intros sp. destruct (get_sp sp rd); auto.
    + rewrite EF. splits; [reflexivity|reflexivity|exact A4].
Qed.

(** ** Dropping *)
Lemma drop0_ok T last gone r : INV T last gone r ->
  let '(r', out) := lr_drop_0rtt r in INV T last gone r' /\ (forall sp, eff sp (tracked sp r) (tracked sp r') out) /\
    (forall sp, sp <> SpApp -> get_sp sp r' = get_sp sp r) /\
    match r_a r with
    | Some s => match l_largest s with None => tracked SpApp r' = [] /\ o_dropped out = tracked SpApp r | Some _ => r' = r /\ out = no_out end
    | None => r' = r /\ out = no_out
    end.
Proof.
  intros H. unfold lr_drop_0rtt.
  assert (Same : forall sp, eff sp (tracked sp r) (tracked sp r) no_out) by (intros sp; apply eff_id; try reflexivity; eapply inv_nodup; eauto).
  destruct (r_a r) as [s|] eqn:E; [|splits; auto].
  destruct (l_largest s) eqn:EL; [splits; auto|]. cbn [remove_ignored].
  assert (E' : get_sp SpApp r = Some s) by exact E. pose proof H as (_ & _ & _ & D1 & D2). splits.
  - rewrite <- (set_stats_same (set_sp _ _ _)), r_stats_set.
    eapply inv_set; [exact H|apply N.le_refl|exact E'| |reflexivity| |]; cbn [with_pkts l_pkts].
    + destruct (inv_get _ _ _ _ _ _ H E') as (_ & Z & S & F & G & O & L). unfold sp_ok. cbn. splits; try constructor; try assumption. lia.
    + change (nlost []) with 0. lia.
    + change (blost []) with 0. lia.
  - intros sp. rewrite tracked_set. destruct (inv_tracked _ _ _ _ SpApp H) as (_ & G & _). rewrite (tracked_get _ _ _ E') in G.
    destruct (space_eqb sp SpApp) eqn:Q.
    + apply space_eqb_eq in Q. subst sp. rewrite (tracked_get _ _ _ E'). cbn [with_pkts l_pkts].
      apply eff_drop; cbn [o_acked o_lost o_dropped o_gone o_cc]; rewrite ?ev_sent_map_discard; try reflexivity. apply pns_same. exact G.
    + assert (N1 : sp <> SpApp) by (intros ->; rewrite space_eqb_refl in Q; discriminate).
      apply eff_id; cbn [o_acked o_lost o_dropped o_gone o_cc]; rewrite ?ev_sent_map_discard; try reflexivity; [eapply inv_nodup; eauto|].
      apply (pns_other SpApp); assumption.
  - intros sp Nq. rewrite get_set. destruct (space_eqb sp SpApp) eqn:Q; [apply space_eqb_eq in Q; contradiction|reflexivity].
  - reflexivity.
  - cbn. rewrite (tracked_get _ _ _ E'). reflexivity.
Qed.
Lemma empty_ok T last sp s : sp_ok T last sp s -> sp_ok T last sp (with_pkts [] 0 s).
Proof. intros (Z & S & F & G & O & L). unfold sp_ok. cbn. splits; try constructor; try assumption. lia. Qed.
Lemma retry_ok T last gone r : INV T last gone r ->
  let '(r', out) := lr_retry r in INV T last gone r' /\ (forall sp, eff sp (tracked sp r) (tracked sp r') out) /\ (forall sp, tracked sp r' = []) /\
    o_dropped out = tracked SpInitial r ++ tracked SpHandshake r ++ tracked SpApp r /\ o_cc out = map CcDiscard (o_dropped out).
Proof.
  intros H. unfold lr_retry.
  assert (Go : forall o, ignore_sp o = (option_map (with_pkts [] 0) o, match o with Some s => l_pkts s | None => [] end)) by (intros [s|]; reflexivity).
  rewrite !Go.
  change (match r_i r with Some s => l_pkts s | None => [] end) with (tracked SpInitial r).
  change (match r_h r with Some s => l_pkts s | None => [] end) with (tracked SpHandshake r).
  change (match r_a r with Some s => l_pkts s | None => [] end) with (tracked SpApp r).
  set (r' := mkLr _ _ _ _ _ _ _).
  assert (G : forall sp, get_sp sp r' = option_map (with_pkts [] 0) (get_sp sp r)) by (intros []; reflexivity).
  assert (Tn : forall sp, tracked sp r' = []) by (intros sp; unfold tracked; rewrite G; destruct (get_sp sp r); reflexivity).
  splits.
  - destruct H as (A & B & C & D & E). unfold INV. splits; try assumption.
    + intros sp. rewrite G. specialize (A sp). destruct (get_sp sp r) as [s|]; cbn [option_map]; [|exact A].
      destruct A as [A1 A2]. split; [exact A1|apply empty_ok; exact A2].
    + unfold tot. rewrite !Tn. apply N.le_0_l.
    + unfold tot. rewrite !Tn. apply N.le_0_l.
  - intros sp. rewrite Tn. apply eff_drop; cbn [o_acked o_lost o_dropped o_gone o_cc]; rewrite ?ev_sent_map_discard; try reflexivity.
    apply (pns_three (fun s => tracked s r)). intros s. apply (inv_tracked _ _ _ _ s H).
  - exact Tn.
  - reflexivity.
  - reflexivity.
Qed.
Lemma clear_core p : same_core p (clear_primary p).
Proof. unfold same_core. splits; reflexivity. Qed.
Lemma migrate_ok T last gone r : INV T last gone r ->
  INV T last gone (lr_migrate r) /\ (forall sp, eff sp (tracked sp r) (tracked sp (lr_migrate r)) no_out) /\
  (forall sp, tracked sp (lr_migrate r) = map clear_primary (tracked sp r)).
Proof.
  intros H.
  assert (G : forall sp, get_sp sp (lr_migrate r) = option_map lsp_migrate (get_sp sp r)) by (intros []; reflexivity).
  assert (Tm : forall sp, tracked sp (lr_migrate r) = map clear_primary (tracked sp r)) by (intros sp; unfold tracked; rewrite G; destruct (get_sp sp r); reflexivity).
  assert (K : forall sp, Forall2 same_core (tracked sp r) (tracked sp (lr_migrate r))).
  { intros sp. rewrite Tm. induction (tracked sp r); cbn; constructor; auto using clear_core. }
  splits; [|intros sp|exact Tm].
  - eapply inv_core; [exact H|exact K| |reflexivity|reflexivity].
    intros sp. rewrite G. destruct (get_sp sp r); cbn; auto.
  - apply eff_id; try reflexivity; [apply core_pn, K|apply core_lost, K|eapply inv_nodup; eauto].
Qed.

Lemma discard_ok T last gone r sp base now :
  INV T last gone r -> T <= now -> sp <> SpApp -> sp_in sp gone = false ->
  exists r' out, lr_discard sp base now r = Some (r', out) /\ INV now last (sp_add sp gone) r' /\
    (forall sp', eff sp' (tracked sp' r) (tracked sp' r') out) /\ get_sp sp r' = None /\ o_dropped out = tracked sp r /\
    o_cc out = map CcDiscard (tracked sp r) /\ (forall sp', sp' <> sp -> get_sp sp' r' = get_sp sp' r).
Proof.
  intros H HT NA HG. pose proof H as (A & B & C & D & E).
  assert (exists s, get_sp sp r = Some s) as (s & Es).
  { specialize (A sp). destruct (get_sp sp r) as [s|]; [exists s; reflexivity|]. congruence. }
  set (r1 := set_pto None (set_sp sp None r)). set (out := mkOut [] [] (l_pkts s) [] (map CcDiscard (l_pkts s))).
  assert (G1 : forall sp', get_sp sp' r1 = if space_eqb sp' sp then None else get_sp sp' r) by (intros sp'; unfold r1; rewrite get_set_pto, get_set; reflexivity).
  assert (T1 : forall sp', tracked sp' r1 = if space_eqb sp' sp then [] else tracked sp' r) by (intros sp'; unfold tracked; rewrite G1; destruct (space_eqb sp' sp); reflexivity).
  assert (Sp : forall sp', match get_sp sp' r1 with Some s => sp_in sp' (sp_add sp gone) = false /\ sp_ok now (last sp') sp' s | None => sp_in sp' (sp_add sp gone) = true end).
  { intros sp'. rewrite G1. specialize (A sp'). destruct (space_eqb sp' sp) eqn:Q.
    - apply space_eqb_eq in Q. subst. destruct sp; reflexivity.
    - replace (sp_in sp' (sp_add sp gone)) with (sp_in sp' gone) by (destruct sp', sp; try reflexivity; discriminate).
      destruct (get_sp sp' r); [|exact A]. destruct A as [A1 A2]. split; [exact A1|]. eapply sp_ok_mono; eauto. }
  assert (Tt : tot nlost r1 <= st_lost (r_stats r) /\ tot blost r1 <= st_bytes_lost (r_stats r)).
  { unfold tot in *. rewrite !T1. change (nlost []) with 0. change (blost []) with 0. destruct sp; cbn [space_eqb]; change (nlost []) with 0; change (blost []) with 0; lia. }
  assert (St1 : r_stats r1 = r_stats r) by (unfold r1; destruct sp; reflexivity).
  assert (Cf1 : r_confirmed r1 = r_confirmed r) by (unfold r1; destruct sp; reflexivity).
  destruct (inv_tracked _ _ _ _ sp H) as (_ & Fs & _). rewrite (tracked_get _ _ _ Es) in Fs.
  assert (EF : forall r2, (forall sp', tracked sp' r2 = tracked sp' r1) -> forall sp', eff sp' (tracked sp' r) (tracked sp' r2) out).
  { intros r2 T2 sp'. rewrite T2, T1. destruct (space_eqb sp' sp) eqn:Q.
    - apply space_eqb_eq in Q. subst sp'. rewrite (tracked_get _ _ _ Es). unfold out.
      apply eff_drop; cbn [o_acked o_lost o_dropped o_gone o_cc]; rewrite ?ev_sent_map_discard; try reflexivity. apply pns_same. exact Fs.
    - assert (N1 : sp' <> sp) by (intros ->; rewrite space_eqb_refl in Q; discriminate). unfold out.
      apply eff_id; cbn [o_acked o_lost o_dropped o_gone o_cc]; rewrite ?ev_sent_map_discard; try reflexivity; [eapply inv_nodup; eauto|].
      apply (pns_other sp); assumption. }
  assert (Fr : forall sp', sp' <> sp -> get_sp sp' r1 = get_sp sp' r).
  { intros sp' Nq. rewrite G1. destruct (space_eqb sp' sp) eqn:Q; [apply space_eqb_eq in Q; contradiction|reflexivity]. }
  assert (Gn : get_sp sp r1 = None) by (rewrite G1, space_eqb_refl; reflexivity).
  assert (TE : tracked sp r = l_pkts s) by (apply tracked_get; exact Es).
  destruct sp; [| |contradiction].
  - exists r1, out. unfold lr_discard. rewrite Es. splits; try assumption; try reflexivity.
    + unfold INV. splits; [exact Sp|exact B| |rewrite St1; apply Tt|rewrite St1; apply Tt]. rewrite Cf1. exact C.
    + apply EF. reflexivity.
    + rewrite TE. reflexivity.
    + rewrite TE. reflexivity.
  - assert (CN : r_confirmed r = None) by (apply C; exact HG).
    set (r2 := mkLr (Some now) (r_pto r1) (r_i r1) (r_h r1) (r_a r1) (r_stats r1) (r_fast r1)).
    assert (G2 : forall sp', get_sp sp' r2 = get_sp sp' r1) by (intros []; reflexivity).
    assert (I2 : INV now last (sp_add SpHandshake gone) r2).
    { unfold INV. splits; [intros sp'; rewrite G2; apply Sp|exact B|cbn; split; discriminate| |].
      - change (r_stats r2) with (r_stats r1). rewrite St1. change (tot nlost r2) with (tot nlost r1). apply Tt.
      - change (r_stats r2) with (r_stats r1). rewrite St1. change (tot blost r2) with (tot blost r1). apply Tt. }
    assert (LC : exists r3, lr_confirm base now r1 = Some r3 /\ (r3 = r2 \/ exists p, r3 = set_pto p r2)).
    { unfold lr_confirm. rewrite Cf1, CN. fold r2. pose proof (pto_time_ok _ _ _ _ base SpApp I2) as P.
      destruct (pto_time base SpApp r2) as [[t|]|]; [|eauto|contradiction]. destruct (t <? now); [|eauto].
      unfold fire_pto. cbn [sp_in sp_add in_a]. eauto. }
    destruct LC as (r3 & L1 & L2).
    assert (G3 : forall sp', get_sp sp' r3 = get_sp sp' r1).
    { intros sp'. destruct L2 as [->|(p & ->)]; [apply G2|]. rewrite get_set_pto. apply G2. }
    exists r3, out. unfold lr_discard. rewrite Es. fold r1. rewrite L1. splits; try reflexivity.
    + destruct L2 as [->|(p & ->)]; [exact I2|apply inv_pto; exact I2].
    + apply EF. intros sp'. unfold tracked. rewrite G3. reflexivity.
    + rewrite G3. exact Gn.
    + rewrite TE. reflexivity.
    + rewrite TE. reflexivity.
    + intros sp' Nq. rewrite G3. apply Fr. exact Nq.
Qed.
Lemma profile_ok T last gone r mtu avail paced rec : INV T last gone r -> ACK_ONLY_SIZE_LIMIT < mtu ->
  exists r' pf, send_profile mtu avail paced rec r = Some (r', pf) /\ INV T last gone r' /\ (forall sp, get_sp sp r' = get_sp sp r).
Proof.
  intros H HM. unfold send_profile, prof_pto. apply N.ltb_lt in HM. rewrite HM.
  set (rest := if mtu <? avail then _ else _).
  assert (R : exists pf, rest = Some (r, pf)).
  { unfold rest. destruct (mtu <? avail); [eauto|]. destruct rec; cbn [option_map]; eauto. }
  destruct R as (pf & R). destruct (r_pto r) as [p|]; [|exists r, pf; auto].
  destruct (0 <? pt_packets p); [|exists r, pf; auto].
  eexists. eexists. split; [reflexivity|]. split; [apply inv_pto; exact H|]. intros sp. apply get_set_pto.
Qed.
