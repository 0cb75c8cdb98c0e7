(** Loss recovery: histories. *)
From Coq Require Import Sorted Permutation.
From Verif Require Import Base Lib FcModel LrModel LrSpec LrProofs LrProofs2 LrProofs3 LrProofs4 LrProofs5.

(** ** The loss timer and the largest acknowledged packet *)
Definition timer_ok (s : lsp) : Prop :=
  forall p la, In p (l_pkts s) -> l_largest s = Some la -> p_pn p < la -> is_lost p = false -> exists t, l_ooo s = Some t /\ t <= p_time p.
Definition la_le (last : option N) (s : lsp) : Prop := match l_largest s with Some la => match last with Some x => la <= x | None => False end | None => True end.
Definition TI (last : space -> option N) (r : lr) : Prop := forall sp, match get_sp sp r with Some s => timer_ok s /\ la_le (last sp) s | None => True end.

Lemma ooo_detect_ok now ld cd la l s :
  StronglySorted before l -> l_pkts s = after_detect now ld cd la l -> l_ooo s = ooo_detect now ld cd la l -> l_largest s = la -> timer_ok s.
Proof.
  intros S E1 E2 E3. unfold timer_ok. rewrite E1, E2, E3. intros p x Hp -> Hx HL. unfold after_detect in Hp. apply in_map_iff in Hp.
  destruct Hp as (q & <- & Hq). rewrite markO_is_lost in HL. apply orb_false_iff in HL. destruct HL as [H1 H2]. rewrite markO_pn in Hx.
  unfold ooo_detect. set (Y := filter (fun p => negb (expired now cd p)) l) in *.
  assert (SY : StronglySorted before Y) by (apply ss_filter; exact S).
  set (f := fun p : pkt => (p_pn p <? x) && negb (shouldO now ld (Some x) p)).
  assert (Hf : In q (filter f Y)). { apply filter_In. split; [exact Hq|]. unfold f. apply N.ltb_lt in Hx. rewrite Hx, H1. reflexivity. }
  assert (SF : StronglySorted before (filter f Y)) by (apply ss_filter; exact SY).
  replace (p_time (markO now ld (Some x) q)) with (p_time q) by (symmetry; apply mark_time).
  change (fun p : pkt => (p_pn p <? x) && negb (shouldO now ld (Some x) p)) with f.
  destruct (filter f Y) as [|h t]; [contradiction|]. exists (p_time h). split; [reflexivity|].
  destruct Hf as [->|Hf]; [lia|]. inv SF. rewrite Forall_forall in H4. destruct (H4 _ Hf) as (_ & A & _). exact A.
Qed.
Lemma timer_core s s' : timer_ok s -> Forall2 same_core (l_pkts s) (l_pkts s') -> l_largest s' = l_largest s -> l_ooo s' = l_ooo s -> timer_ok s'.
Proof.
  intros H C E1 E2. unfold timer_ok. rewrite E1, E2. intros p la Hp EL Hx HL.
  assert (exists q, In q (l_pkts s) /\ same_core q p) as (q & Q1 & (_ & Q2 & _ & Q3 & Q4 & _)).
  { clear -C Hp. revert Hp. induction C as [|x y l l' K C IH]; cbn; [tauto|]. intros [->|G]; [exists x; auto|]. destruct (IH G) as (q & ? & ?). exists q; auto. }
  rewrite <- Q3. eapply (H q la); eauto; [rewrite Q2; exact Hx|]. unfold is_lost in *. rewrite Q4. exact HL.
Qed.

Lemma le_dec (a b : N) : {a <= b} + {~ a <= b}.
Proof. destruct (a <=? b) eqn:E; [left; apply N.leb_le|right; apply N.leb_gt in E]; lia. Qed.
Lemma new_largest_cases rs l la :
  (new_largest rs l la = la /\ (taken rs l = [] \/ exists p x, In p (taken rs l) /\ la = Some x /\ p_pn p <= x /\ forall q, In q (taken rs l) -> p_pn q <= p_pn p)) \/
  (exists p, In p (taken rs l) /\ new_largest rs l la = Some (p_pn p) /\ (forall x, la = Some x -> x < p_pn p) /\ (StronglySorted before l -> forall q, In q (taken rs l) -> p_pn q <= p_pn p)) \/ ~ StronglySorted before l.
Proof.
  destruct (taken rs l) as [|b m] eqn:E.
  - left. unfold new_largest. rewrite E. auto.
  - assert (M : StronglySorted before l -> forall q, In q (b :: m) -> p_pn q <= p_pn b).
    { intros S q Hq. rewrite <- E in Hq. unfold taken in *. apply in_rev in Hq.
      assert (SF : StronglySorted before (filter (fun p => in_ranges rs (p_pn p)) l)) by (apply ss_filter; exact S).
      apply (f_equal (@rev _)) in E. rewrite rev_involutive in E. cbn [rev] in E. rewrite E in *.
      apply in_app_iff in Hq. destruct Hq as [Hq|[->|[]]]; [|lia].
      clear -SF Hq. induction (rev m) as [|x k IH]; [contradiction|]. cbn in SF. inv SF. destruct Hq as [->|Hq].
      - rewrite Forall_forall in H2. specialize (H2 b). destruct H2 as (A & _); [apply in_app_iff; right; left; reflexivity|]. lia.
      - apply IH; assumption. }
    unfold new_largest. rewrite E. destruct (opt_lt_cases (p_pn b) la) as [H|(H & x & -> & Hx)]; rewrite H.
    + right. left. exists b. splits; [left; reflexivity|reflexivity| |exact M]. intros x ->. cbn in H. apply N.ltb_lt in H. exact H.
    + destruct (Forall_dec (fun q => p_pn q <= p_pn b) (fun q => le_dec (p_pn q) (p_pn b)) (b :: m)) as [F|F].
      * left. split; [reflexivity|]. right. exists b, x. splits; [left; reflexivity|reflexivity|exact Hx|]. rewrite Forall_forall in F. exact F.
      * right. right. intros S. apply F. rewrite Forall_forall. apply M. exact S.
Qed.

(** ** One step *)
Definition acked_max (sp : space) (a b : option N) (out : lout) : Prop :=
  b = a /\ pns sp (o_acked out) = [] \/
  exists la, b = Some la /\ (forall n, In n (pns sp (o_acked out)) -> n <= la) /\ (forall x, a = Some x -> x <= la) /\ (a = Some la \/ In la (pns sp (o_acked out))).
Definition sent_ok_in (last last' : option N) (l : list N) : Prop :=
  l = [] /\ (last' = last \/ (exists x, last' = Some x /\ match last with Some y => y <= x | None => True end)) \/
  exists n, l = [n] /\ last' = Some n /\ match last with Some x => x < n | None => True end.

Lemma step_ok T last gone r o ops :
  INV T last gone r -> TI last r -> uses T last gone (o :: ops) ->
  exists r' out T' last' gone', lr_step r o = Some (r', out) /\ INV T' last' gone' r' /\ TI last' r' /\ uses T' last' gone' ops /\
    (forall sp, eff sp (tracked sp r) (tracked sp r') out) /\
    (forall sp, sent_ok_in (last sp) (last' sp) (pns sp (ev_sent (o_cc out)))) /\
    (forall sp, match get_sp sp r, get_sp sp r' with
                | Some s, Some s' => acked_max sp (l_largest s) (l_largest s') out
                | _, None => pns sp (o_acked out) = []
                | None, Some _ => False end).
Proof.
  intros H HI U.
  assert (Stay : forall sp, sent_ok_in (last sp) (last sp) []) by (intros sp; left; auto).
  destruct o as [prim t pn time ae tokens len probe|sp rs delay now ld base|now ld base mtu keys| | | |sp base now|mtu avail paced rec]; cbn [uses] in U; cbn [lr_step].
  - destruct U as (U1 & U2 & U3).
    destruct (sent_ok T last gone r prim t pn time ae tokens len probe H U1 U2) as (r' & out & E1 & E2 & E3 & E4 & E5).
    set (p := if prim then pkt_new t pn time ae tokens len probe else clear_primary (pkt_new t pn time ae tokens len probe)) in *.
    assert (Pp : of_space (space_of t) p = true) by (unfold of_space, p; destruct prim; apply space_eqb_refl).
    assert (Ppn : p_pn p = pn) by (unfold p; destruct prim; reflexivity).
    assert (Ao : forall sp, pns sp (o_acked out) = []).
    { intros sp. destruct (get_sp (space_of t) r); destruct E5 as [_ E5]; cbn zeta in E5; rewrite E5; reflexivity. }
    assert (LG : forall sp, match get_sp sp r, get_sp sp r' with Some s, Some s' => l_largest s' = l_largest s /\ l_ooo s' = l_ooo s | None, None => True | _, _ => False end).
    { unfold lr_sent in E1. cbn [p_type pkt_new] in E1. set (r1 := match r_pto r with Some _ => _ | None => r end) in E1.
      assert (Gr : forall s, get_sp s r1 = get_sp s r) by (intros s; unfold r1; destruct (r_pto r); [apply get_set_pto|reflexivity]).
      rewrite Gr in E1. destruct (get_sp (space_of t) r) as [s|] eqn:Es.
      - unfold lsp_sent in E1. destruct (track _ (l_pkts s)); [|discriminate]. apply some_inj in E1. apply (f_equal fst) in E1. cbn [fst] in E1. subst r'.
        intros sp. rewrite get_set. destruct (space_eqb sp (space_of t)) eqn:Q; [apply space_eqb_eq in Q; subst sp; rewrite Es; cbn; auto|]. rewrite Gr. destruct (get_sp sp r); auto.
      - apply some_inj in E1. apply (f_equal fst) in E1. cbn [fst] in E1. subst r'. intros sp. rewrite Gr. destruct (get_sp sp r); auto. }
    exists r', out, time, (upd last (space_of t) (Some pn)), gone. splits; try assumption.
    + intros sp. specialize (HI sp). specialize (LG sp). destruct (get_sp sp r) as [s|] eqn:Es, (get_sp sp r') as [s'|] eqn:Es'; try contradiction; [|exact Logic.I].
      destruct HI as [HI1 HI2]. destruct LG as [L1 L2]. unfold upd.
      destruct (space_eqb sp (space_of t)) eqn:Q.
      * apply space_eqb_eq in Q. subst sp. rewrite Es in E5. destruct E5 as [E5 _]. rewrite (tracked_get _ _ _ Es), (tracked_get _ _ _ Es') in E5.
        split.
        -- unfold timer_ok. rewrite E5, L1, L2. intros q la Hq Hla Hlt Hlost. apply in_app_iff in Hq. destruct Hq as [Hq|[<-|[]]].
           ++ eapply HI1; eauto.
           ++ unfold la_le in HI2. rewrite Hla in HI2. rewrite Ppn in Hlt. destruct (last (space_of t)); [lia|contradiction].
        -- unfold la_le in *. rewrite L1. destruct (l_largest s); [|exact Logic.I]. destruct (last (space_of t)); [lia|contradiction].
      * assert (N1 : sp <> space_of t) by (intros ->; rewrite space_eqb_refl in Q; discriminate).
        specialize (E4 sp N1). assert (s' = s) by congruence. subst s'. auto.
    + intros sp. unfold upd. destruct (get_sp (space_of t) r) as [s|] eqn:Es; destruct E5 as [E5 E6]; cbn zeta in E6; rewrite E6; cbn [no_out o_cc ev_sent flat_map app].
      * destruct (space_eqb sp (space_of t)) eqn:Q.
        -- apply space_eqb_eq in Q. subst sp. right. exists pn. rewrite (pns_same (space_of t)) by (repeat constructor; exact Pp). cbn. rewrite Ppn. splits; try reflexivity. exact U2.
        -- left. split; [|auto]. apply (pns_other (space_of t)); [intros ->; rewrite space_eqb_refl in Q; discriminate|repeat constructor; exact Pp].
      * left. split; [reflexivity|]. destruct (space_eqb sp (space_of t)) eqn:Q; [|auto]. apply space_eqb_eq in Q. subst sp. right. exists pn. split; [reflexivity|]. destruct (last (space_of t)); [lia|exact Logic.I].
    + intros sp. specialize (LG sp). destruct (get_sp sp r), (get_sp sp r'); try contradiction; [|apply Ao]. left. split; [apply LG|apply Ao].
  - destruct U as (U1 & U2 & U3).
    destruct (ack_ok T last gone r sp rs delay now ld base H U1 U2) as (r' & out & E1 & E2 & E3 & E4 & E5).
    exists r', out, now, last, gone.
    destruct (get_sp sp r) as [s|] eqn:Es.
    2:{ destruct E5 as [-> ->]. splits; try assumption. intros sp'. destruct (get_sp sp' r); [left; auto|reflexivity]. }
    cbn zeta in E5. destruct E5 as (s' & G1 & G2 & G3 & G4).
    destruct (inv_get _ _ _ _ _ _ H Es) as (_ & OK). pose proof OK as (_ & S & Fp & Fs & _). pose proof (HI sp) as HIs. rewrite Es in HIs. destruct HIs as [HI1 HI2].
    assert (Gf : Forall (fun p => of_space sp p = true) (taken rs (l_pkts s))) by (unfold taken; apply Forall_rev, Forall_filter; exact Fs).
    assert (AK : o_acked out = taken rs (l_pkts s)).
    { destruct (taken rs (l_pkts s)); [destruct G4 as (_ & _ & -> & _); reflexivity|destruct G4 as (_ & _ & _ & ->); reflexivity]. }
    assert (NS : ev_sent (o_cc out) = []).
    { destruct (taken rs (l_pkts s)) eqn:ET; [destruct G4 as (_ & _ & -> & _); reflexivity|destruct G4 as (_ & _ & _ & ->)].
      cbn [o_cc]. unfold ev_sent. rewrite flat_map_app. cbn. rewrite app_nil_r. unfold ack_sample. rewrite ET. destruct (_ && (_ <=? _)); reflexivity. }
    assert (LE : la_le (last sp) s').
    { unfold la_le in *. rewrite G2. destruct (new_largest_cases rs (l_pkts s) (l_largest s)) as [(X & _)|[(p & X1 & X2 & _)|X]]; [rewrite X; exact HI2| |contradiction].
      rewrite X2. assert (In p (l_pkts s)) as Hp. { unfold taken in X1. apply in_rev in X1. apply filter_In in X1. tauto. }
      rewrite Forall_forall in Fp. destruct (Fp p Hp) as (_ & _ & Z). exact Z. }
    assert (TM : timer_ok s').
    { destruct (taken rs (l_pkts s)) eqn:ET.
      - destruct G4 as (Q1 & Q2 & _). eapply timer_core; [exact HI1|rewrite Q1; apply core_refl_list| |exact Q2].
        rewrite G2. unfold new_largest. rewrite ET. reflexivity.
      - destruct G4 as (Q1 & Q2 & _). eapply (ooo_detect_ok now ld); [|exact Q1|exact Q2|exact G2]. unfold untaken. apply ss_filter. exact S. }
    splits; try assumption.
    + intros sp'. destruct (space_eqb sp' sp) eqn:Q.
      * apply space_eqb_eq in Q. subst. rewrite G1. auto.
      * rewrite E4; [apply HI|]. intros ->. rewrite space_eqb_refl in Q. discriminate.
    + intros sp'. rewrite NS. apply Stay.
    + intros sp'. rewrite AK. destruct (space_eqb sp' sp) eqn:Q.
      * apply space_eqb_eq in Q. subst. rewrite Es, G1. unfold acked_max. rewrite AK, (pns_same sp) by exact Gf. rewrite G2.
        destruct (new_largest_cases rs (l_pkts s) (l_largest s)) as [(X & X')|[(p & X1 & X2 & X3 & X4)|X]]; [| |contradiction].
        -- rewrite X. destruct X' as [X'|(p & x & X1 & X2 & X3 & X4)]; [left; rewrite X'; auto|].
           right. exists x. splits; [exact X2| | |left; exact X2].
           ++ intros n Hn. apply in_map_iff in Hn. destruct Hn as (q & <- & Hq). specialize (X4 q Hq). lia.
           ++ intros y Hy. assert (x = y) by congruence. lia.
        -- right. exists (p_pn p). splits; [exact X2| | |right; apply in_map; exact X1].
           ++ intros n Hn. apply in_map_iff in Hn. destruct Hn as (q & <- & Hq). apply X4; assumption.
           ++ intros x Hx. specialize (X3 x Hx). lia.
      * assert (N1 : sp' <> sp) by (intros ->; rewrite space_eqb_refl in Q; discriminate).
        rewrite E4 by exact N1. assert (Pn : pns sp' (taken rs (l_pkts s)) = []) by (apply (pns_other sp); assumption).
        destruct (get_sp sp' r); [left; rewrite AK; auto|exact Pn].
  - destruct U as (U1 & U2).
    destruct (timeout_ok T last gone r now ld base mtu keys H U1) as (r' & out & rd & t & E1 & E2 & E3 & E4 & E5 & E6 & E7 & E8 & E9 & _).
    exists r', out, now, last, gone.
    assert (NS : ev_sent (o_cc out) = []) by (rewrite E7; cbn [o_cc]; destruct (r_i r), (r_h r), (r_a r); reflexivity).
    splits; try assumption.
    + intros sp. specialize (HI sp). specialize (E4 sp). specialize (E8 sp). specialize (E9 sp). unfold tracked in E8.
      destruct (inv_tracked _ _ _ _ sp H) as (S & _). unfold tracked in S.
      destruct (get_sp sp r) as [s|]; destruct (get_sp sp rd) as [s1|]; destruct (get_sp sp r') as [s'|]; try contradiction; try exact Logic.I.
      destruct E4 as (_ & Q1 & Q2 & Q3 & _). destruct E9 as [Q4 Q5]. destruct HI as [HI1 HI2]. split.
      * eapply timer_core; [|exact E8|exact Q4|exact Q5]. eapply (ooo_detect_ok now ld); [exact S|exact Q1|exact Q2|exact Q3].
      * unfold la_le in *. rewrite Q4, Q3. exact HI2.
    + intros sp. rewrite NS. apply Stay.
    + intros sp. specialize (E4 sp). specialize (E9 sp). assert (A0 : o_acked out = []) by (rewrite E7; reflexivity). rewrite A0.
      destruct (get_sp sp r) as [s|]; destruct (get_sp sp rd) as [s1|]; destruct (get_sp sp r') as [s'|]; try contradiction; try reflexivity.
      left. rewrite A0. destruct E4 as (_ & _ & _ & Q3 & _). destruct E9 as [Q4 _]. split; [congruence|reflexivity].
  - pose proof (drop0_ok T last gone r H) as D. pose proof (fun sp => HI sp) as HI'. destruct (lr_drop_0rtt r) as [r' out] eqn:ED. destruct D as (D1 & D2 & D3 & D4).
    exists r', out, T, last, gone.
    assert (AO : o_acked out = [] /\ ev_sent (o_cc out) = []).
    { unfold lr_drop_0rtt in ED. destruct (r_a r) as [s|]; [|inv ED; auto]. destruct (l_largest s); [inv ED; auto|]. cbn in ED. inv ED. cbn. rewrite ev_sent_map_discard. auto. }
    destruct AO as [AO1 AO2].
    assert (GA : match get_sp SpApp r, get_sp SpApp r' with Some s, Some s' => l_largest s' = l_largest s /\ (s' = s \/ l_pkts s' = []) | None, None => True | _, _ => False end).
    { unfold lr_drop_0rtt in ED. cbn [get_sp]. destruct (r_a r) as [s|] eqn:Es; [|inv ED; rewrite Es; auto].
      destruct (l_largest s) eqn:EL; [inv ED; rewrite Es; auto|]. cbn in ED. inv ED. cbn. auto. }
    splits; try assumption; try reflexivity.
    + intros sp. destruct (space_eqb sp SpApp) eqn:Q.
      * apply space_eqb_eq in Q. subst. specialize (HI SpApp). destruct (get_sp SpApp r), (get_sp SpApp r'); try contradiction; [|exact Logic.I].
        destruct GA as [Q1 [->|Q2]]; [exact HI|]. split; [unfold timer_ok; rewrite Q2; intros ? ? []|unfold la_le in *; rewrite Q1; apply HI].
      * rewrite D3; [apply HI|]. intros ->. discriminate.
    + intros sp. rewrite AO2. apply Stay.
    + intros sp. rewrite AO1. destruct (space_eqb sp SpApp) eqn:Q.
      * apply space_eqb_eq in Q. subst. destruct (get_sp SpApp r), (get_sp SpApp r'); try contradiction; [|reflexivity]. left. rewrite AO1. split; [apply GA|reflexivity].
      * rewrite D3; [|intros ->; discriminate]. destruct (get_sp sp r); [left; rewrite AO1; auto|reflexivity].
  - pose proof (retry_ok T last gone r H) as D. destruct (lr_retry r) as [r' out] eqn:ED. destruct D as (D1 & D2 & D3 & D4 & D5).
    assert (AO : o_acked out = [] /\ ev_sent (o_cc out) = []).
    { split; [|rewrite D5; apply ev_sent_map_discard]. unfold lr_retry in ED. destruct (ignore_sp (r_i r)), (ignore_sp (r_h r)), (ignore_sp (r_a r)). inv ED. reflexivity. }
    destruct AO as [AO1 AO2].
    assert (GA : forall sp, get_sp sp r' = option_map (with_pkts [] 0) (get_sp sp r)).
    { unfold lr_retry in ED. destruct r as [c p i h a st f]. destruct i, h, a; cbn in ED; inv ED; intros []; reflexivity. }
    exists r', out, T, last, gone. splits; try assumption; try reflexivity.
    + intros sp. rewrite GA. specialize (HI sp). destruct (get_sp sp r) as [s|]; cbn; [|exact Logic.I]. split; [intros ? ? []|apply HI].
    + intros sp. rewrite AO2. apply Stay.
    + intros sp. rewrite GA, AO1. destruct (get_sp sp r); cbn; [left; rewrite AO1; auto|reflexivity].
  - destruct (migrate_ok T last gone r H) as (D1 & D2 & D3).
    assert (GA : forall sp, get_sp sp (lr_migrate r) = option_map lsp_migrate (get_sp sp r)) by (intros []; reflexivity).
    exists (lr_migrate r), no_out, T, last, gone. splits; try assumption; try reflexivity.
    + intros sp. specialize (HI sp). specialize (D3 sp). unfold tracked in D3. rewrite GA in *. destruct (get_sp sp r) as [s|]; cbn [option_map] in *; [|exact Logic.I].
      destruct HI as [HI1 HI2]. split; [|exact HI2]. eapply timer_core; [exact HI1| |reflexivity|reflexivity]. cbn. clear. induction (l_pkts s); constructor; auto using clear_core.
    + intros sp. rewrite GA. destruct (get_sp sp r); cbn; [left; auto|reflexivity].
  - destruct U as (U1 & U2 & U3 & U4).
    destruct (discard_ok T last gone r sp base now H U1 U2 U3) as (r' & out & E1 & E2 & E3 & E4 & E5 & E6 & E7).
    exists r', out, now, last, (sp_add sp gone).
    assert (A0 : o_acked out = []).
    { unfold lr_discard in E1. destruct sp; [| |contradiction]; destruct (get_sp _ r); try discriminate; [inv E1; reflexivity|]. destruct (lr_confirm base now _); [|discriminate]. inv E1. reflexivity. }
    splits; try assumption.
    + intros sp'. destruct (space_eqb sp' sp) eqn:Q.
      * apply space_eqb_eq in Q. subst. rewrite E4. exact Logic.I.
      * rewrite E7; [apply HI|]. intros ->. rewrite space_eqb_refl in Q. discriminate.
    + intros sp'. rewrite E6, ev_sent_map_discard. apply Stay.
    + intros sp'. rewrite A0. destruct (space_eqb sp' sp) eqn:Q.
      * apply space_eqb_eq in Q. subst. rewrite E4. destruct (get_sp sp r); reflexivity.
      * rewrite E7; [|intros ->; rewrite space_eqb_refl in Q; discriminate]. destruct (get_sp sp' r); [left; rewrite A0; auto|reflexivity].
  - destruct U as (U1 & U2). destruct (profile_ok T last gone r mtu avail paced rec H U1) as (r' & pf & E1 & E2 & E3).
    rewrite E1. exists r', no_out, T, last, gone. splits; try assumption; try reflexivity.
    + intros sp. rewrite E3. apply HI.
    + intros sp. unfold tracked. rewrite E3. apply eff_id; try reflexivity. exact (inv_nodup _ _ _ _ sp H).
    + intros sp. rewrite E3. destruct (get_sp sp r); [left; auto|reflexivity].
Qed.

(** ** Histories *)
Definition HI (last : space -> option N) (h : hist) (r : lr) : Prop := forall sp,
  Permutation (sent_of sp h) (acked_of sp h ++ forgotten_of sp h ++ dropped_of sp h ++ map p_pn (tracked sp r)) /\
  NoDup (sent_of sp h) /\ (forall n, In n (sent_of sp h) -> match last sp with Some x => n <= x | None => False end) /\
  NoDup (lost_of sp h) /\ (forall n, In n (lost_of sp h) -> In n (sent_of sp h)) /\
  (forall p, In p (tracked sp r) -> (is_lost p = true <-> In (p_pn p) (lost_of sp h))) /\
  (forall n, In n (forgotten_of sp h) -> In n (lost_of sp h)) /\
  match get_sp sp r with
  | Some s => match l_largest s with Some la => In la (acked_of sp h) /\ (forall n, In n (acked_of sp h) -> n <= la) | None => acked_of sp h = [] end
  | None => True
  end.
Lemma over_snoc f h o out : over f (h ++ [(o, out)]) = over f h ++ f out.
Proof. unfold over. rewrite flat_map_app. cbn. rewrite app_nil_r. reflexivity. Qed.
Lemma NoDup_app_intro {A} (a b : list A) : NoDup a -> NoDup b -> (forall x, In x a -> In x b -> False) -> NoDup (a ++ b).
Proof.
  induction a as [|x a IH]; cbn; intros Na Nb D; [exact Nb|]. inv Na. constructor.
  - rewrite in_app_iff. intros [G|G]; [contradiction|eapply D; eauto].
  - apply IH; try assumption. intros y H H'. eapply D; eauto.
Qed.
Lemma hist_step last last' h r r' o out :
  HI last h r -> (forall sp, eff sp (tracked sp r) (tracked sp r') out) ->
  (forall sp, sent_ok_in (last sp) (last' sp) (pns sp (ev_sent (o_cc out)))) ->
  (forall sp, match get_sp sp r, get_sp sp r' with
                | Some s, Some s' => acked_max sp (l_largest s) (l_largest s') out
                | _, None => pns sp (o_acked out) = []
                | None, Some _ => False end) ->
  (forall sp, NoDup (map p_pn (tracked sp r))) ->
  HI last' (h ++ [(o, out)]) r'.
Proof.
  intros H E S M ND sp. destruct (H sp) as (P & N1 & L & N2 & L2 & LT & FG & LA). destruct (E sp) as (E1 & E2 & E3 & E4 & E5 & E6).
  specialize (S sp). specialize (M sp). specialize (ND sp).
  unfold sent_of, acked_of, lost_of, dropped_of, forgotten_of in *. rewrite !over_snoc.
  set (se := over (fun o => pns sp (ev_sent (o_cc o))) h) in *. set (ac := over (fun o => pns sp (o_acked o)) h) in *.
  set (lo := over (fun o => pns sp (filter is_lost (o_lost o))) h) in *. set (dr := over (fun o => pns sp (o_dropped o)) h) in *. set (fo := over (fun o => pns sp (o_gone o)) h) in *.
  cbn beta in *.
  assert (Tse : forall p, In p (tracked sp r) -> In (p_pn p) se).
  { intros p Hp. eapply Permutation_in; [apply Permutation_sym; exact P|]. rewrite !in_app_iff. right. right. right. apply in_map. exact Hp. }
  assert (NS : forall n, In n (pns sp (ev_sent (o_cc out))) -> ~ In n se).
  { intros n Hn Hs. destruct S as [[S _]|(x & S & _ & S2)]; [rewrite S in Hn; contradiction|]. rewrite S in Hn. destruct Hn as [<-|[]].
    specialize (L _ Hs). destruct (last sp); [lia|contradiction]. }
  splits.
  - (* fates *)
    eapply Permutation_trans; [apply Permutation_app_tail; exact P|].
    rewrite <- !app_assoc.
    transitivity (ac ++ fo ++ dr ++ (pns sp (o_acked out) ++ pns sp (o_gone out) ++ pns sp (o_dropped out) ++ map p_pn (tracked sp r'))).
    + do 3 apply Permutation_app_head. exact E1.
    + apply Permutation_app_head.
      transitivity (pns sp (o_acked out) ++ (fo ++ dr ++ pns sp (o_gone out) ++ pns sp (o_dropped out) ++ map p_pn (tracked sp r'))).
      { rewrite !app_assoc. do 3 apply Permutation_app_tail. rewrite <- !app_assoc. rewrite (app_assoc fo dr). apply Permutation_app_comm. }
      apply Permutation_app_head. apply Permutation_app_head. rewrite !app_assoc. do 2 apply Permutation_app_tail. apply Permutation_app_comm.
  - apply NoDup_app_intro; [exact N1| |].
    + destruct S as [[-> _]|(x & -> & _)]; [constructor|repeat constructor; intros []].
    + intros n A B. exact (NS n B A).
  - intros n Hn. apply in_app_iff in Hn. destruct Hn as [Hn|Hn].
    + specialize (L n Hn). destruct S as [[_ [->|(x & -> & S)]]|(x & _ & -> & S)]; [exact L| |]; destruct (last sp); try contradiction; lia.
    + destruct S as [[S _]|(x & S & -> & _)]; rewrite S in Hn; [contradiction|]. destruct Hn as [<-|[]]. lia.
  - apply NoDup_app_intro; [exact N2|exact E2|]. intros n A B. destruct (E3 n B) as ((p & P1 & P2 & P3) & _). subst n. apply LT in A; [|exact P1]. congruence.
  - intros n Hn. apply in_app_iff in Hn. rewrite in_app_iff. destruct Hn as [Hn|Hn]; [left; auto|]. destruct (E3 n Hn) as ((p & P1 & P2 & P3) & _). subst n. left. apply Tse. exact P1.
  - intros p Hp. rewrite (E4 p Hp). rewrite in_app_iff. split.
    + intros [A|(q & Q1 & Q2 & Q3)]; [auto|]. left. rewrite <- Q2. apply LT; assumption.
    + intros [A|A]; [|auto]. right.
      assert (In (p_pn p) (map p_pn (tracked sp r)) \/ In (p_pn p) (pns sp (ev_sent (o_cc out)))) as [B|B] by (apply E6; apply in_map; exact Hp).
      * apply in_map_iff in B. destruct B as (q & B1 & B2). exists q. splits; [exact B2|exact B1|]. apply LT; [exact B2|]. rewrite B1. exact A.
      * exfalso. apply (NS _ B). apply L2. exact A.
  - intros n Hn. apply in_app_iff in Hn. rewrite in_app_iff. destruct Hn as [Hn|Hn]; [left; auto|]. destruct (E5 n Hn) as (q & Q1 & Q2 & Q3). left. rewrite <- Q2. apply LT; assumption.
  - destruct (get_sp sp r) as [s|], (get_sp sp r') as [s'|]; try contradiction; try exact Logic.I.
    destruct M as [[-> M]|(la & -> & M1 & M2 & M3)].
    + rewrite M, app_nil_r. exact LA.
    + split.
      * rewrite in_app_iff. destruct M3 as [M3|M3]; [|auto]. rewrite M3 in LA. destruct LA as [LA _]. auto.
      * intros n Hn. apply in_app_iff in Hn. destruct Hn as [Hn|Hn]; [|apply M1; exact Hn].
        destruct (l_largest s) as [x|] eqn:EL; [|rewrite LA in Hn; contradiction]. destruct LA as [_ LA]. specialize (LA n Hn). specialize (M2 x eq_refl). lia.
Qed.

Lemma runs_ok ops : forall T last gone r h,
  INV T last gone r -> TI last r -> HI last h r -> uses T last gone ops ->
  exists r' h' T' last' gone', lr_runs r ops = Some (r', h') /\ INV T' last' gone' r' /\ TI last' r' /\ HI last' (h ++ h') r' /\ map fst h' = ops.
Proof.
  induction ops as [|o ops IH]; intros T last gone r h H1 H2 H3 U.
  - exists r, [], T, last, gone. rewrite app_nil_r. splits; auto.
  - destruct (step_ok T last gone r o ops H1 H2 U) as (r1 & out & T1 & last1 & gone1 & E1 & E2 & E3 & E4 & E5 & E6 & E7).
    assert (H4 : HI last1 (h ++ [(o, out)]) r1) by (eapply hist_step; eauto; intros sp; eapply inv_nodup; eauto).
    destruct (IH T1 last1 gone1 r1 (h ++ [(o, out)]) E2 E3 H4 E4) as (r' & h' & T' & last' & gone' & F1 & F2 & F3 & F4 & F5).
    exists r', ((o, out) :: h'), T', last', gone'. cbn [lr_runs]. rewrite E1, F1. rewrite <- app_assoc in F4. splits; auto. cbn. rewrite F5. reflexivity.
Qed.
Lemma inv_new fast : INV 0 (fun _ => None) sp_none (lr_new fast) /\ TI (fun _ => None) (lr_new fast) /\ HI (fun _ => None) [] (lr_new fast).
Proof.
  splits.
  - unfold INV. splits; try reflexivity; try apply N.le_refl.
    + intros []; cbn; (split; [reflexivity|]); unfold sp_ok; cbn; (splits; [reflexivity|constructor|constructor|constructor|reflexivity|lia]).
    + cbn. split; reflexivity.
  - intros []; cbn; split; try exact Logic.I; intros ? ? [].
  - intros []; cbn; splits; try constructor; try (intros ? []); try reflexivity; try contradiction.
Qed.
Lemma uses_app a b : forall T last gone, uses T last gone (a ++ b) -> uses T last gone a.
Proof.
  induction a as [|o a IH]; intros T last gone U; [exact Logic.I|].
  destruct o; cbn [app uses] in *; repeat match goal with H : _ /\ _ |- _ => destruct H end; splits; auto; eapply IH; eassumption.
Qed.
Lemma runs_uses a b : forall T last gone r, INV T last gone r -> TI last r -> uses T last gone (a ++ b) ->
  exists r' h' T' last' gone', lr_runs r a = Some (r', h') /\ INV T' last' gone' r' /\ TI last' r' /\ uses T' last' gone' b.
Proof.
  induction a as [|o a IH]; intros T last gone r H1 H2 U.
  - exists r, [], T, last, gone. auto.
  - destruct (step_ok T last gone r o (a ++ b) H1 H2 U) as (r1 & out & T1 & last1 & gone1 & E1 & E2 & E3 & E4 & _).
    destruct (IH T1 last1 gone1 r1 E2 E3 E4) as (r' & h' & T' & last' & gone' & F1 & F2 & F3 & F4).
    exists r', ((o, out) :: h'), T', last', gone'. cbn [lr_runs]. rewrite E1, F1. auto.
Qed.
Lemma runs_app a b r : lr_runs r (a ++ b) = match lr_runs r a with Some (r1, h1) => match lr_runs r1 b with Some (r2, h2) => Some (r2, h1 ++ h2) | None => None end | None => None end.
Proof.
  revert r. induction a as [|o a IH]; intros r; cbn [app lr_runs].
  - destruct (lr_runs r b) as [[? ?]|]; reflexivity.
  - destruct (lr_step r o) as [[r1 out]|]; [|reflexivity]. rewrite IH. destruct (lr_runs r1 a) as [[r2 h2]|]; [|reflexivity].
    destruct (lr_runs r2 b) as [[r3 h3]|]; reflexivity.
Qed.
