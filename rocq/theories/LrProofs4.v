(** Loss recovery: timeouts, discarding, and the whole step. *)
From Coq Require Import Sorted Permutation.
From Verif Require Import Base Lib FcModel LrModel LrSpec LrProofs LrProofs2 LrProofs3.

(** ** Detection in one space when a timer fires *)
Lemma timeout_space_ok T last gone r sp now ld cd o :
  INV T last gone r -> T <= now ->
  exists r' , timeout_space now ld cd sp (r, o) = Some (r',
      match get_sp sp r with
      | None => o
      | Some s => mkOut [] (o_lost o ++ lost_detect now ld cd (l_largest s) (l_pkts s)) [] (o_gone o ++ filter (expired now cd) (l_pkts s))
                    (o_cc o ++ [CcLost (l_largest_time s) (lost_detect now ld cd (l_largest s) (l_pkts s))])
      end) /\
    (forall sp', sp' <> sp -> get_sp sp' r' = get_sp sp' r) /\
    match get_sp sp r with
    | None => get_sp sp r' = None
    | Some s => exists s', get_sp sp r' = Some s' /\ sp_ok now (last sp) sp s' /\ l_pkts s' = after_detect now ld cd (l_largest s) (l_pkts s) /\
                  l_ooo s' = ooo_detect now ld cd (l_largest s) (l_pkts s) /\ l_largest s' = l_largest s /\ l_last_ae s' = l_last_ae s
    end /\ r_pto r' = r_pto r /\ r_fast r' = r_fast r /\ r_confirmed r' = r_confirmed r /\ r_stats r' = r_stats r.
Proof.
  intros H HT. unfold timeout_space. destruct (get_sp sp r) as [s|] eqn:E.
  - destruct (inv_get _ _ _ _ _ _ H E) as (_ & OK).
    destruct (detect_lost_ok T (last sp) sp now ld cd s OK HT) as (s' & DE & OK' & Q1 & Q2 & Q3 & Q4 & Q5).
    rewrite DE, Q4. eexists. split; [reflexivity|]. splits.
    + intros sp' Nq. rewrite get_set. destruct (space_eqb sp' sp) eqn:Q; [apply space_eqb_eq in Q; contradiction|reflexivity].
    + exists s'. rewrite get_set, space_eqb_refl. splits; auto.
    + apply r_pto_set.
    + apply r_fast_set.
    + apply r_confirmed_set.
    + apply r_stats_set.
  - exists r. splits; auto.
Qed.

(** The state of one space after detection, whatever the space is. *)
Definition detected (now ld cd : N) (last : option N) (sp : space) (a b : option lsp) : Prop :=
  match a, b with
  | None, None => True
  | Some s, Some s' => sp_ok now last sp s' /\ l_pkts s' = after_detect now ld cd (l_largest s) (l_pkts s) /\
      l_ooo s' = ooo_detect now ld cd (l_largest s) (l_pkts s) /\ l_largest s' = l_largest s /\ l_last_ae s' = l_last_ae s
  | _, _ => False
  end.
Definition lost_sp (now ld cd : N) (a : option lsp) : list pkt := match a with Some s => lost_detect now ld cd (l_largest s) (l_pkts s) | None => [] end.
Definition gone_sp (now cd : N) (a : option lsp) : list pkt := match a with Some s => filter (expired now cd) (l_pkts s) | None => [] end.
Definition cc_sp (now ld cd : N) (a : option lsp) : list ccev := match a with Some s => [CcLost (l_largest_time s) (lost_detect now ld cd (l_largest s) (l_pkts s))] | None => [] end.

Lemma inv_frame T last gone r r' sp now ld cd :
  INV T last gone r -> T <= now -> (forall sp', sp' <> sp -> get_sp sp' r' = get_sp sp' r) ->
  detected now ld cd (last sp) sp (get_sp sp r) (get_sp sp r') -> r_confirmed r' = r_confirmed r ->
  INV now last gone (set_stats (count_lost (lost_sp now ld cd (get_sp sp r)) (r_stats r)) r').
Proof.
  intros H HT Fr D HC. destruct (get_sp sp r) as [s|] eqn:E; destruct (get_sp sp r') as [s'|] eqn:E'; cbn [detected] in D; try contradiction.
  - destruct D as (OK & Q1 & Q2 & Q3 & Q4).
    assert (X : INV now last gone (set_stats (count_lost (lost_sp now ld cd (Some s)) (r_stats r)) (set_sp sp (Some s') r))).
    { eapply inv_set; [exact H|exact HT|exact E|exact OK|reflexivity| |]; rewrite Q1;
        destruct (nlost_detect now ld cd (l_largest s) (l_pkts s)) as [Y1 Y2]; destruct H as (_ & _ & _ & D1 & D2);
        cbn [count_lost st_lost st_bytes_lost lost_sp]; rewrite ?sum_len_total; lia. }
    assert (G : forall sp', get_sp sp' (set_sp sp (Some s') r) = get_sp sp' r').
    { intros sp'. rewrite get_set. destruct (space_eqb sp' sp) eqn:Q; [apply space_eqb_eq in Q; subst; congruence|].
      rewrite Fr; [reflexivity|]. intros ->. rewrite space_eqb_refl in Q. discriminate. }
    destruct X as (X1 & X2 & X3 & X4 & X5). unfold INV. splits.
    + intros sp'. specialize (X1 sp'). rewrite get_set_stats in *. rewrite G in X1. exact X1.
    + exact X2.
    + cbn. rewrite HC. cbn in X3. rewrite r_confirmed_set in X3. exact X3.
    + unfold tot, tracked in *. rewrite !get_set_stats in *. rewrite !G in X4. exact X4.
    + unfold tot, tracked in *. rewrite !get_set_stats in *. rewrite !G in X5. exact X5.
  - assert (G : forall sp', get_sp sp' r = get_sp sp' r').
    { intros sp'. destruct (space_eqb sp' sp) eqn:Q; [apply space_eqb_eq in Q; subst; congruence|].
      rewrite Fr; [reflexivity|]. intros ->. rewrite space_eqb_refl in Q. discriminate. }
    apply inv_time with (T' := now) in H; [|exact HT]. destruct H as (X1 & X2 & X3 & X4 & X5). unfold INV. splits.
    + intros sp'. specialize (X1 sp'). rewrite get_set_stats. rewrite G in X1. exact X1.
    + exact X2.
    + cbn. rewrite HC. exact X3.
    + unfold tot, tracked in *. rewrite !get_set_stats. rewrite !G in X4. cbn [count_lost lost_sp r_stats set_stats st_lost]. lia.
    + unfold tot, tracked in *. rewrite !get_set_stats. rewrite !G in X5. cbn [count_lost lost_sp r_stats set_stats st_bytes_lost sum_len fold_right]. lia.
Qed.

Lemma inv_stats_lost T last gone r st a b :
  INV T last gone (set_stats (count_lost a st) r) -> INV T last gone (set_stats (count_lost b (count_lost a st)) r).
Proof.
  intros (X1 & X2 & X3 & X4 & X5). unfold INV. splits; try assumption.
  - unfold tot, tracked in *. rewrite !get_set_stats in *. cbn [r_stats set_stats count_lost st_lost] in *. lia.
  - unfold tot, tracked in *. rewrite !get_set_stats in *. cbn [r_stats set_stats count_lost st_bytes_lost] in *. lia.
Qed.
Lemma timeout_space_stats now ld cd sp r o st r' o' :
  timeout_space now ld cd sp (r, o) = Some (r', o') -> timeout_space now ld cd sp (set_stats st r, o) = Some (set_stats st r', o').
Proof.
  unfold timeout_space. rewrite get_set_stats. destruct (get_sp sp r) as [s|].
  - destruct (detect_lost now ld cd s) as [[[s' lost] gone]|]; [|discriminate]. intros E. apply some_inj in E.
    assert (r' = set_sp sp (Some s') r) by congruence. assert (Eo : o' = mkOut [] (o_lost o ++ lost) [] (o_gone o ++ gone) (o_cc o ++ [CcLost (l_largest_time s') lost])) by congruence.
    subst. destruct sp; reflexivity.
  - congruence.
Qed.
Lemma count_lost_app a b st : count_lost (a ++ b) st = count_lost b (count_lost a st).
Proof. unfold count_lost. cbn. change sum_len with total_len. rewrite lenN_app, total_len_app. f_equal; lia. Qed.

Lemma timeout_detect_ok T last gone r now ld cd :
  INV T last gone r -> T <= now ->
  exists r', obind (timeout_space now ld cd SpInitial (r, no_out)) (fun x => obind (timeout_space now ld cd SpHandshake x) (fun x => timeout_space now ld cd SpApp x))
    = Some (r', mkOut [] (lost_sp now ld cd (r_i r) ++ lost_sp now ld cd (r_h r) ++ lost_sp now ld cd (r_a r)) []
                  (gone_sp now cd (r_i r) ++ gone_sp now cd (r_h r) ++ gone_sp now cd (r_a r))
                  (cc_sp now ld cd (r_i r) ++ cc_sp now ld cd (r_h r) ++ cc_sp now ld cd (r_a r))) /\
    INV now last gone (set_stats (count_lost (lost_sp now ld cd (r_i r) ++ lost_sp now ld cd (r_h r) ++ lost_sp now ld cd (r_a r)) (r_stats r')) r') /\
    (forall sp, detected now ld cd (last sp) sp (get_sp sp r) (get_sp sp r')) /\
    r_pto r' = r_pto r /\ r_fast r' = r_fast r /\ r_confirmed r' = r_confirmed r /\ r_stats r' = r_stats r.
Proof.
  intros H HT.
  assert (DT : forall last0 sp a b, match a with None => b = None | Some s => exists s', b = Some s' /\ sp_ok now last0 sp s' /\ l_pkts s' = after_detect now ld cd (l_largest s) (l_pkts s) /\
                  l_ooo s' = ooo_detect now ld cd (l_largest s) (l_pkts s) /\ l_largest s' = l_largest s /\ l_last_ae s' = l_last_ae s end ->
                  detected now ld cd last0 sp a b).
  { intros last0 sp [s|] b; [intros (s' & -> & X); exact X|intros ->; exact Logic.I]. }
  destruct (timeout_space_ok T last gone r SpInitial now ld cd no_out H HT) as (r1 & A1 & A2 & A3 & A4 & A5 & A6 & A7).
  apply DT in A3. pose proof (inv_frame _ _ _ r r1 SpInitial now ld cd H HT A2 A3 A6) as H1.
  set (st1 := count_lost (lost_sp now ld cd (get_sp SpInitial r)) (r_stats r)) in *.
  destruct (timeout_space_ok now last gone _ SpHandshake now ld cd
    match r_i r with None => no_out | Some s => mkOut [] (lost_detect now ld cd (l_largest s) (l_pkts s)) [] (filter (expired now cd) (l_pkts s)) [CcLost (l_largest_time s) (lost_detect now ld cd (l_largest s) (l_pkts s))] end
    H1 (N.le_refl _)) as (r2 & B1 & B2 & B3 & B4 & B5 & B6 & B7).
  apply DT in B3. pose proof (inv_frame _ _ _ _ r2 SpHandshake now ld cd H1 (N.le_refl _) B2 B3 B6) as H2.
  rewrite get_set_stats in H2. cbn [r_stats set_stats] in H2. set (st2 := count_lost (lost_sp now ld cd (get_sp SpHandshake r1)) st1) in *.
  assert (Eh : get_sp SpHandshake r1 = r_h r) by (apply (A2 SpHandshake); discriminate).
  assert (Ea1 : get_sp SpApp r1 = r_a r) by (apply (A2 SpApp); discriminate).
  assert (Ea2 : get_sp SpApp r2 = r_a r) by (rewrite (B2 SpApp), get_set_stats; [exact Ea1|discriminate]).
  assert (O2 : exists o2', o2' = mkOut [] (lost_sp now ld cd (r_i r) ++ lost_sp now ld cd (r_h r)) [] (gone_sp now cd (r_i r) ++ gone_sp now cd (r_h r)) (cc_sp now ld cd (r_i r) ++ cc_sp now ld cd (r_h r))
            /\ timeout_space now ld cd SpHandshake (r1, match r_i r with None => no_out | Some s => mkOut [] ([] ++ lost_detect now ld cd (l_largest s) (l_pkts s)) [] ([] ++ filter (expired now cd) (l_pkts s)) ([] ++ [CcLost (l_largest_time s) (lost_detect now ld cd (l_largest s) (l_pkts s))]) end) = Some (set_stats (r_stats r1) r2, o2')).
  { eexists. split; [reflexivity|]. apply timeout_space_stats with (st := r_stats r1) in B1.
    replace (set_stats (r_stats r1) (set_stats st1 r1)) with r1 in B1 by (destruct r1; reflexivity).
    rewrite get_set_stats, Eh in B1. unfold lost_sp, gone_sp, cc_sp. destruct (r_i r), (r_h r); cbn [no_out o_lost o_gone o_cc app] in *; rewrite ?app_nil_r; exact B1. }
  destruct O2 as (o2' & Eo2 & B1').
  assert (H2' : INV now last gone (set_stats st2 (set_stats (r_stats r1) r2))) by (destruct r2; exact H2).
  destruct (timeout_space_ok now last gone _ SpApp now ld cd o2' H2' (N.le_refl _)) as (r3 & C1 & C2 & C3 & C4 & C5 & C6 & C7).
  apply DT in C3. pose proof (inv_frame _ _ _ _ r3 SpApp now ld cd H2' (N.le_refl _) C2 C3 C6) as H3.
  rewrite !get_set_stats, Ea2 in H3. cbn [r_stats set_stats] in H3.
  apply timeout_space_stats with (st := r_stats r1) in C1.
  replace (set_stats (r_stats r1) (set_stats st2 (set_stats (r_stats r1) r2))) with (set_stats (r_stats r1) r2) in C1 by (destruct r2; reflexivity).
  exists (set_stats (r_stats r1) r3). splits.
  - cbn [obind]. rewrite A1. cbn [obind]. change (get_sp SpInitial r) with (r_i r). cbn [no_out o_lost o_gone o_cc]. rewrite B1'. cbn [obind]. rewrite C1.
    rewrite !get_set_stats, Ea2, Eo2. cbn [o_lost o_gone o_cc]. f_equal. f_equal.
    destruct (r_a r); cbn [lost_sp gone_sp cc_sp]; rewrite ?app_nil_r, <- ?app_assoc; reflexivity.
  - cbn [r_stats set_stats].
    replace (set_stats _ (set_stats (r_stats r1) r3)) with (set_stats (count_lost (lost_sp now ld cd (r_a r)) st2) r3); [exact H3|].
    unfold st2, st1. rewrite Eh, A7. rewrite !count_lost_app. destruct r3; reflexivity.
  - intros sp. rewrite get_set_stats. destruct sp.
    + rewrite (C2 SpInitial), !get_set_stats, (B2 SpInitial), get_set_stats by discriminate. exact A3.
    + rewrite (C2 SpHandshake), !get_set_stats by discriminate. rewrite get_set_stats, Eh in B3. exact B3.
    + rewrite !get_set_stats, Ea2 in C3. exact C3.
  - change (r_pto (set_stats (r_stats r1) r3)) with (r_pto r3). rewrite C4. change (r_pto (set_stats st2 (set_stats (r_stats r1) r2))) with (r_pto r2). rewrite B4. exact A4.
  - change (r_fast (set_stats (r_stats r1) r3)) with (r_fast r3). rewrite C5. change (r_fast (set_stats st2 (set_stats (r_stats r1) r2))) with (r_fast r2). rewrite B5. exact A5.
  - change (r_confirmed (set_stats (r_stats r1) r3)) with (r_confirmed r3). rewrite C6. change (r_confirmed (set_stats st2 (set_stats (r_stats r1) r2))) with (r_confirmed r2). rewrite B6. exact A6.
  - cbn. exact A7.
Qed.

(** ** Firing the PTO *)
Lemma pto_base_ok T last sp s : sp_ok T last sp s -> pto_base_time s <> None.
Proof.
  intros (Z & S & F & G & O & L). unfold pto_base_time. destruct (N.ltb_spec 0 (l_out s)).
  - specialize (L H). destruct (l_last_ae s); [discriminate|contradiction].
  - destruct (l_space s); discriminate.
Qed.
Lemma pto_time_ok T last gone r base sp : INV T last gone r -> pto_time base sp r <> None.
Proof.
  intros H. unfold pto_time. destruct (get_sp sp r) as [s|] eqn:E; [|discriminate].
  destruct (inv_get _ _ _ _ _ _ H E) as (_ & OK). pose proof (pto_base_ok _ _ _ _ OK). destruct (pto_base_time s) as [[t|]|]; [discriminate|discriminate|contradiction].
Qed.
(** A PTO fires for the spaces whose time has come; the first of these is the one it is for. *)
Definition due (base now : N) (sp : space) (r : lr) : bool := match pto_time base sp r with Some (Some t) => t <=? now | _ => false end.
Definition armed (base : N) (sp : space) (r : lr) : bool := match pto_time base sp r with Some (Some _) => true | _ => false end.
Lemma fire_set_ok T last gone r base now : INV T last gone r ->
  fire_set base now r = Some (
    (if due base now SpInitial r then Some SpInitial else if due base now SpHandshake r then Some SpHandshake else if due base now SpApp r then Some SpApp else None),
    mkSet (armed base SpInitial r) (armed base SpHandshake r) (armed base SpApp r),
    mkSet (due base now SpInitial r || due base now SpHandshake r) (due base now SpHandshake r) (due base now SpApp r)).
Proof.
  intros H. unfold fire_set, all_spaces, due, armed. cbn [fold_left].
  pose proof (pto_time_ok _ _ _ _ base SpInitial H) as A. pose proof (pto_time_ok _ _ _ _ base SpHandshake H) as B. pose proof (pto_time_ok _ _ _ _ base SpApp H) as C.
  destruct (pto_time base SpInitial r) as [[a|]|]; [| |contradiction]; destruct (pto_time base SpHandshake r) as [[b|]|]; try contradiction;
  destruct (pto_time base SpApp r) as [[c|]|]; try contradiction; clear A B C;
  rewrite ?(N.leb_antisym now); repeat (match goal with |- context [now <? ?x] => destruct (now <? x) end; cbn); reflexivity.
Qed.

Definition flagged (retr : spset) (limit : N) (a b : lr) (t : space -> list pkt) : Prop :=
  forall sp, match get_sp sp a, get_sp sp b with
             | None, None => t sp = []
             | Some s, Some s' =>
                 exists size l' n, s' = with_pkts l' (l_out s) s /\
                   (if sp_in sp retr then pto_loop limit size (l_pkts s) = (l', t sp, n) else l' = l_pkts s /\ t sp = [])
             | _, _ => False
             end.
Lemma with_pkts_same s : with_pkts (l_pkts s) (l_out s) s = s.
Proof. destruct s; reflexivity. Qed.
Lemma pto_space_ok limit size sp r :
  exists l' t n, pto_space_packets limit size sp r = (match get_sp sp r with Some s => set_sp sp (Some (with_pkts l' (l_out s) s)) r | None => r end, t, n) /\
    match get_sp sp r with Some s => pto_loop limit size (l_pkts s) = (l', t, n) | None => t = [] /\ n = size end.
Proof.
  unfold pto_space_packets. destruct (get_sp sp r) as [s|].
  - destruct (pto_loop limit size (l_pkts s)) as [[l' t] n]. exists l', t, n. auto.
  - exists [], [], size. auto.
Qed.
Lemma pto_collect_ok limit retr r :
  exists r' t, pto_collect limit retr r = (r', t SpInitial ++ t SpHandshake ++ t SpApp) /\ flagged retr limit r r' t /\
    r_pto r' = r_pto r /\ r_fast r' = r_fast r /\ r_confirmed r' = r_confirmed r /\ r_stats r' = r_stats r.
Proof.
  unfold pto_collect.
  assert (ST : forall sp r size, exists r' t n,
     (if sp_in sp retr then pto_space_packets limit size sp r else (r, [], size)) = (r', t, n) /\
     (forall sp', sp' <> sp -> get_sp sp' r' = get_sp sp' r) /\
     match get_sp sp r, get_sp sp r' with
     | None, None => t = []
     | Some s, Some s' => exists l', s' = with_pkts l' (l_out s) s /\ (if sp_in sp retr then pto_loop limit size (l_pkts s) = (l', t, n) else l' = l_pkts s /\ t = [])
     | _, _ => False end /\
     r_pto r' = r_pto r /\ r_fast r' = r_fast r /\ r_confirmed r' = r_confirmed r /\ r_stats r' = r_stats r).
  { clear r. intros sp r size. destruct (sp_in sp retr).
    - destruct (pto_space_ok limit size sp r) as (l' & t & n & E1 & E2). rewrite E1. eexists. exists t, n. split; [reflexivity|].
      destruct (get_sp sp r) as [s|] eqn:E.
      + rewrite get_set, space_eqb_refl. rewrite r_pto_set, r_fast_set, r_confirmed_set, r_stats_set. splits; try reflexivity.
        * intros sp' Nq. rewrite get_set. destruct (space_eqb sp' sp) eqn:Q; [apply space_eqb_eq in Q; contradiction|reflexivity].
        * exists l'. auto.
      + rewrite E. destruct E2. splits; auto.
    - exists r, [], size. splits; auto. destruct (get_sp sp r) as [s|]; [|reflexivity]. exists (l_pkts s). rewrite with_pkts_same. auto. }
  destruct (ST SpInitial r 0) as (r1 & t1 & n1 & A1 & A2 & A3 & A4 & A5 & A6 & A7).
  destruct (ST SpHandshake r1 n1) as (r2 & t2 & n2 & B1 & B2 & B3 & B4 & B5 & B6 & B7).
  destruct (ST SpApp r2 n2) as (r3 & t3 & n3 & C1 & C2 & C3 & C4 & C5 & C6 & C7).
  exists r3, (fun sp => match sp with SpInitial => t1 | SpHandshake => t2 | SpApp => t3 end). splits; try congruence.
  - cbn beta iota zeta.
    assert (E1 : (if sp_in SpInitial retr then let '(r', t, n') := pto_space_packets limit 0 SpInitial r in (r', [] ++ t, n') else (r, [], 0)) = (r1, t1, n1)).
    { destruct (sp_in SpInitial retr); [rewrite A1; reflexivity|exact A1]. }
    rewrite E1.
    assert (E2 : (if sp_in SpHandshake retr then let '(r', t, n') := pto_space_packets limit n1 SpHandshake r1 in (r', t1 ++ t, n') else (r1, t1, n1)) = (r2, t1 ++ t2, n2)).
    { destruct (sp_in SpHandshake retr); [rewrite B1; reflexivity|]. assert (r2 = r1) by congruence. assert (t2 = []) by congruence. assert (n2 = n1) by congruence. subst. rewrite app_nil_r. reflexivity. }
    rewrite E2.
    destruct (sp_in SpApp retr); [rewrite C1; rewrite <- app_assoc; reflexivity|].
    assert (r3 = r2) by congruence. assert (t3 = []) by congruence. subst. rewrite app_nil_r. reflexivity.
  - intros sp. destruct sp.
    + rewrite (C2 SpInitial), (B2 SpInitial) by discriminate. destruct (get_sp SpInitial r), (get_sp SpInitial r1); try contradiction; [|exact A3].
      destruct A3 as (l' & X & Y). exists 0, l', n1. auto.
    + rewrite (C2 SpHandshake) by discriminate. rewrite (A2 SpHandshake) in B3 by discriminate.
      destruct (get_sp SpHandshake r), (get_sp SpHandshake r2); try contradiction; [|exact B3].
      destruct B3 as (l' & X & Y). exists n1, l', n2. auto.
    + rewrite (B2 SpApp), (A2 SpApp) in C3 by discriminate.
      destruct (get_sp SpApp r), (get_sp SpApp r3); try contradiction; [|exact C3].
      destruct C3 as (l' & X & Y). exists n2, l', n3. auto.
Qed.

Lemma pto_loop_core limit size l l' t n : pto_loop limit size l = (l', t, n) -> Forall2 same_core l l' /\ Forall (fun p => is_lost p = false) t.
Proof.
  intros E. pose proof (pto_loop_ok limit l size) as H. rewrite E in H. destruct H as (F & k & rest & A & B & _). split; [exact F|].
  rewrite B, Forall_forall. intros p Hp. apply in_map_iff in Hp. destruct Hp as (q & <- & Hq).
  assert (In q (filter probe_candidate l)) as Q by (rewrite A; apply in_app_iff; auto). apply filter_In in Q. destruct Q as [_ Q].
  unfold probe_candidate in Q. apply andb_true_iff in Q. destruct Q as [_ Q]. apply negb_true_iff in Q. exact Q.
Qed.
Lemma core_refl_list l : Forall2 same_core l l.
Proof. induction l; constructor; auto using same_core_refl. Qed.
Lemma flagged_core retr limit a b t : flagged retr limit a b t ->
  (forall sp, Forall2 same_core (tracked sp a) (tracked sp b)) /\ (forall sp, Forall (fun p => is_lost p = false) (t sp)) /\
  (forall sp, match get_sp sp a, get_sp sp b with Some s, Some s' => s' = with_pkts (l_pkts s') (l_out s) s | None, None => True | _, _ => False end).
Proof.
  intros H. splits.
  - intros sp. specialize (H sp). unfold tracked. destruct (get_sp sp a), (get_sp sp b); try contradiction; [|constructor].
    destruct H as (size & l' & n & -> & H). cbn [with_pkts l_pkts]. destruct (sp_in sp retr); [apply (pto_loop_core _ _ _ _ _ _ H)|].
    destruct H as [-> _]. apply core_refl_list.
  - intros sp. specialize (H sp). destruct (get_sp sp a), (get_sp sp b); try contradiction; [|rewrite H; constructor].
    destruct H as (size & l' & n & -> & H). destruct (sp_in sp retr); [apply (pto_loop_core _ _ _ _ _ _ H)|]. destruct H as [_ ->]. constructor.
  - intros sp. specialize (H sp). destruct (get_sp sp a), (get_sp sp b); try contradiction; [|exact Logic.I].
    destruct H as (size & l' & n & -> & H). reflexivity.
Qed.
Lemma core_nlost l l' : Forall2 same_core l l' -> nlost l = nlost l' /\ blost l = blost l' /\ count_ae l = count_ae l'.
Proof.
  induction 1 as [|a b l l' (_ & _ & E1 & _ & E2 & E3) H (I1 & I2 & I3)]; [auto|].
  rewrite !nlost_cons, !blost_cons, !count_ae_cons. unfold is_lost. rewrite E1, E2, E3. lia.
Qed.
Lemma core_space sp l l' : Forall2 same_core l l' -> Forall (fun p => of_space sp p = true) l -> Forall (fun p => of_space sp p = true) l'.
Proof. induction 1 as [|a b l l' (E & _) H IH]; intros F; [constructor|]. inv F. constructor; [unfold of_space; rewrite <- E; assumption|auto]. Qed.
Lemma inv_core T last gone r r' :
  INV T last gone r -> (forall sp, Forall2 same_core (tracked sp r) (tracked sp r')) ->
  (forall sp, match get_sp sp r, get_sp sp r' with Some s, Some s' => s' = with_pkts (l_pkts s') (l_out s) s | None, None => True | _, _ => False end) ->
  r_confirmed r' = r_confirmed r -> r_stats r' = r_stats r -> INV T last gone r'.
Proof.
  intros (A & B & C & D & E) K G HC HS. unfold INV. splits.
  - intros sp. specialize (A sp). specialize (K sp). specialize (G sp). unfold tracked in K.
    destruct (get_sp sp r) as [s|], (get_sp sp r') as [s'|]; try contradiction; [|exact A].
    destruct A as (A1 & Z & S & F & O1 & O2 & L). split; [exact A1|]. destruct (core_nlost _ _ K) as (_ & _ & K3).
    rewrite G. unfold sp_ok, with_pkts. cbn [l_space l_pkts l_out l_last_ae]. splits; try assumption.
    + eapply core_list_sorted; eauto.
    + eapply core_list_ok; eauto.
    + eapply core_space; eauto.
    + lia.
  - exact B.
  - rewrite HC. exact C.
  - rewrite HS. unfold tot in *. destruct (core_nlost _ _ (K SpInitial)) as (K1 & _), (core_nlost _ _ (K SpHandshake)) as (K2 & _), (core_nlost _ _ (K SpApp)) as (K3 & _). lia.
  - rewrite HS. unfold tot in *. destruct (core_nlost _ _ (K SpInitial)) as (_ & K1 & _), (core_nlost _ _ (K SpHandshake)) as (_ & K2 & _), (core_nlost _ _ (K SpApp)) as (_ & K3 & _). lia.
Qed.
Lemma maybe_prime_ok T last gone now keys r :
  INV T last gone r -> INV T last gone (maybe_prime now keys r) /\ (forall sp, tracked sp (maybe_prime now keys r) = tracked sp r) /\
  (forall sp, sp <> SpHandshake -> get_sp sp (maybe_prime now keys r) = get_sp sp r) /\
  (forall sp, match get_sp sp r, get_sp sp (maybe_prime now keys r) with Some s, Some s' => l_largest s' = l_largest s /\ l_ooo s' = l_ooo s | None, None => True | _, _ => False end).
Proof.
  intros H.
  assert (Same : INV T last gone r /\ (forall sp, tracked sp r = tracked sp r) /\ (forall sp, sp <> SpHandshake -> get_sp sp r = get_sp sp r) /\
    (forall sp, match get_sp sp r, get_sp sp r with Some s, Some s' => l_largest s' = l_largest s /\ l_ooo s' = l_ooo s | None, None => True | _, _ => False end)).
  { splits; auto. intros sp. destruct (get_sp sp r); auto. }
  unfold maybe_prime. destruct keys; [|exact Same]. destruct (r_pto r) as [p|] eqn:EP; [|exact Same].
  destruct (space_eqb (pt_space p) SpInitial); [|exact Same]. destruct (r_i r) as [i|] eqn:EI; [|exact Same].
  destruct (l_largest i); [|exact Same]. destruct (r_h r) as [h|] eqn:E; [|exact Same].
  destruct (l_last_ae h) eqn:EA; [exact Same|]. destruct (l_largest h) eqn:EL; [exact Same|].
  set (h' := mkLsp _ _ _ _ _ _ _).
  assert (E' : get_sp SpHandshake r = Some h) by exact E.
  splits.
  - rewrite <- (set_stats_same (set_sp _ _ _)), r_stats_set. pose proof H as (_ & _ & _ & D1 & D2).
    eapply inv_set; [exact H|apply N.le_refl|exact E'| |reflexivity| |]; unfold h'; cbn [l_pkts]; try lia.
    destruct (inv_get _ _ _ _ _ _ H E') as (_ & Z & S & F & G & O & L). unfold sp_ok. cbn. splits; try assumption. discriminate.
  - intros sp. rewrite tracked_set. destruct (space_eqb sp SpHandshake) eqn:Q; [|reflexivity]. apply space_eqb_eq in Q. subst. unfold tracked. rewrite E'. reflexivity.
  - intros sp Nq. rewrite get_set. destruct (space_eqb sp SpHandshake) eqn:Q; [apply space_eqb_eq in Q; contradiction|reflexivity].
  - intros sp. rewrite get_set. destruct (space_eqb sp SpHandshake) eqn:Q.
    + apply space_eqb_eq in Q. subst. rewrite E'. unfold h'. cbn. auto.
    + destruct (get_sp sp r); auto.
Qed.
Lemma maybe_prime_pto now keys r : r_pto (maybe_prime now keys r) = r_pto r.
Proof. unfold maybe_prime. repeat (dmatch; try reflexivity; try assumption). Qed.
