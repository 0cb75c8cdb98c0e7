From Verif Require Import Base Lib QpTables QiModel QiSpec QiProofs QiProofs2 QbModel QbSpec QbProofs QbProofs2 QeModel.
From Coq Require Import Permutation.
Open Scope N_scope.
Open Scope list_scope.
Import ListNotations.

(** *** Blocks and references *)
Lemma cntb_perm : forall i A B, Permutation A B -> cntb i A = cntb i B.
Proof. intros i A B P. induction P; rewrite ?cntb_cons in *; try lia; auto. Qed.
Lemma refs_ok_perm : forall t A B, Permutation A B -> refs_ok t A -> refs_ok t B.
Proof. intros t A B P (R & F). split; [intros e I; rewrite (R e I); apply cntb_perm; auto|]. eapply Permutation_Forall; eauto. Qed.
Lemma refs_ok_nil : forall t B, refs_ok t ([] :: B) <-> refs_ok t B.
Proof.
  intros t B. unfold refs_ok. split; intros (R & F); split.
  - intros e I. rewrite (R e I), cntb_cons. auto.
  - inversion F; auto.
  - intros e I. rewrite (R e I), cntb_cons. auto.
  - constructor; auto.
Qed.
Lemma remove_refs_spec : forall H b t B, t_ok H t -> refs_ok t (b :: B) -> NoDup b -> exists t', remove_refs t b = Good t' /\ like t t' /\ refs_ok t' B.
Proof.
  intros H. induction b as [|i b IH]; intros t B O R ND; cbn [remove_refs].
  - exists t. splits; auto; [apply like_refl | apply refs_ok_nil; auto].
  - inversion ND as [|? ? N1 N2]; subst. destruct (remove_ref_spec H t i b B O R N1) as (t1 & E & L & R1). rewrite E. cbn [rbind].
    destruct (IH t1 B (proj1 (like_ok H t t1 L O)) R1 N2) as (t2 & E2 & L2 & R2). exists t2. splits; auto. eapply like_trans; eauto.
Qed.
Lemma remove_refs_app : forall a b t, remove_refs t (a ++ b) = rbind (remove_refs t a) (fun t' => remove_refs t' b).
Proof. induction a as [|i a IH]; intros b t; cbn [remove_refs List.app]; auto. destruct (remove_ref t i); cbn [rbind]; auto. Qed.
Lemma remove_blocks_spec : forall H bs t B, t_ok H t -> refs_ok t (bs ++ B) -> Forall (@NoDup N) bs -> exists t', remove_refs t (concat bs) = Good t' /\ like t t' /\ refs_ok t' B.
Proof.
  intros H. induction bs as [|b bs IH]; intros t B O R ND; cbn [concat List.app] in *.
  - exists t. splits; auto. apply like_refl.
  - inversion ND as [|? ? N1 N2]; subst. rewrite remove_refs_app. destruct (remove_refs_spec H b t (bs ++ B) O R N1) as (t1 & E & L & R1). rewrite E. cbn [rbind].
    destruct (IH t1 B (proj1 (like_ok H t t1 L O)) R1 N2) as (t2 & E2 & L2 & R2). exists t2. splits; auto. eapply like_trans; eauto.
Qed.

(** *** The map of header blocks *)
Definition ublocks (u : list (N * list (list N))) : list (list N) := flat_map snd u.
Lemma filter_notin : forall s (u : list (N * list (list N))), ~ In s (map fst u) -> filter (fun p => negb (fst p =? s)) u = u.
Proof.
  intros s. induction u as [|(x, c) u IH]; cbn [filter map fst In]; intros N1; auto. destruct (N.eqb_spec x s); [tauto|]. cbn [negb]. rewrite IH by tauto. auto.
Qed.
Lemma ub_get_split : forall s u b, ub_get s u = Some b -> NoDup (map fst u) -> exists u1 u2, u = u1 ++ (s, b) :: u2 /\ ~ In s (map fst u1) /\ ~ In s (map fst u2) /\
  ub_del s u = u1 ++ u2 /\ forall c, ub_set s c u = u1 ++ (s, c) :: u2.
Proof.
  intros s. induction u as [|(x, c) u IH]; intros b G ND; cbn [ub_get] in G; [discriminate|]. cbn [map fst] in ND. inversion ND as [|? ? N1 N2]; subst.
  unfold ub_del. cbn [filter fst ub_set]. destruct (N.eqb_spec x s) as [->|X].
  - apply some_inj in G. subst c. exists [], u. cbn [negb List.app]. splits; auto. rewrite filter_notin; auto.
  - destruct (IH b G N2) as (u1 & u2 & -> & A & B & C & D). exists ((x, c) :: u1), u2. cbn [negb List.app map fst In]. splits; auto.
    + intros [Y|Y]; [congruence | tauto].
    + unfold ub_del in C. rewrite C. auto.
    + intros c'. rewrite D. auto.
Qed.
Lemma ub_get_none : forall s u, ub_get s u = None -> ~ In s (map fst u) /\ forall c, ub_set s c u = u ++ [(s, c)].
Proof.
  intros s. induction u as [|(x, c) u IH]; cbn [ub_get map fst In ub_set]; intros G; auto. destruct (N.eqb_spec x s); [discriminate|]. destruct (IH G) as (A & B). split; [intros [Y|Y]; auto|]. intros c'. rewrite B. auto.
Qed.
Lemma ub_get_app : forall s u1 u2, ~ In s (map fst u1) -> ub_get s (u1 ++ u2) = ub_get s u2.
Proof. intros s. induction u1 as [|(x, c) u IH]; cbn [ub_get map fst In List.app]; intros u2 N1; auto. destruct (N.eqb_spec x s); [tauto|]. apply IH. tauto. Qed.
Lemma ub_get_notin : forall s u, ~ In s (map fst u) -> ub_get s u = None.
Proof. intros s u N1. rewrite <- (app_nil_r u), ub_get_app; auto. Qed.
Lemma ub_get_in : forall s u b, ub_get s u = Some b -> In (s, b) u.
Proof. intros s. induction u as [|(x, c) u IH]; cbn [ub_get In]; intros b G; [discriminate|]. destruct (N.eqb_spec x s); [apply some_inj in G; subst; auto | auto]. Qed.
(** The blocks of a stream, oldest first. *)
Definition U (u : list (N * list (list N))) (s : N) : list (list N) := match ub_get s u with Some b => rev b | None => [] end.
Lemma U_mid : forall u1 s c u2 x, NoDup (map fst (u1 ++ (s, c) :: u2)) -> U (u1 ++ (s, c) :: u2) x = if x =? s then rev c else U (u1 ++ u2) x.
Proof.
  intros u1 s c u2 x ND. unfold U. induction u1 as [|(y, d) u IH]; cbn [List.app ub_get].
  - rewrite N.eqb_sym. destruct (x =? s); auto.
  - cbn [List.app map fst] in ND. inversion ND as [|? ? N1 N2]; subst. destruct (N.eqb_spec y x) as [->|Y].
    + destruct (N.eqb_spec x s) as [->|X]; auto. exfalso. apply N1. rewrite map_app. apply in_or_app. right. left. auto.
    + apply IH. auto.
Qed.
Lemma in_ublocks : forall u s b, In (s, b) u -> forall c, In c b -> In c (ublocks u).
Proof. intros u s b I c C. apply in_flat_map. exists (s, b). auto. Qed.
Lemma ublocks_mid : forall u1 s c u2, Permutation (ublocks (u1 ++ (s, c) :: u2)) (c ++ ublocks (u1 ++ u2)).
Proof. intros. unfold ublocks. rewrite !flat_map_app. cbn [flat_map snd]. rewrite app_assoc, (app_assoc c). apply Permutation_app_tail. apply Permutation_app_comm. Qed.

(** *** The invariant of the encoder; [R]: a block being made. *)
Definition nblocking (a : N) (u : list (N * list (list N))) : N := lenN (filter (fun p => blocks_on a (snd p)) u).
Record einv (H : list header) (R : list (list N)) (e : encoder) : Prop := mkEv {
  ev_t : t_ok H (n_table e);
  ev_base : t_base (n_table e) = lenN H;
  ev_refs : refs_ok (n_table e) (R ++ ublocks (n_unacked e));
  ev_nd : Forall (@NoDup N) (R ++ ublocks (n_unacked e));
  ev_ne : Forall (fun b => b <> []) (ublocks (n_unacked e));
  ev_keys : NoDup (map fst (n_unacked e));
  ev_lists : Forall (fun p => snd p <> []) (n_unacked e);
  ev_old : oldest (n_table e) <= t_acked (n_table e);
  ev_acked : t_acked (n_table e) <= t_base (n_table e);
  ev_cnt : n_cnt e = nblocking (t_acked (n_table e)) (n_unacked e);
  ev_cntb : n_cnt e <= n_maxb e;
  ev_maxb : n_maxb e < 65536;
  ev_ent : n_max_entries e = t_cap (n_table e) / 32;
  ev_cap : t_cap (n_table e) < 2 ^ 30;
  ev_next : forall c, n_next e = Some c -> c < 2 ^ 30;
  ev_reader : ds_ok (n_reader e) }.
Lemma nblocking_app : forall a u v, nblocking a (u ++ v) = nblocking a u + nblocking a v.
Proof. intros. unfold nblocking. rewrite filter_app, lenN_app. auto. Qed.
Lemma nblocking_cons : forall a p v, nblocking a (p :: v) = (if blocks_on a (snd p) then 1 else 0) + nblocking a v.
Proof. intros. unfold nblocking. cbn [filter]. destruct (blocks_on a (snd p)); rewrite ?lenN_cons; lia. Qed.
Lemma blocks_on_mono : forall a b l, a <= b -> blocks_on b l = true -> blocks_on a l = true.
Proof.
  unfold blocks_on. intros a b l L E. apply existsb_exists in E. destruct E as (x & I & E). apply existsb_exists in E. destruct E as (i & J & E). apply N.leb_le in E.
  apply existsb_exists. exists x. split; auto. apply existsb_exists. exists i. split; auto. apply N.leb_le. lia.
Qed.
Lemma nblocking_mono : forall a b u, a <= b -> nblocking b u <= nblocking a u.
Proof.
  intros a b u L. induction u as [|p u IH]; [cbn; lia|]. rewrite !nblocking_cons. destruct (blocks_on b (snd p)) eqn:E; [rewrite (blocks_on_mono a b _ L E)|]; destruct (blocks_on a (snd p)); lia.
Qed.
Lemma blocks_on_app : forall a x y, blocks_on a (x ++ y) = blocks_on a x || blocks_on a y. Proof. intros. unfold blocks_on. apply existsb_app. Qed.
Lemma blocks_on_rev : forall a x, blocks_on a (rev x) = blocks_on a x.
Proof. intros a. induction x as [|b x IH]; auto. cbn [rev]. rewrite blocks_on_app, IH. unfold blocks_on. cbn [existsb]. rewrite orb_false_r, orb_comm. auto. Qed.
Lemma blocks_on_iff : forall a l, blocks_on a l = true <-> exists b i, In b l /\ In i b /\ a <= i.
Proof.
  intros a l. unfold blocks_on. rewrite existsb_exists. split.
  - intros (b & I & E). apply existsb_exists in E. destruct E as (i & J & E). apply N.leb_le in E. exists b, i. auto.
  - intros (b & i & I & J & L). exists b. split; auto. apply existsb_exists. exists i. split; auto. apply N.leb_le. auto.
Qed.
(** What the peer's instructions leave alone. *)
Definition econst (e e' : encoder) : Prop := n_max_table e' = n_max_table e /\ n_max_entries e' = n_max_entries e /\ n_local e' = n_local e /\ n_maxb e' = n_maxb e /\ n_maxt e' = n_maxt e /\ n_huff e' = n_huff e /\ n_next e' = n_next e /\ n_reader e' = n_reader e.

Definition tlike (t t' : table) : Prop := t_base t' = t_base t /\ t_cap t' = t_cap t /\ t_used t' = t_used t /\ map strip (t_dyn t') = map strip (t_dyn t).
Lemma like_tlike : forall t t', like t t' -> tlike t t'. Proof. unfold like, tlike. tauto. Qed.
Lemma tlike_refl : forall t, tlike t t. Proof. unfold tlike. auto. Qed.
Lemma tlike_trans : forall a b c, tlike a b -> tlike b c -> tlike a c. Proof. unfold tlike. intros a b c (A & B & C & D) (A' & B' & C' & D'). splits; congruence. Qed.
Lemma tlike_same : forall t t' t2, tlike t t' -> same t t2 -> same t' t2. Proof. unfold tlike, same. intros t t' t2 (A & B & C & D) (S1 & S2 & S3 & S4). splits; congruence. Qed.
Lemma tlike_old : forall t t', tlike t t' -> oldest t' = oldest t. Proof. intros t t' (A & B & C & D). unfold oldest. rewrite A, (map_strip_len _ _ D). auto. Qed.
Lemma econst_refl : forall e, econst e e. Proof. unfold econst. tauto. Qed.
Lemma econst_trans : forall a b c, econst a b -> econst b c -> econst a c. Proof. unfold econst. intros a b c A B. decompose [and] A. decompose [and] B. splits; congruence. Qed.

Definition set_acked (a : N) (t : table) : table := mkT (t_dyn t) (t_cap t) (t_used t) (t_base t) a.
Lemma insert_count_spec : forall e n, Forall (fun p => snd p <> []) (n_unacked e) -> t_base (n_table e) < 2 ^ 63 ->
  insert_count e n = if t_base (n_table e) <? t_acked (n_table e) + n then Bad else
    Good (with_cnt (nblocking (t_acked (n_table e) + n) (n_unacked e)) (with_table (set_acked (t_acked (n_table e) + n) (n_table e)) e)).
Proof.
  intros e n LS LB. unfold insert_count, increment_acked.
  destruct (N.leb_spec (2 ^ 64) (t_acked (n_table e) + n)).
  - assert (2 ^ 64 = 2 ^ 63 + 2 ^ 63) by reflexivity. destruct (N.ltb_spec (t_base (n_table e)) (t_acked (n_table e) + n)); [auto | lia].
  - destruct (N.ltb_spec (t_base (n_table e)) (t_acked (n_table e) + n)); auto. cbn [rbind]. unfold recalc. cbn [n_unacked with_table n_table t_acked].
    destruct (existsb _ (n_unacked e)) eqn:E; auto. apply existsb_exists in E. destruct E as ((x, b) & I & E). rewrite Forall_forall in LS. apply LS in I. cbn [snd] in *. destruct b; [tauto | discriminate].
Qed.
Lemma set_acked_ok : forall H a t B, t_ok H t -> refs_ok t B -> t_ok H (set_acked a t) /\ refs_ok (set_acked a t) B /\ oldest (set_acked a t) = oldest t.
Proof. intros H a t B O R. splits; auto. Qed.
Lemma increment_spec : forall H e n, einv H [] e -> lenN H < 2 ^ 63 -> t_acked (n_table e) + n <= t_base (n_table e) ->
  exists e', insert_count e n = Good e' /\ einv H [] e' /\ econst e e' /\ tlike (n_table e) (n_table e') /\ t_acked (n_table e') = t_acked (n_table e) + n /\ n_unacked e' = n_unacked e.
Proof.
  intros H e n V LB L. destruct V. rewrite insert_count_spec by (auto; lia). destruct (N.ltb_spec (t_base (n_table e)) (t_acked (n_table e) + n)); [lia|]. eexists. split; [reflexivity|].
  pose proof (nblocking_mono (t_acked (n_table e)) (t_acked (n_table e) + n) (n_unacked e) ltac:(lia)). splits; auto.
  - constructor; cbn [with_cnt with_table n_table n_unacked n_cnt n_maxb n_max_entries n_next n_reader]; auto; try (cbn [set_acked t_acked t_base t_cap]; lia).
    + cbn [set_acked oldest t_base t_dyn t_acked]. change (oldest (n_table e) <= t_acked (n_table e) + n). lia.
  - unfold econst; cbn; auto 10.
  - unfold tlike; cbn; auto.
Qed.
(** What an acknowledged block does to the count. *)
Definition ack_to (a : N) (refs : list N) : N := fold_left (fun a i => if a <=? i then i + 1 else a) refs a.
Lemma ack_to_spec : forall refs a, a <= ack_to a refs /\ (forall i, In i refs -> i < ack_to a refs) /\ (ack_to a refs = a \/ exists i, In i refs /\ ack_to a refs = i + 1).
Proof.
  induction refs as [|i refs IH]; intros a; cbn [ack_to fold_left].
  - splits; auto; try lia. intros i [].
  - destruct (N.leb_spec a i); destruct (IH (if a <=? i then i + 1 else a)) as (A & B & C); fold (ack_to (i + 1) refs) (ack_to a refs) in *.
    + apply N.leb_le in H as Hb. rewrite Hb in *. splits; try lia.
      * intros j [<-|J]; [lia | auto].
      * right. destruct C as [C|(j & J & C)]; [exists i | exists j]; cbn; auto.
    + destruct (N.leb_spec a i); [lia|]. splits; auto.
      * intros j [<-|J]; [lia | auto].
      * destruct C as [C|(j & J & C)]; auto. right. exists j. cbn. auto.
Qed.
Lemma header_ack_spec : forall H e s refs older, einv H [] e -> lenN H < 2 ^ 63 -> U (n_unacked e) s = refs :: older ->
  exists e', header_ack e s = Good e' /\ einv H [] e' /\ econst e e' /\ tlike (n_table e) (n_table e') /\ t_acked (n_table e') = ack_to (t_acked (n_table e)) refs /\ forall x, U (n_unacked e') x = if x =? s then older else U (n_unacked e) x.
Proof.
  intros H e s refs older V LB E. pose proof V as V0. destruct V. unfold U in E. unfold header_ack. destruct (ub_get s (n_unacked e)) as [b|] eqn:G; [|discriminate]. rewrite E.
  destruct (ub_get_split s (n_unacked e) b G ev_keys0) as (u1 & u2 & EU & N1 & N2 & ED & ES).
  assert (EB : b = rev older ++ [refs]) by (rewrite <- (rev_involutive b), E; auto).
  cbn [List.app] in *.
  assert (PM : Permutation (ublocks (n_unacked e)) (refs :: rev older ++ ublocks (u1 ++ u2))).
  { rewrite EU, ublocks_mid, EB, <- app_assoc. cbn [List.app]. symmetry. apply Permutation_middle. }
  pose proof (refs_ok_perm _ _ _ PM ev_refs0) as R1. pose proof (Permutation_Forall PM ev_nd0) as D1. inversion D1 as [|? ? D2 D3]; subst x l.
  destruct (remove_refs_spec H refs (n_table e) _ ev_t0 R1 D2) as (t & ET & LK & R2). rewrite ET. cbn [rbind].
  destruct (like_ok H _ _ LK ev_t0) as (OT & OO). pose proof LK as (L1 & L2 & L3 & L4 & L5).
  set (u := match older with [] => ub_del s (n_unacked e) | _ => ub_set s (rev older) (n_unacked e) end).
  assert (UE : u = u1 ++ (match older with [] => [] | _ => [(s, rev older)] end) ++ u2) by (unfold u; destruct older; [rewrite ED | rewrite ES]; auto).
  assert (UP : Permutation (rev older ++ ublocks (u1 ++ u2)) (ublocks u)).
  { rewrite UE. destruct older as [|o older]; [cbn [rev List.app]; auto|]. symmetry. apply (ublocks_mid u1 s (rev (o :: older)) u2). }
  clearbody u. fold (ack_to (t_acked (n_table e)) refs).
  destruct (ack_to_spec refs (t_acked (n_table e))) as (A1 & A2 & A3). set (a := ack_to (t_acked (n_table e)) refs) in *.
  assert (AB : a <= t_base (n_table e)).
  { destruct A3 as [->|(i & I & ->)]; auto. destruct R1 as (_ & R1). inversion R1 as [|? ? R3 _]; subst. rewrite Forall_forall in R3. destruct (R3 i I). lia. }
  assert (KEYS : NoDup (map fst u)).
  { rewrite EU, map_app in ev_keys0. cbn [map fst] in ev_keys0. rewrite UE, map_app, map_app. destruct older; cbn [map fst List.app]; [apply NoDup_remove_1 in ev_keys0|]; auto. }
  assert (UU : forall x, U u x = if x =? s then older else U (n_unacked e) x).
  { intros x. rewrite UE. pose proof ev_keys0 as KY. rewrite EU in KY |- *. rewrite (U_mid u1 s b u2 x KY). rewrite UE in KEYS. destruct older as [|o older].
    - destruct (N.eqb_spec x s) as [->|X]; auto. unfold U. rewrite ub_get_notin; auto. cbn [List.app]. rewrite map_app. intros I. apply in_app_or in I. tauto.
    - cbn [List.app] in *. rewrite (U_mid u1 s _ u2 x KEYS). destruct (x =? s); auto. rewrite rev_involutive. auto. }
  assert (NEW : Forall (fun p => snd p <> []) u) by (rewrite UE; rewrite EU in ev_lists0; apply Forall_app in ev_lists0; destruct ev_lists0 as (X1 & X2); inversion X2; subst; apply Forall_app; split; auto; destruct older; auto; cbn [List.app]; constructor; auto; cbn [snd rev]; intros X; apply app_eq_nil in X; destruct X; discriminate).
  assert (RU : refs_ok t (ublocks u)) by (eapply refs_ok_perm; eauto).
  assert (DU : Forall (@NoDup N) (ublocks u)) by (eapply Permutation_Forall; eauto).
  assert (EU2 : Forall (fun b => b <> []) (ublocks u)).
  { pose proof (Permutation_Forall PM ev_ne0) as X. inversion X; subst. eapply Permutation_Forall; eauto. }
  assert (CNT : (forall i, In i refs -> i < t_acked (n_table e)) -> nblocking (t_acked (n_table e)) u = nblocking (t_acked (n_table e)) (n_unacked e)).
  { intros Z. rewrite UE, EU, !nblocking_app, nblocking_cons. cbn [snd]. rewrite EB, blocks_on_app.
    assert (Y : blocks_on (t_acked (n_table e)) [refs] = false). { destruct (blocks_on _ [refs]) eqn:Q; auto. apply blocks_on_iff in Q. destruct Q as (x & i & [<-|[]] & I & J). specialize (Z i I). lia. }
    rewrite Y, orb_false_r. destruct older as [|o older]; [cbn [rev]; cbn; lia|]. rewrite nblocking_cons. cbn [snd]. change (nblocking (t_acked (n_table e)) []) with 0. lia. }
  assert (CLE : nblocking (t_acked (n_table e)) u <= nblocking (t_acked (n_table e)) (n_unacked e)).
  { rewrite UE, EU, !nblocking_app, nblocking_cons. cbn [snd]. rewrite EB, blocks_on_app. destruct older as [|o older]; [change (nblocking (t_acked (n_table e)) []) with 0; lia|].
    rewrite nblocking_cons. cbn [snd]. change (nblocking (t_acked (n_table e)) []) with 0. destruct (blocks_on (t_acked (n_table e)) (rev (o :: older))); cbn [orb]; [lia|]. destruct (blocks_on _ [refs]); lia. }
  destruct (N.ltb_spec (t_acked (n_table e)) a).
  - rewrite insert_count_spec; cbn [with_unacked with_table n_table n_unacked]; auto; [|lia]. rewrite L1, L2. destruct (N.ltb_spec (t_base (n_table e)) (t_acked (n_table e) + (a - t_acked (n_table e)))); [lia|].
    replace (t_acked (n_table e) + (a - t_acked (n_table e))) with a by lia. eexists. split; [reflexivity|]. pose proof (nblocking_mono (t_acked (n_table e)) a u ltac:(lia)).
    splits; auto; cbn [with_cnt with_unacked with_table n_table n_unacked]; auto.
    + constructor; cbn [with_cnt with_unacked with_table n_table n_unacked n_cnt n_maxb n_max_entries n_next n_reader List.app]; auto; cbn [set_acked t_base t_acked t_cap]; rewrite ?L1, ?L3; auto; try lia.
      change (oldest (set_acked a t)) with (oldest t). lia.
    + unfold econst; cbn; auto 10.
    + unfold tlike. cbn [set_acked t_base t_cap t_used t_dyn]. splits; auto.
  - assert (a = t_acked (n_table e)) by lia. eexists. split; [reflexivity|]. splits; auto; cbn [with_cnt with_unacked with_table n_table n_unacked]; auto; try congruence.
    + constructor; cbn [with_cnt with_unacked with_table n_table n_unacked n_cnt n_maxb n_max_entries n_next n_reader List.app]; rewrite ?L1, ?L2, ?L3, ?OO; auto.
      rewrite CNT; auto. intros i I. specialize (A2 i I). lia.
    + unfold econst; cbn; auto 10.
    + apply like_tlike. auto.
Qed.
Lemma cancel_spec : forall H e s, einv H [] e ->
  exists e', stream_cancellation e s = Good e' /\ einv H [] e' /\ econst e e' /\ tlike (n_table e) (n_table e') /\ t_acked (n_table e') = t_acked (n_table e) /\ forall x, U (n_unacked e') x = if x =? s then [] else U (n_unacked e) x.
Proof.
  intros H e s V. pose proof V as V0. destruct V. unfold stream_cancellation. destruct (ub_get s (n_unacked e)) as [b|] eqn:G.
  2:{ exists e. splits; auto; [apply econst_refl | apply tlike_refl|]. intros x. destruct (N.eqb_spec x s) as [->|]; auto. unfold U. rewrite G. auto. }
  destruct (ub_get_split s (n_unacked e) b G ev_keys0) as (u1 & u2 & EU & N1 & N2 & ED & ES). rewrite ED. cbn [List.app] in *.
  assert (PM : Permutation (ublocks (n_unacked e)) (b ++ ublocks (u1 ++ u2))) by (rewrite EU; apply ublocks_mid).
  pose proof (refs_ok_perm _ _ _ PM ev_refs0) as R1. pose proof (Permutation_Forall PM ev_nd0) as D1. apply Forall_app in D1. destruct D1 as (D2 & D3).
  pose proof (Permutation_Forall PM ev_ne0) as E1. apply Forall_app in E1. destruct E1 as (E2 & E3).
  destruct (remove_blocks_spec H b (n_table e) _ ev_t0 R1 D2) as (t & ET & LK & R2). rewrite ET. cbn [rbind].
  destruct (like_ok H _ _ LK ev_t0) as (OT & OO). pose proof LK as (L1 & L2 & L3 & L4 & L5).
  assert (KEYS : NoDup (map fst (u1 ++ u2))) by (rewrite EU, map_app in ev_keys0; cbn [map fst] in ev_keys0; rewrite map_app; apply NoDup_remove_1 in ev_keys0; auto).
  assert (UU : forall x, U (u1 ++ u2) x = if x =? s then [] else U (n_unacked e) x).
  { intros x. pose proof ev_keys0 as KY. rewrite EU in KY |- *. rewrite (U_mid u1 s b u2 x KY). destruct (N.eqb_spec x s) as [->|X]; auto. unfold U. rewrite ub_get_notin; auto. rewrite map_app. intros I. apply in_app_or in I. tauto. }
  assert (LS : b <> [] /\ Forall (fun p => snd p <> []) (u1 ++ u2)).
  { rewrite EU in ev_lists0. apply Forall_app in ev_lists0. destruct ev_lists0 as (X1 & X2). inversion X2; subst. split; auto. apply Forall_app. auto. }
  destruct LS as (BN & LS). assert (CN : n_cnt e = (if blocks_on (t_acked (n_table e)) b then 1 else 0) + nblocking (t_acked (n_table e)) (u1 ++ u2)) by (rewrite ev_cnt0, EU, !nblocking_app, nblocking_cons; cbn [snd]; lia).
  destruct b as [|b0 b]; [tauto|]. rewrite L2. destruct (blocks_on (t_acked (n_table e)) (b0 :: b)) eqn:BO.
  - destruct (N.eqb_spec (n_cnt e) 0); [lia|]. eexists. split; [reflexivity|]. splits; auto; cbn [with_cnt with_unacked with_table n_table n_unacked]; auto.
    + constructor; cbn [with_cnt with_unacked with_table n_table n_unacked n_cnt n_maxb n_max_entries n_next n_reader List.app]; rewrite ?L1, ?L2, ?L3, ?OO; auto; lia.
    + unfold econst; cbn; auto 10.
    + apply like_tlike. auto.
  - eexists. split; [reflexivity|]. splits; auto; cbn [with_cnt with_unacked with_table n_table n_unacked]; auto.
    + constructor; cbn [with_cnt with_unacked with_table n_table n_unacked n_cnt n_maxb n_max_entries n_next n_reader List.app]; rewrite ?L1, ?L2, ?L3, ?OO; auto; lia.
    + unfold econst; cbn; auto 10.
    + apply like_tlike. auto.
Qed.
(** Any instruction. *)
Lemma call_spec : forall H e i, einv H [] e -> lenN H < 2 ^ 63 -> match call_instruction e i with Good e' => einv H [] e' /\ econst e e' /\ tlike (n_table e) (n_table e') | Bad => True | Panic => False end.
Proof.
  intros H e i V LB. destruct i as [n|s|s]; cbn [call_instruction].
  - destruct (n =? 0); auto. destruct (N.leb_spec (t_acked (n_table e) + n) (t_base (n_table e))).
    + destruct (increment_spec H e n V LB H0) as (e' & E & V' & C & T & _). rewrite E. auto.
    + pose proof V. destruct V. rewrite insert_count_spec by (auto; lia). destruct (N.ltb_spec (t_base (n_table e)) (t_acked (n_table e) + n)); [auto | lia].
  - destruct (U (n_unacked e) s) as [|refs older] eqn:E.
    + unfold header_ack, U in *. destruct (ub_get s (n_unacked e)) as [b|] eqn:G; auto. apply ub_get_in in G. destruct V. rewrite Forall_forall in ev_lists0. apply ev_lists0 in G. cbn [snd] in G. apply (f_equal (@rev _)) in E. rewrite rev_involutive in E. tauto.
    + destruct (header_ack_spec H e s refs older V LB E) as (e' & E' & V' & C & T & _). rewrite E'. auto.
  - destruct (cancel_spec H e s V) as (e' & E & V' & C & T & _). rewrite E. auto.
Qed.
Lemma call_all_spec : forall H l e, einv H [] e -> lenN H < 2 ^ 63 -> match call_all e l with Good e' => einv H [] e' /\ econst e e' /\ tlike (n_table e) (n_table e') | Bad => True | Panic => False end.
Proof.
  intros H. induction l as [|i l IH]; intros e V LB; cbn [call_all].
  - splits; auto; [apply econst_refl | apply tlike_refl].
  - pose proof (call_spec H e i V LB) as C. destruct (call_instruction e i) as [e1| |]; cbn [rbind]; auto. destruct C as (V1 & C1 & T1). specialize (IH e1 V1 LB).
    destruct (call_all e1 l); auto. destruct IH as (V2 & C2 & T2). splits; auto; [eapply econst_trans | eapply tlike_trans]; eauto.
Qed.
