(** The QPACK encoder: one header block. *)
From Verif Require Import Base Lib QpTables QiModel QiSpec QiProofs QiProofs2 QbModel QbSpec QbProofs QbProofs2 QeModel QeProofs QeProofs2.
From Coq Require Import Permutation.
Open Scope N_scope.
Open Scope list_scope.
Import ListNotations.

Definition emore (e e' : encoder) : Prop := efixed e e' /\ n_local e' = n_local e /\ n_max_entries e' = n_max_entries e /\ n_next e' = n_next e /\ t_cap (n_table e') = t_cap (n_table e).
Lemma emore_refl : forall e, emore e e. Proof. intros. unfold emore, efixed. auto 15. Qed.
Lemma emore_trans : forall a b c, emore a b -> emore b c -> emore a c.
Proof. unfold emore, efixed. intros a b c A B. decompose [and] A. decompose [and] B. splits; congruence. Qed.
Definition instrs (l : list header) : list einstr := map (fun h => EInsertLiteral (fst h) (snd h)) l.
Lemma inserts_instrs : forall l, inserts (instrs l) = l. Proof. induction l as [|(n, v) l IH]; cbn; auto. unfold instrs in IH. rewrite IH. auto. Qed.

(** *** Fields *)
Definition hstep (h : henc) (f : fld) (h' : henc) : Prop := exists w, f_bytes (h_huff h) (h_base h) f = Some w /\ h_buf h' = h_buf h ++ w /\ h_base h' = h_base h /\ h_huff h' = h_huff h /\ h_max h' = h_max h /\
  h_ref h' = match f_ref f with None => h_ref h | Some i => match h_ref h with Some r => if r <? i then Some i else Some r | None => Some i end end.
Lemma hstep_static : forall h i, hstep h (FS i) (h_static h i). Proof. intros. eexists. split; [reflexivity|]. cbn. auto. Qed.
Lemma hstep_dynamic : forall h i, hstep h (FD i) (h_dynamic h i). Proof. intros. eexists. split; [reflexivity|]. cbn. auto. Qed.
Lemma hstep_name_ref : forall h s i v, bytes_ok v -> exists h', h_name_ref h s i v = Good h' /\ hstep h (if s then FNS i v else FND i v) h'.
Proof.
  intros h s i v B. unfold h_name_ref, h_literal. destruct s; cbn [h_put new_ref h_huff h_base h_buf]; rewrite (literal_eq _ _ _ wf_no B); eexists; (split; [reflexivity|]); unfold hstep; cbn [f_bytes h_put h_buf h_base h_huff h_max h_ref f_ref new_ref]; rewrite (literal_eq _ _ _ wf_no B); cbn [oapp];
    (eexists; split; [reflexivity|]); rewrite <- !app_assoc; auto.
Qed.
Lemma hstep_lit : forall h n v, bytes_ok n -> bytes_ok v -> exists h', h_name_literal h n v = Good h' /\ hstep h (FL n v) h'.
Proof.
  intros h n v Bn B. unfold h_name_literal, h_literal. pose proof wf_nl as W. rewrite (literal_eq _ _ _ W Bn). cbn [rbind h_put h_huff]. rewrite (literal_eq _ _ _ wf_no B). eexists. split; [reflexivity|].
  unfold hstep. cbn [f_bytes h_put h_buf h_base h_huff h_max h_ref f_ref]. rewrite (literal_eq _ _ _ W Bn), (literal_eq _ _ _ wf_no B). cbn [oapp]. eexists. split; [reflexivity|]. rewrite <- !app_assoc. auto.
Qed.
Lemma max_ref_snoc : forall fs r f, max_ref fs r -> max_ref (fs ++ [f]) (match f_ref f with None => r | Some i => match r with Some x => if x <? i then Some i else Some x | None => Some i end end).
Proof.
  intros fs r f M. destruct (f_ref f) as [i|] eqn:R.
  - destruct r as [x|]; cbn [max_ref] in *.
    + destruct M as ((g & G1 & G2) & M). destruct (N.ltb_spec x i); cbn [max_ref].
      * split; [exists f; split; auto; apply in_or_app; right; left; auto|]. intros k j I J. apply in_app_or in I. destruct I as [I|[<-|[]]]; [specialize (M _ _ I J); lia | rewrite R in J; apply some_inj in J; lia].
      * split; [exists g; split; auto; apply in_or_app; auto|]. intros k j I J. apply in_app_or in I. destruct I as [I|[<-|[]]]; [eapply M; eauto | rewrite R in J; apply some_inj in J; lia].
    + split; [exists f; split; auto; apply in_or_app; right; left; auto|]. intros k j I J. apply in_app_or in I. destruct I as [I|[<-|[]]]; [rewrite (M _ I) in J; discriminate | rewrite R in J; apply some_inj in J; lia].
  - destruct r as [x|]; cbn [max_ref] in *.
    + destruct M as ((g & G1 & G2) & M). split; [exists g; split; auto; apply in_or_app; auto|]. intros k j I J. apply in_app_or in I. destruct I as [I|[<-|[]]]; [eapply M; eauto | congruence].
    + intros k I. apply in_app_or in I. destruct I as [I|[<-|[]]]; auto.
Qed.
Lemma f_head_ext : forall H X f h, f_head H f = Some h -> f_head (H ++ X) f = Some h.
Proof.
  intros H X f h E. destruct f as [i|i|i v|i v|n v]; cbn [f_head] in *; auto.
  - rewrite nth_error_app1; auto. apply nth_error_Some. congruence.
  - destruct (nth_error H (N.to_nat i)) eqn:Q; [|discriminate]. rewrite nth_error_app1, Q; auto. apply nth_error_Some. congruence.
Qed.
Lemma f2_ext : forall H X fs hs, Forall2 (fun f h => f_head H f = Some h) fs hs -> Forall2 (fun f h => f_head (H ++ X) f = Some h) fs hs.
Proof. intros H X fs hs F. induction F; constructor; auto. apply f_head_ext. auto. Qed.
Lemma wrote_app : forall h S x y z a b, wrote h S x y a -> wrote h S y z b -> wrote h S x z (a ++ b).
Proof.
  intros h S x y z a b (w & A1 & A2 & A3 & A4) (v & B1 & B2 & B3 & B4). exists (w ++ v). splits.
  - clear A2 A3 A4. revert w A1. induction a as [|i a IH]; intros w A1; cbn [e_marshals List.app] in *; [apply some_inj in A1; subst w; auto|].
    destruct (e_marshal h i) as [p|]; [|discriminate]. destruct (e_marshals h a) as [q|] eqn:Q; [|discriminate]. cbn [oapp] in A1. apply some_inj in A1. subst w. rewrite (IH q eq_refl). cbn [oapp]. rewrite app_assoc. auto.
  - rewrite B2, A2, app_assoc. auto.
  - apply Forall_app. auto.
  - apply Forall_app. auto.
Qed.

(** *** One field *)
Lemma einv_table : forall H b b' e t', einv H [b] e -> like (n_table e) t' -> refs_ok t' (b' :: ublocks (n_unacked e)) -> NoDup b' -> einv H [b'] (with_table t' e).
Proof.
  intros H b b' e t' V L R ND. dev V. destruct (like_ok H _ _ L ev_t0) as (O & OL). destruct L as (L1 & L2 & L3 & L4 & L5).
  constructor; cbn [with_table n_table n_max_entries n_local n_next n_unacked n_cnt n_maxb n_reader]; rewrite ?L1, ?L2, ?L3, ?OL; auto. cbn [List.app] in *. inversion ev_nd0 as [|? ? A B]. constructor; auto.
Qed.
Lemma emore_like : forall e t', like (n_table e) t' -> emore e (with_table t' e).
Proof. intros e t' (L1 & L2 & L3 & L4 & L5). unfold emore, efixed. cbn. splits; auto. Qed.
Lemma like_tlike : forall t t', like t t' -> tlike t t'. Proof. intros t t' (A & B & C & D & E). unfold tlike. auto. Qed.
Lemma refs_ok_ext : forall H t t' B, t_ok H t -> refs_ok t B -> t_base t = lenN H -> t_base t' = t_base t + 1 ->
  (forall e, In e (t_dyn t') -> In e (t_dyn t) \/ exists n v, e = mkX (t_base t) n v 0) -> (forall e, In e (t_dyn t) -> x_base e < oldest t' -> can_reduce e (t_acked t) = true) -> refs_ok t' B.
Proof.
  intros H t t' B O (R & F) TB TB' I1 I2. split.
  - intros e I. destruct (I1 e I) as [J|(n & v & ->)]; [auto|]. cbn [x_refs x_base]. destruct (N.eq_dec (cntb (t_base t) B) 0) as [Z|Z]; auto. exfalso. unfold cntb in Z. destruct (filter (existsb (N.eqb (t_base t))) B) as [|b l] eqn:Q; [apply Z; reflexivity|].
    assert (In b (filter (existsb (N.eqb (t_base t))) B)) as IB by (rewrite Q; left; auto). apply filter_In in IB. destruct IB as (IB & X). apply existsb_in in X. rewrite Forall_forall in F. specialize (F _ IB). rewrite Forall_forall in F. specialize (F _ X). unfold pres in F. lia.
  - rewrite Forall_forall in F |- *. intros b IB. specialize (F b IB). rewrite Forall_forall in F |- *. intros i II. destruct (F i II) as (P1 & P2).
    destruct (get_abs_good H t i (proj1 O) (conj P1 P2)) as (e & _ & IE & XE & _). split; [|lia]. destruct (N.le_gt_cases (oldest t') i) as [L|L]; auto. exfalso. subst i.
    pose proof (I2 e IE L) as C. unfold can_reduce in C. apply andb_prop in C. destruct C as (C & _). apply N.eqb_eq in C. rewrite (R e IE) in C. pose proof (cntb_in (x_base e) B b IB II). lia.
Qed.
Lemma send_insert_spec : forall H S b e x n v, einv H [b] e -> lenN H < 2 ^ 62 -> h_fits (n_huff e) (n, v) -> exists e' x' r, send_and_insert e x n v = Good (e', x', r) /\
  match r with
  | None => e' = e /\ snd x' = snd x
  | Some i => i = lenN H /\ einv (H ++ [(n, v)]) [b] e' /\ emore e e' /\ wrote (n_huff e) S x x' [EInsertLiteral n v] /\ mirrors (n_table e) [EInsertLiteral n v] (n_table e')
  end.
Proof.
  intros H S b e x n v V LB (F1 & F2 & F3 & F4 & F5). cbn [fst snd] in *. pose proof V as V0. dev V. unfold send_and_insert. destruct (insert_possible_good (n_table e) n v) as (ok & -> & PG); [apply ev_t0|]. cbn [rbind]. destruct ok; cbn [negb].
  2:{ exists e, x, None. auto. }
  assert (FT : i_fits (n_huff e) (EInsertLiteral n v)) by (cbn; auto). destruct (e_trip (n_huff e) _ [] FT) as (w & EW & _). rewrite EW.
  assert (LC : n_local e = NoStream \/ n_local e <> NoStream) by (destruct (n_local e); auto; right; discriminate). destruct LC as [->|LC]; [exists e, x, None; auto|].
  set (X := let '(x', sent) := send x w in _). assert (X = match n_local e with NoStream => Good (e, x, None) | _ => X end) as <- by (destruct (n_local e); auto; congruence). unfold X. clear X.
  destruct (send_cases x w) as [(l & ->)|(l & ->)]; cbn [negb]; [|exists e, (l, snd x), None; auto].
  destruct (PG eq_refl) as (t' & i & ET). rewrite ET. destruct (insert_spec H (n_table e) n v ev_t0 ev_base0) as (r & ER & SP). rewrite ET in ER. subst r. destruct SP as (-> & OT & B1 & A1 & C1 & O1 & I1 & I2 & I3).
  eexists _, _, _. split; [reflexivity|]. cbn iota. split; [auto|]. splits.
  - constructor; cbn [with_next with_entries with_table n_table n_max_entries n_local n_next n_unacked n_cnt n_maxb n_reader]; rewrite ?B1, ?A1, ?C1, ?lenN_app, ?lenN_cons, ?lenN_nil; auto; try lia.
    eapply (refs_ok_ext H (n_table e)); eauto. intros e0 I. destruct (I1 e0 I); eauto.
  - unfold emore, efixed. cbn. splits; auto.
  - exists w. cbn [snd e_marshals]. rewrite EW. cbn [oapp]. rewrite app_nil_r. splits; auto.
  - cbn [with_table n_table]. eapply mirrors_insert; eauto. change (2 ^ 64) with (4 * 2 ^ 62). lia.
Qed.
(** The loop over the headers; [cap]: a bound on capacities that plays no role here. *)
Record lp (H0 : list header) (cap : N) (ct cb : bool) (e1 : encoder) (x1 : io) (s : est) (done ins : list header) (fs : list fld) : Prop := mkLp {
  lp_inv : einv (H0 ++ ins) [s_refs s] (s_enc s);
  lp_fix : emore e1 (s_enc s);
  lp_wrote : wrote (n_huff e1) cap x1 (s_io s) (instrs ins);
  lp_mir : mirrors (n_table e1) (instrs ins) (n_table (s_enc s));
  lp_h : h_base (s_h s) = t_base (n_table e1) /\ h_huff (s_h s) = n_huff e1 /\ h_max (s_h s) = n_max_entries e1;
  lp_buf : concat_o (map (f_bytes (n_huff e1) (t_base (n_table e1))) fs) = Some (h_buf (s_h s));
  lp_head : Forall2 (fun f h => f_head (H0 ++ ins) f = Some h) fs done;
  lp_st : Forall f_static_ok fs;
  lp_max : max_ref fs (h_ref (s_h s));
  lp_refs : forall i, In i (s_refs s) <-> exists f, In f fs /\ f_ref f = Some i;
  lp_old : cb = false -> Forall (fun i => i < t_acked (n_table e1)) (s_refs s);
  lp_tr : ct = false -> s_refs s = [];
  lp_len : lenN ins <= lenN done }.
Lemma lp_put : forall H0 cap ct cb e1 x1 s done ins fs, lp H0 cap ct cb e1 x1 s done ins fs -> forall e' x' h' refs' off' ins2 f hd,
  einv ((H0 ++ ins) ++ ins2) [refs'] e' -> emore (s_enc s) e' -> wrote (n_huff e1) cap (s_io s) x' (instrs ins2) -> mirrors (n_table (s_enc s)) (instrs ins2) (n_table e') -> hstep (s_h s) f h' ->
  f_head ((H0 ++ ins) ++ ins2) f = Some hd -> f_static_ok f -> (forall i, In i refs' <-> In i (s_refs s) \/ f_ref f = Some i) -> (cb = false -> forall i, f_ref f = Some i -> i < t_acked (n_table e1)) -> (ct = false -> f_ref f = None) -> lenN ins2 <= 1 ->
  lp H0 cap ct cb e1 x1 (mkS e' x' h' refs' off') (done ++ [hd]) (ins ++ ins2) (fs ++ [f]).
Proof.
  intros H0 cap ct cb e1 x1 s done ins fs [L1 L2 L3 L4 (L5a & L5b & L5c) L6 L7 L8 L9 L10 L11 L12 L13] e' x' h' refs' off' ins2 f hd V EM W M (w & HW & HB & Hb & Hh & Hm & Hr) FH FS RI OL TR LE.
  constructor; cbn [s_enc s_io s_h s_refs s_off].
  - rewrite app_assoc. auto.
  - eapply emore_trans; eauto.
  - unfold instrs. rewrite map_app. eapply wrote_app; eauto.
  - unfold instrs. rewrite map_app. eapply mirrors_app; eauto.
  - splits; congruence.
  - rewrite map_app. cbn [map]. rewrite concat_o_snoc, L6, <- L5a, <- L5b, HW, HB. auto.
  - rewrite app_assoc. apply Forall2_app; [apply f2_ext; auto | constructor; auto].
  - apply Forall_app. auto.
  - rewrite Hr. apply max_ref_snoc. auto.
  - intros i. rewrite RI, L10. split.
    + intros [(g & G1 & G2)|G]; [exists g | exists f]; split; auto; apply in_or_app; auto. right. left. auto.
    + intros (g & G1 & G2). apply in_app_or in G1. destruct G1 as [G1|[<-|[]]]; eauto.
  - intros CB. rewrite Forall_forall. intros i I. apply RI in I. destruct I as [I|I]; [|auto]. specialize (L11 CB). rewrite Forall_forall in L11. auto.
  - intros CT. destruct refs' as [|i r]; auto. exfalso. assert (In i (i :: r)) as I by (left; auto). apply RI in I. rewrite (L12 CT) in I. destruct I as [[]|I]. rewrite (TR CT) in I. discriminate.
  - rewrite !lenN_app, lenN_cons, lenN_nil. lia.
Qed.
Lemma enc_field_spec : forall H0 cap ct cb e1 x1 s done ins fs hd, lp H0 cap ct cb e1 x1 s done ins fs -> (cb = true -> ct = true) -> h_fits (n_huff e1) hd -> lenN (H0 ++ ins) < 2 ^ 62 ->
  exists s' ins' fs', enc_field ct cb s hd = Good s' /\ lp H0 cap ct cb e1 x1 s' (done ++ [hd]) ins' fs'.
Proof.
  intros H0 cap ct cb e1 x1 s done ins fs (name, value) L CC F LB. pose proof F as (F1 & F2 & F3 & F4 & F5). cbn [fst snd] in *. unfold enc_field. pose proof L as [L1 L2 L3 L4 (L5a & L5b & L5c) L6 L7 L8 L9 L10 L11 L12 L13].
  assert (HE : n_huff (s_enc s) = n_huff e1) by apply L2. assert (AE : t_acked (n_table (s_enc s)) = t_acked (n_table e1)) by apply L2.
  assert (PUT0 : forall f h' off' x', snd x' = snd (s_io s) -> hstep (s_h s) f h' -> f_ref f = None -> f_head (H0 ++ ins) f = Some (name, value) -> f_static_ok f -> lp H0 cap ct cb e1 x1 (mkS (s_enc s) x' h' (s_refs s) off') (done ++ [(name, value)]) (ins ++ []) (fs ++ [f])).
  { intros f h' off' x' SX HS FR FH FS. eapply (lp_put _ _ _ _ _ _ _ _ _ _ L); eauto; rewrite ?app_nil_r; auto.
    - apply emore_refl.
    - destruct x' as (a, c). cbn in SX. subst c. apply wrote_nil.
    - apply mirrors_nil, tlike_refl.
    - intros i. rewrite FR. split; [auto|]. intros [?|?]; [auto | discriminate].
    - intros _ i I. congruence.
    - rewrite lenN_nil. lia. }
  set (fo := if ct then lookup (n_table (s_enc s)) name value cb else _).
  assert (FO : forall r, fo = Some r -> found_ok (H0 ++ ins) (n_table (s_enc s)) name value cb r /\ (ct = false -> f_static r = true)).
  { intros r R. subst fo. destruct ct.
    - split; [|discriminate]. eapply lookup_spec; eauto. apply L1.
    - destruct (static_lookup name value) as [(i, m)|] eqn:SL; [|discriminate]. apply some_inj in R. subst r. pose proof (static_lookup_spec _ _ _ _ SL) as (v & A & B & C). split; [|auto]. unfold found_ok. cbn [f_static f_index f_match]. exists v. auto. }
  clearbody fo. destruct fo as [r|].
  - destruct (FO r eq_refl) as (FK & FT). clear FO. unfold found_ok in FK. destruct (f_static r) eqn:ST.
    + destruct FK as (v & A & B & C). destruct (f_match r) eqn:MT; cbn [rbind].
      * eexists _, _, _. split; [reflexivity|]. apply (PUT0 (FS (f_index r))); auto; [apply hstep_static | cbn; rewrite A, (B eq_refl); auto].
      * destruct (hstep_name_ref (s_h s) true (f_index r) value F2) as (h' & -> & HS). cbn [rbind]. eexists _, _, _. split; [reflexivity|]. eapply PUT0; eauto. cbn. rewrite A. auto.
    + destruct FK as (v & A & B & P & C).
      assert (Q : exists f h', (if f_match r then Good (h_dynamic (s_h s) (f_index r)) else h_name_ref (s_h s) false (f_index r) value) = Good h' /\ hstep (s_h s) f h' /\ f_ref f = Some (f_index r) /\ f_head (H0 ++ ins) f = Some (name, value) /\ f_static_ok f).
      { destruct (f_match r) eqn:MT.
        - exists (FD (f_index r)). eexists. split; [reflexivity|]. splits; auto; [apply hstep_dynamic | cbn; rewrite A, (B eq_refl); auto | exact Logic.I].
        - destruct (hstep_name_ref (s_h s) false (f_index r) value F2) as (h' & E & HS). exists (FND (f_index r) value), h'. splits; auto; [cbn; rewrite A; auto | exact Logic.I]. }
      destruct Q as (f & h' & -> & HS & FR & FH & FSO). cbn [rbind]. unfold enc_ref.
      assert (PUT1 : forall e' refs', einv (H0 ++ ins) [refs'] e' -> emore (s_enc s) e' -> tlike (n_table (s_enc s)) (n_table e') -> (forall i, In i refs' <-> In i (s_refs s) \/ f_index r = i) ->
        lp H0 cap ct cb e1 x1 (mkS e' (s_io s) h' refs' (s_off s)) (done ++ [(name, value)]) (ins ++ []) (fs ++ [f])).
      { intros e' refs' V' EM TL RI. eapply (lp_put _ _ _ _ _ _ _ _ _ _ L); eauto; rewrite ?app_nil_r; auto.
        - destruct (s_io s). apply wrote_nil.
        - apply mirrors_nil. auto.
        - intros i. rewrite RI, FR. split; intros [Z|Z]; auto; [subst; auto | apply some_inj in Z; auto].
        - intros CB i I. rewrite FR in I. apply some_inj in I. subst i. rewrite <- AE. auto.
        - intros CT. specialize (FT CT). discriminate.
        - rewrite lenN_nil. lia. }
      destruct (memN (f_index r) (s_refs s)) eqn:MEM; cbn [rbind].
      * eexists _, _, _. split; [reflexivity|]. apply PUT1; auto; [apply emore_refl | apply tlike_refl|]. unfold memN in MEM. apply existsb_in in MEM. intros i. split; auto. intros [Z|Z]; subst; auto.
      * assert (NI : ~ In (f_index r) (s_refs s)) by (intros I; apply existsb_in in I; unfold memN in MEM; congruence).
        destruct (add_ref_spec (H0 ++ ins) (n_table (s_enc s)) (f_index r) (s_refs s) (ublocks (n_unacked (s_enc s)))) as (t' & -> & LK & RO); [apply L1 | auto | apply L1 | auto|]. cbn [rbind].
        eexists _, _, _. split; [reflexivity|]. apply PUT1; auto.
        -- eapply einv_table; eauto. constructor; auto. pose proof (ev_nd _ _ _ L1) as ND. inversion ND; auto.
        -- apply emore_like. auto.
        -- apply like_tlike. auto.
        -- intros i. cbn [In]. tauto.
  - assert (PL : forall x' off', snd x' = snd (s_io s) -> exists h', h_name_literal (s_h s) name value = Good h' /\ lp H0 cap ct cb e1 x1 (mkS (s_enc s) x' h' (s_refs s) off') (done ++ [(name, value)]) (ins ++ []) (fs ++ [FL name value])).
    { intros x' off' SX. destruct (hstep_lit (s_h s) name value F1 F2) as (h' & E & HS). exists h'. split; auto. apply PUT0; auto. exact Logic.I. }
    destruct (cb && negb (s_off s)) eqn:CB.
    2:{ destruct (PL (s_io s) (s_off s) eq_refl) as (h' & -> & P). cbn [rbind]. eauto. }
    apply andb_prop in CB. destruct CB as (CB & _). destruct (send_insert_spec (H0 ++ ins) cap (s_refs s) (s_enc s) (s_io s) name value L1 LB) as (e' & x' & ri & -> & SP); [rewrite HE; auto|]. cbn [rbind]. destruct ri as [i|].
    2:{ destruct SP as (-> & SX). destruct (PL x' true SX) as (h' & -> & P). cbn [rbind]. eauto. }
    destruct SP as (-> & V' & EM & W & M).
    assert (PR : pres (n_table e') (lenN (H0 ++ ins))) by (pose proof (ev_base _ _ _ V') as B'; rewrite lenN_app, lenN_cons, lenN_nil in B'; pose proof (ev_old _ _ _ V'); pose proof (ev_acked _ _ _ L1); pose proof (ev_base _ _ _ L1); pose proof EM as ((_ & _ & _ & _ & _ & _ & _ & A') & _); unfold pres; lia).
    assert (NI : ~ In (lenN (H0 ++ ins)) (s_refs s)).
    { intros I. pose proof (proj2 (ev_refs _ _ _ L1)) as RF. cbn [List.app] in RF. inversion RF as [|? ? RF1 RF2]. rewrite Forall_forall in RF1. specialize (RF1 _ I). unfold pres in RF1. pose proof (ev_base _ _ _ L1). lia. }
    destruct (add_ref_spec ((H0 ++ ins) ++ [(name, value)]) (n_table e') (lenN (H0 ++ ins)) (s_refs s) (ublocks (n_unacked e'))) as (t' & -> & LK & RO); [apply V' | auto | apply V' | auto|]. cbn [rbind].
    replace (memN (lenN (H0 ++ ins)) (s_refs s)) with false by (symmetry; apply existsb_notin; auto).
    eexists _, _, _. split; [reflexivity|]. eapply (lp_put _ _ _ _ _ _ _ _ _ _ L _ _ _ _ _ [(name, value)] (FD (lenN (H0 ++ ins)))); eauto.
    + eapply einv_table; eauto. constructor; auto. pose proof (ev_nd _ _ _ L1) as ND. inversion ND; auto.
    + eapply emore_trans; eauto. apply emore_like. auto.
    + rewrite <- HE. auto.
    + rewrite <- (app_nil_r (instrs _)). eapply mirrors_app; [exact M|]. apply mirrors_nil. apply like_tlike. auto.
    + apply hstep_dynamic.
    + cbn [f_head]. unfold lenN. rewrite Nat2N.id, nth_error_app2, Nat.sub_diag by lia. auto.
    + exact Logic.I.
    + intros i. cbn [In f_ref]. split; intros [Z|Z]; auto; [subst; auto | apply some_inj in Z; auto].
    + congruence.
    + intros CT. specialize (CC CB). congruence.
    + rewrite lenN_cons, lenN_nil. lia.
Qed.
Lemma enc_fields_spec : forall H0 cap ct cb e1 x1 l s done ins fs, lp H0 cap ct cb e1 x1 s done ins fs -> (cb = true -> ct = true) -> Forall (h_fits (n_huff e1)) l -> lenN H0 + lenN done + lenN l < 2 ^ 62 ->
  exists s' ins' fs', enc_fields ct cb s l = Good s' /\ lp H0 cap ct cb e1 x1 s' (done ++ l) ins' fs'.
Proof.
  intros H0 cap ct cb e1 x1. induction l as [|hd l IH]; intros s done ins fs L CC F LB; cbn [enc_fields].
  - rewrite app_nil_r. eauto.
  - inversion F as [|? ? F1 F2]. subst. rewrite lenN_cons in LB. destruct (enc_field_spec _ _ _ _ _ _ _ _ _ _ hd L CC F1) as (s1 & ins1 & fs1 & -> & L1); [pose proof (lp_len _ _ _ _ _ _ _ _ _ _ L); rewrite lenN_app; lia|]. cbn [rbind].
    destruct (IH s1 (done ++ [hd]) ins1 fs1 L1 CC F2) as (s' & ins' & fs' & E & L'); [rewrite lenN_app, lenN_cons, lenN_nil; lia|]. exists s', ins', fs'. rewrite <- app_assoc in L'. auto.
Qed.

(** *** A header block *)
Definition bfacts (H : list header) (huff : bool) (M : N) (hs : list header) (refs : list N) (bytes : list N) : Prop :=
  exists fs w r base, base <= lenN H /\ Forall2 (fun f h => f_head H f = Some h) fs hs /\ Forall f_static_ok fs /\ concat_o (map (f_bytes huff base) fs) = Some w /\ max_ref fs r /\
    h_prefix (mkH w base huff M r) = Good bytes /\ forall i, In i refs <-> exists f, In f fs /\ f_ref f = Some i.
Lemma einv_open : forall H e, einv H [] e -> einv H [[]] e.
Proof. intros H e V. dev V. constructor; auto; cbn [List.app] in *; [apply refs_ok_nil; auto | constructor; auto; apply NoDup_nil]. Qed.
Lemma einv_close : forall H e, einv H [[]] e -> einv H [] e.
Proof. intros H e V. dev V. constructor; auto; cbn [List.app] in *; [apply -> refs_ok_nil; auto | inversion ev_nd0; auto]. Qed.
Lemma pres_cap : forall H R e i b, einv H R e -> In b (R ++ ublocks (n_unacked e)) -> In i b -> 32 <= t_cap (n_table e) /\ n_max_entries e <> 0.
Proof.
  intros H R e i b V I1 I2. dev V. destruct ev_refs0 as (_ & F). rewrite Forall_forall in F. specialize (F _ I1). rewrite Forall_forall in F. specialize (F _ I2). unfold pres, oldest in F. destruct ev_t0 as (W & U1 & U2 & U3). pose proof (sizes_min (t_dyn (n_table e))).
  assert (32 <= t_cap (n_table e)) as C by lia. split; auto. rewrite ev_ent0. pose proof (N.div_le_mono 32 (t_cap (n_table e)) 32 ltac:(lia) C) as D. change (32 / 32) with 1 in D. lia.
Qed.
Definition was_blocking (a : N) (u : list (N * list (list N))) (s : N) : bool := match ub_get s u with None => false | Some b => blocks_on a b end.
Lemma remember_spec : forall H e sid refs cnt, einv H [refs] e -> refs <> [] ->
  cnt = n_cnt e + (if negb (was_blocking (t_acked (n_table e)) (n_unacked e) sid) && existsb (fun i => t_acked (n_table e) <=? i) refs then 1 else 0) -> cnt <= n_maxb e ->
  let e' := with_unacked (ub_set sid (refs :: match ub_get sid (n_unacked e) with Some b => b | None => [] end) (n_unacked e)) (with_cnt cnt e) in
  einv H [] e' /\ forall x, U (n_unacked e') x = if x =? sid then U (n_unacked e) x ++ [refs] else U (n_unacked e) x.
Proof.
  intros H e sid refs cnt V NE C CB e'. dev V. unfold was_blocking in C.
  assert (Q : NoDup (map fst (n_unacked e')) /\ Permutation (refs :: ublocks (n_unacked e)) (ublocks (n_unacked e')) /\ Forall (fun p => snd p <> []) (n_unacked e') /\ nblocking (t_acked (n_table e)) (n_unacked e') = cnt /\
    forall x, U (n_unacked e') x = if x =? sid then U (n_unacked e) x ++ [refs] else U (n_unacked e) x).
  { subst e'. cbn [with_unacked n_unacked with_cnt]. destruct (ub_get sid (n_unacked e)) as [b|] eqn:G.
    - destruct (ub_get_split _ _ _ G ev_keys0) as (u1 & u2 & EU & N1 & N2 & _ & ST). rewrite ST. rewrite EU in *. rewrite map_app in ev_keys0 |- *. cbn [map fst] in *. splits; auto.
      + rewrite ublocks_mid. cbn [List.app]. rewrite ublocks_mid. reflexivity.
      + apply Forall_app in ev_lists0. destruct ev_lists0 as (A & B). inversion B as [|? ? B1 B2]. apply Forall_app. split; auto. constructor; auto. discriminate.
      + rewrite nblocking_app, nblocking_cons. cbn [snd]. rewrite C, ev_cnt0, nblocking_app, nblocking_cons. cbn [snd]. unfold blocks_on at 1. cbn [existsb]. fold (blocks_on (t_acked (n_table e)) b). destruct (blocks_on (t_acked (n_table e)) b); cbn [negb andb]; rewrite ?orb_true_r, ?orb_false_r; [lia|].
        destruct (existsb (fun i => t_acked (n_table e) <=? i) refs); lia.
      + intros x. rewrite !U_mid; try (rewrite map_app; cbn [map fst]; auto). destruct (x =? sid); auto.
    - destruct (ub_get_none _ _ G) as (NI & ST). rewrite ST. rewrite map_app. cbn [map fst]. splits.
      + apply nodup_snoc; auto.
      + unfold ublocks. rewrite flat_map_app. cbn [flat_map snd]. rewrite app_nil_r. apply Permutation_cons_append.
      + apply Forall_app. split; auto. constructor; auto. discriminate.
      + rewrite nblocking_app, nblocking_cons, C, ev_cnt0. cbn [snd negb andb]. unfold blocks_on at 1. cbn [existsb]. rewrite orb_false_r. unfold nblocking at 2. cbn [filter]. unfold lenN at 1. cbn [length N.of_nat]. destruct (existsb (fun i => t_acked (n_table e) <=? i) refs); lia.
      + intros x. rewrite U_mid; [|rewrite map_app; cbn [map fst]; apply nodup_snoc; auto]. rewrite app_nil_r. destruct (N.eqb_spec x sid); auto. subst x. unfold U. rewrite G. auto. }
  destruct Q as (Q1 & Q2 & Q3 & Q4 & Q5). split; auto. cbn [List.app] in *.
  assert (NN : Forall (fun b => b <> []) (refs :: ublocks (n_unacked e))) by (constructor; auto).
  constructor; cbn [List.app]; try (subst e'; cbn [with_unacked with_cnt n_table n_max_entries n_local n_next n_cnt n_maxb n_reader]; auto; fail).
  - subst e'. cbn [with_unacked with_cnt n_table n_unacked] in *. eapply refs_ok_perm; eauto.
  - eapply Permutation_Forall; eauto.
  - eapply Permutation_Forall; eauto.
Qed.
Lemma encode_spec : forall H S e0 x0 l sid, einv H [] e0 -> Forall (h_fits (n_huff e0)) l -> lenN H + lenN l < 2 ^ 62 -> cap_ok S e0 -> exists e x b l' ins refs,
  encode_block e0 x0 l sid = Good (e, x, b) /\ einv (H ++ ins) [] e /\ lenN ins <= lenN l /\ wrote (n_huff e0) S x0 x l' /\ inserts l' = ins /\ mirrors (n_table e0) l' (n_table e) /\ cap_ok S e /\
  (n_max_table e = n_max_table e0 /\ n_maxb e = n_maxb e0 /\ n_maxt e = n_maxt e0 /\ n_huff e = n_huff e0 /\ n_reader e = n_reader e0 /\ t_acked (n_table e) = t_acked (n_table e0)) /\
  bfacts (H ++ ins) (n_huff e0) (n_max_entries e) l refs b /\ (forall x, U (n_unacked e) x = if x =? sid then U (n_unacked e0) x ++ match refs with [] => [] | _ => [refs] end else U (n_unacked e0) x) /\
  (t_cap (n_table e) = t_cap (n_table e0) \/ t_cap (n_table e) <= S /\ Some (t_cap (n_table e)) = n_next e0) /\ (n_next e = n_next e0 \/ n_next e = None).
Proof.
  intros H S e0 x0 l sid V F LB CO. unfold encode_block.
  destruct (send_updates_spec H S e0 x0 V) as (e1 & x1 & ok & l1 & -> & V1 & EF & _ & _ & W1 & I1 & M1 & CO1 & D1 & NXE); [change (2 ^ 63) with (2 * 2 ^ 62); lia | auto|]. cbn [rbind].
  pose proof EF as (E1 & E2 & E3 & E4 & E5 & E6 & E7 & E8).
  assert (IB : is_blocker e1 sid = Good (was_blocking (t_acked (n_table e1)) (n_unacked e1) sid)).
  { unfold is_blocker, was_blocking. destruct (ub_get sid (n_unacked e1)) as [[|c b]|] eqn:G; auto. exfalso. apply ub_get_in in G. pose proof (ev_lists _ _ _ V1) as FL. rewrite Forall_forall in FL. apply (FL _ G). reflexivity. }
  rewrite IB. cbn [rbind]. set (was := was_blocking (t_acked (n_table e1)) (n_unacked e1) sid) in *.
  set (ct := was || _ || _). set (cb := was || ct && (n_cnt e1 <? n_maxb e1)).
  assert (CC : cb = true -> ct = true) by (unfold cb; intros C; destruct was; [reflexivity | apply andb_prop in C; apply C]).
  assert (CW : cb = true -> was = false -> n_cnt e1 < n_maxb e1) by (unfold cb; intros C ->; cbn [orb] in C; apply andb_prop in C; destruct C as (_ & C); apply N.ltb_lt; auto).
  clearbody cb ct. pose proof (einv_open _ _ V1) as V2.
  assert (L0 : lp H S ct cb e1 x1 (mkS e1 x1 (h_new (t_base (n_table e1)) (n_huff e1) (n_max_entries e1)) [] (negb ok)) [] [] []).
  { constructor; cbn [s_enc s_io s_h s_refs h_new h_base h_huff h_max h_buf h_ref map concat_o max_ref f_ref instrs]; rewrite ?app_nil_r; auto; try lia; try apply emore_refl.
    - destruct x1. apply wrote_nil.
    - apply mirrors_nil, tlike_refl.
    - intros f [].
    - intros i. split; [intros [] | intros (f & [] & _)]. }
  destruct (enc_fields_spec H S ct cb e1 x1 l _ [] [] [] L0 CC) as (s & ins & fs & -> & L); [rewrite E4; auto | rewrite lenN_nil; lia|]. cbn [rbind]. clear L0. cbn [List.app] in L.
  destruct L as [L1 L2 L3 L4 (L5a & L5b & L5c) L6 L7 L8 L9 L10 L11 L12 L13]. pose proof L2 as ((G1 & G2 & G3 & G4 & G5 & G6 & G7 & G8) & G9 & G10 & G11 & G12).
  assert (RN : h_ref (s_h s) = None <-> s_refs s = []).
  { destruct (h_ref (s_h s)) as [r|] eqn:HR; cbn [max_ref] in L9.
    - split; [discriminate|]. intros Z. destruct L9 as ((f & X & Y) & _). assert (In r (s_refs s)) as I by (apply L10; eauto). rewrite Z in I. destruct I.
    - split; auto. intros _. destruct (s_refs s) as [|i q] eqn:Q; auto. exfalso. assert (In i (i :: q)) as I by (left; auto). apply L10 in I. destruct I as (f & X & Y). rewrite (L9 f X) in Y. discriminate. }
  assert (HP : exists b, h_prefix (s_h s) = Good b).
  { unfold h_prefix. destruct (h_ref (s_h s)) as [r|] eqn:HR; [|eauto]. destruct (s_refs s) as [|i q] eqn:Q; [destruct RN as (_ & RN); specialize (RN eq_refl); discriminate|].
    destruct (pres_cap _ _ _ i (i :: q) L1) as (_ & NZ); [left; auto | left; auto|]. rewrite L5c, <- G10. destruct (N.eqb_spec (n_max_entries (s_enc s)) 0); [congruence|]. eauto. }
  destruct HP as (b & HP). rewrite HP. cbn [rbind].
  assert (BF : bfacts (H ++ ins) (n_huff e0) (n_max_entries (s_enc s)) l (s_refs s) b).
  { exists fs, (h_buf (s_h s)), (h_ref (s_h s)), (t_base (n_table e1)). rewrite <- E4. splits; auto.
    - rewrite (ev_base _ _ _ V1), lenN_app. lia.
    - rewrite G10, <- L5a, <- L5b, <- L5c. destruct (s_h s). exact HP. }
  assert (WR : wrote (n_huff e0) S x0 (s_io s) (l1 ++ instrs ins)) by (rewrite E4 in L3; eapply wrote_app; eauto).
  assert (INS : inserts (l1 ++ instrs ins) = ins) by (rewrite inserts_app, I1, inserts_instrs; auto).
  assert (MIR : mirrors (n_table e0) (l1 ++ instrs ins) (n_table (s_enc s))) by (eapply mirrors_app; eauto).
  assert (CAP : t_cap (n_table (s_enc s)) = t_cap (n_table e0) \/ t_cap (n_table (s_enc s)) <= S /\ Some (t_cap (n_table (s_enc s))) = n_next e0) by (rewrite G12; destruct D1 as [(D1 & _)|D1]; [left; congruence | right; auto]).
  assert (COE : cap_ok S (s_enc s)) by (intros c C; rewrite G11 in C; auto).
  assert (NX : n_next (s_enc s) = n_next e0 \/ n_next (s_enc s) = None).
  { rewrite G11. auto. }
  set (blocking := negb was && existsb (fun i => t_acked (n_table (s_enc s)) <=? i) (s_refs s)).
  assert (BL : blocking = true -> n_cnt (s_enc s) < n_maxb (s_enc s)).
  { unfold blocking. intros B. apply andb_prop in B. destruct B as (B1 & B2). rewrite G7, G2. apply negb_true_iff in B1. apply CW; auto. destruct cb eqn:CB; auto. exfalso. specialize (L11 eq_refl). apply existsb_exists in B2. destruct B2 as (i & B2 & B3). rewrite Forall_forall in L11. specialize (L11 _ B2). apply N.leb_le in B3. lia. }
  pose proof (ev_maxb _ _ _ L1) as MB.
  set (cnt := n_cnt (s_enc s) + if blocking then 1 else 0).
  assert (CE : (if blocking then if n_maxb (s_enc s) <? n_cnt (s_enc s) then Panic else if 65536 <=? n_cnt (s_enc s) + 1 then Panic else Good (with_cnt (n_cnt (s_enc s) + 1) (s_enc s)) else Good (s_enc s)) = Good (with_cnt cnt (s_enc s))).
  { unfold cnt. destruct blocking.
    - specialize (BL eq_refl). destruct (N.ltb_spec (n_maxb (s_enc s)) (n_cnt (s_enc s))); [lia|]. destruct (N.leb_spec 65536 (n_cnt (s_enc s) + 1)); [lia|]. auto.
    - rewrite N.add_0_r. destruct (s_enc s). auto. }
  rewrite CE. cbn [rbind]. destruct (s_refs s) as [|i q] eqn:Q.
  - assert (blocking = false) as BF0 by (unfold blocking; cbn [existsb]; apply andb_false_r). eexists _, _, _, (l1 ++ instrs ins), ins, []. split; [reflexivity|].
    assert (with_cnt cnt (s_enc s) = s_enc s) as -> by (unfold cnt; rewrite BF0, N.add_0_r; destruct (s_enc s); auto). splits; auto; try congruence; try lia.
    + apply einv_close. auto.
    + intros x. rewrite G6, E6, app_nil_r. destruct (x =? sid); auto.
  - destruct (remember_spec (H ++ ins) (s_enc s) sid (i :: q) cnt L1) as (V3 & UU); [discriminate | unfold cnt, blocking, was; rewrite G6, G8; auto | unfold cnt; destruct blocking; [specialize (BL eq_refl); lia | pose proof (ev_cntb _ _ _ L1); lia]|].
    eexists _, _, _, (l1 ++ instrs ins), ins, (i :: q). split; [reflexivity|]. splits; auto; cbn [with_unacked with_cnt n_max_table n_maxb n_maxt n_huff n_reader n_table n_max_entries n_next n_unacked]; try congruence; try lia; auto.
    intros x. cbn [with_unacked with_cnt n_unacked] in UU. rewrite UU, G6, E6. auto.
Qed.
