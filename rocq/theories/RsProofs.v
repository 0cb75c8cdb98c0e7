From Verif Require Import Base Lib CodecModel FcModel FcSpec FcProofs RxModel RxSpec RxProofs RsModel RsSpec.

(** * Flow control facts *)
Lemma consume_stream c fc : rinv RStream fc ->
  (rf_max_allowed fc < c -> rfc_consume RStream c fc = Some (fc, None)) /\
  (c <= rf_max_allowed fc -> exists fc1, rfc_consume RStream c fc = Some (fc1, Some (N.max c (rf_consumed fc) - rf_consumed fc)) /\ rinv RStream fc1 /\
     rf_consumed fc1 = N.max c (rf_consumed fc) /\ rf_retired fc1 = rf_retired fc /\ rf_max_allowed fc1 = rf_max_allowed fc).
Proof.
  intros I. pose proof (ri_ca _ _ I). unfold rfc_consume. split; intros Hc.
  - destruct (N.leb_spec c (rf_consumed fc)); [lia|]. destruct (N.ltb_spec (rf_max_allowed fc) c); [reflexivity|lia].
  - destruct (N.leb_spec c (rf_consumed fc)).
    + exists fc. rewrite N.max_r, N.sub_diag by assumption. splits; auto.
    + destruct (N.ltb_spec (rf_max_allowed fc) c); [lia|]. rewrite N.max_l by lia. eexists. split; [reflexivity|]. cbn [rf_consumed rf_retired rf_max_allowed]. splits; auto.
      destruct I. split; cbn [rf_consumed rf_retired rf_max_allowed rf_max_active rf_pending]; auto; lia.
Qed.
Lemma consume_conn n f : rinv RConn f -> n <= MAX_VARINT ->
  (rf_max_allowed f < rf_consumed f + n -> rfc_consume RConn n f = Some (f, None)) /\
  (rf_consumed f + n <= rf_max_allowed f -> exists f1, rfc_consume RConn n f = Some (f1, Some n) /\ rinv RConn f1 /\
     rf_consumed f1 = rf_consumed f + n /\ rf_retired f1 = rf_retired f /\ rf_max_allowed f1 = rf_max_allowed f).
Proof.
  intros I Hn. pose proof (ri_ca _ _ I). pose proof (ri_cap _ _ I). unfold rfc_consume. rewrite chk_ok by (unfold MAX_VARINT in *; lia). split; intros Hc.
  - destruct (N.ltb_spec (rf_max_allowed f) (rf_consumed f + n)); [reflexivity|lia].
  - destruct (N.ltb_spec (rf_max_allowed f) (rf_consumed f + n)); [lia|]. eexists. split; [reflexivity|]. cbn [rf_consumed rf_retired rf_max_allowed]. splits; auto.
    destruct I. split; cbn [rf_consumed rf_retired rf_max_allowed rf_max_active rf_pending]; auto; lia.
Qed.
Lemma retire_ok k n f : data k -> rinv k f -> rf_retired f + n <= rf_consumed f ->
  exists f1, rfc_retire k n f = Some f1 /\ rinv k f1 /\ rf_consumed f1 = rf_consumed f /\ rf_retired f1 = rf_retired f + n /\ rf_max_allowed f1 = rf_max_allowed f.
Proof.
  intros Hk I Hn. assert (exists f1, rfc_retire k n f = Some f1) as [f1 E].
  { destruct I. destruct Hk as [-> | ->]; unfold rfc_retire; (destruct (N.ltb_spec (rf_consumed f) (rf_retired f + n)); [lia|]); unfold rfc_should_send;
      cbn [rf_max_allowed rf_retired]; rewrite csub_ok by lia; destruct (_ <? _); eauto. }
  exists f1. split; [assumption|]. destruct (rstep_inv k f (RRetire n) f1 RQuiet Hk I Logic.I) as (A1 & A2 & A3 & A4 & A5 & _); [cbn [rstep]; rewrite E; reflexivity|].
  splits; auto. lia.
Qed.
Lemma dS : data RStream. Proof. right; reflexivity. Qed.
Lemma dC : data RConn. Proof. left; reflexivity. Qed.

Definition both (sess fc : rfc) : Prop := rinv RConn sess /\ rinv RStream fc /\ rf_consumed fc + rf_retired sess <= rf_consumed sess + rf_retired fc.
(** The session moves with the stream. *)
Definition moves (sess fc sess' fc' : rfc) : Prop :=
  both sess' fc' /\ rf_consumed sess' + rf_consumed fc = rf_consumed sess + rf_consumed fc' /\
  rf_retired sess' + rf_retired fc = rf_retired sess + rf_retired fc' /\
  rf_max_allowed sess' = rf_max_allowed sess /\ rf_consumed fc <= rf_consumed fc'.
Lemma moves_refl sess fc : both sess fc -> moves sess fc sess fc.
Proof. intros B. split; [assumption|]. splits; auto; lia. Qed.
Lemma moves_trans s0 f0 s1 f1 s2 f2 : moves s0 f0 s1 f1 -> moves s1 f1 s2 f2 -> moves s0 f0 s2 f2.
Proof. unfold moves. intros (A1 & A2 & A3 & A4 & A5) (B1 & B2 & B3 & B4 & B5). splits; auto; try lia; try congruence. Qed.

Lemma retire_data_ok n sess fc : both sess fc -> rf_retired fc + n <= rf_consumed fc ->
  exists sess' fc', retire_data n sess fc = Some (sess', fc') /\ moves sess fc sess' fc' /\
    rf_consumed fc' = rf_consumed fc /\ rf_retired fc' = rf_retired fc + n /\ rf_max_allowed fc' = rf_max_allowed fc.
Proof.
  intros B Hn. pose proof B as (I1 & I2 & L). unfold retire_data. destruct (N.ltb_spec 0 n).
  - destruct (retire_ok RStream n fc dS I2 Hn) as (f1 & -> & A1 & A2 & A3 & A4).
    destruct (retire_ok RConn n sess dC I1 ltac:(lia)) as (s1 & -> & B1 & B2 & B3 & B4).
    exists s1, f1. splits; auto. unfold moves, both. splits; auto; lia.
  - exists sess, fc. assert (n = 0) as -> by lia. splits; auto; try lia. apply moves_refl. assumption.
Qed.

(** What [flow_control_consume_data] does. *)
Definition fs_ok (reached fin : bool) (c have : N) : bool :=
  match fin, reached with true, true => c =? have | false, true => c <=? have | true, false => have <=? c | false, false => true end.
Lemma consume_with_ok reached retire st' c fin sess s : both sess (rs_fc s) -> c <= MAX_VARINT -> 
  let fc := rs_fc s in
  let n := N.max c (rf_consumed fc) - rf_consumed fc in
  if negb (fs_ok reached fin c (rf_consumed fc)) then consume_with reached retire st' c fin sess s = Some (inr EFinalSize)
  else if (rf_max_allowed fc <? c) || (rf_max_allowed sess <? rf_consumed sess + n) then consume_with reached retire st' c fin sess s = Some (inr EFlowControl)
  else exists sess' fc', consume_with reached retire st' c fin sess s = Some (inl (sess', mkRs fc' (rs_buf s) st')) /\ moves sess fc sess' fc' /\
    rf_consumed fc' = N.max c (rf_consumed fc) /\ rf_retired fc' = (if retire then rf_consumed fc' else rf_retired fc) /\ rf_max_allowed fc' = rf_max_allowed fc.
Proof.
  intros B Hc fc n. pose proof B as (I1 & I2 & L). fold fc in I2, L. unfold consume_with. fold (fs_ok reached fin c (rf_consumed fc)). fold fc.
  change (match fin with true => if reached then c =? rf_consumed fc else rf_consumed fc <=? c | false => if reached then c <=? rf_consumed fc else true end) with (fs_ok reached fin c (rf_consumed fc)).
  destruct (negb _); [reflexivity|]. destruct (consume_stream c fc I2) as [C1 C2]. destruct (N.ltb_spec (rf_max_allowed fc) c) as [H1|H1]; cbn [orb].
  { rewrite C1 by assumption. reflexivity. }
  destruct (C2 H1) as (fc1 & -> & J1 & J2 & J3 & J4). fold n. 
  assert (Hn : n <= MAX_VARINT) by (unfold n; pose proof (ri_ca _ _ I2); lia).
  destruct (consume_conn n sess I1 Hn) as [D1 D2]. destruct (N.ltb_spec (rf_max_allowed sess) (rf_consumed sess + n)) as [H2|H2].
  { rewrite D1 by assumption. reflexivity. }
  destruct (D2 H2) as (s1 & -> & K1 & K2 & K3 & K4).
  assert (M : moves sess fc s1 fc1) by (unfold moves, both; splits; auto; unfold n in *; lia).
  destruct retire.
  - rewrite csub_ok by apply J1. destruct (retire_data_ok (rf_consumed fc1 - rf_retired fc1) s1 fc1 (proj1 M)) as (s2 & fc2 & -> & M2 & E1 & E2 & E3).
    { pose proof (ri_rc _ _ J1). lia. }
    exists s2, fc2. pose proof (ri_rc _ _ J1). splits; auto; try lia. eapply moves_trans; eauto.
  - exists s1, fc1. splits; auto.
Qed.

(** * Histories *)
Lemma over_app h e : over (h ++ [e]) = over h || ends (snd e).
Proof. unfold over. rewrite existsb_app. cbn [existsb]. rewrite orb_false_r. reflexivity. Qed.
Lemma live_app h e : live (h ++ [e]) = if over h then live h else live h ++ [e].
Proof.
  induction h as [|a h IH]; cbn [app live over existsb].
  - destruct (ends (snd e)); reflexivity.
  - destruct (ends (snd a)); cbn [orb]; [reflexivity|]. fold (over h). rewrite IH. destruct (over h); reflexivity.
Qed.
Lemma frames_snoc h e : over h = false -> s_frames (h ++ [e]) = s_frames h ++ frame_of e.
Proof. intros H. unfold s_frames. rewrite live_app, H, flat_map_app. cbn [flat_map]. rewrite app_nil_r. reflexivity. Qed.
Lemma finals_snoc h e : over h = false -> s_finals (h ++ [e]) = s_finals h ++ final_of e.
Proof. intros H. unfold s_finals. rewrite live_app, H, flat_map_app. cbn [flat_map]. rewrite app_nil_r. reflexivity. Qed.
Lemma bytes_snoc h e : over h = false -> s_bytes (h ++ [e]) = s_bytes h ++ bytes_of e.
Proof. intros H. unfold s_bytes. rewrite live_app, H, flat_map_app. cbn [flat_map]. rewrite app_nil_r. reflexivity. Qed.
Lemma fold_max_app a b : fold_right N.max 0 (a ++ b) = N.max (fold_right N.max 0 a) (fold_right N.max 0 b).
Proof. induction a as [|x a IH]; cbn [app fold_right]; [lia|]. rewrite IH. lia. Qed.
Lemma high_snoc h e : over h = false -> s_high (h ++ [e]) = N.max (s_high h) (high_of e).
Proof. intros H. unfold s_high. rewrite live_app, H, map_app, fold_max_app. cbn [map fold_right]. lia. Qed.
Lemma had_snoc p h e : over h = false -> had p (h ++ [e]) = had p h || p e.
Proof. intros H. unfold had. rewrite live_app, H, existsb_app. cbn [existsb]. rewrite orb_false_r. reflexivity. Qed.
Lemma over_same h e : over h = true -> live (h ++ [e]) = live h.
Proof. intros H. rewrite live_app, H. reflexivity. Qed.
Lemma max_snoc h : forall m o out, s_max m (h ++ [(o, out)]) = match out with QMaxStreamData v => v | _ => s_max m h end.
Proof. induction h as [|[a b] h IH]; intros m o out; cbn [app s_max]; [destruct out; reflexivity|]. destruct b; rewrite IH; reflexivity. Qed.

(** * Content of the buffer against the history; offsets in [B] are still wanted. *)
Record bhist (B : N -> Prop) (fs : list (N * list N)) (dl : list N) (s : rx) : Prop := {
  b_inv : rxinv s;
  b_len : rx_retired s = lenN dl;
  b_from : forall x b, rx_retired s <= x -> byte_at (rx_ranges s) x = Some b -> exists f, In f fs /\ carries f x = Some b;
  b_all : forall x, rx_retired s <= x -> B x -> arrived fs x -> byte_at (rx_ranges s) x <> None;
  b_deliv : forall x b, carries (0, dl) x = Some b -> exists f, In f fs /\ carries f x = Some b }.

Lemma arrived_app fs gs x : arrived (fs ++ gs) x <-> arrived fs x \/ arrived gs x.
Proof.
  split.
  - intros (f & b & H & C). apply in_app_or in H as [H|H]; [left|right]; exists f, b; auto.
  - intros [(f & b & H & C)|(f & b & H & C)]; exists f, b; (split; [apply in_or_app; auto|assumption]).
Qed.
Lemma bhist_frame (B : N -> Prop) fs dl s s' f g : bhist B fs dl s -> rxinv s' -> content_step s s' g ->
  (forall x, rx_retired s <= x -> B x -> carries f x <> None -> carries g x <> None) ->
  (forall x b, carries g x = Some b -> carries f x = Some b) ->
  bhist B (fs ++ [f]) dl s'.
Proof.
  intros [] I (E & C) H1 H2. split; auto; try congruence.
  - intros x b Hx Hb. rewrite E in Hx. destruct (C x Hx) as [C1 _]. destruct (C1 _ Hb) as [D|D].
    + destruct (b_from0 _ _ Hx D) as (u & U1 & U2). exists u. split; [apply in_or_app; auto|assumption].
    + exists f. split; [apply in_or_app; right; left; reflexivity|auto].
  - intros x Hx HB Ha. rewrite E in Hx. destruct (C x Hx) as [_ C2]. apply C2. apply arrived_app in Ha as [Ha|(u & b & [<-|[]] & Hc)]; [left; auto|].
    right. apply H1; auto. congruence.
  - intros x b Hx. destruct (b_deliv0 _ _ Hx) as (u & U1 & U2). exists u. split; [apply in_or_app; auto|assumption].
Qed.
Lemma bhist_skip (B : N -> Prop) fs dl s f : bhist B fs dl s -> (forall x, B x -> carries f x = None) -> bhist B (fs ++ [f]) dl s.
Proof.
  intros [] H. split; auto.
  - intros x b Hx Hb. destruct (b_from0 _ _ Hx Hb) as (u & U1 & U2). exists u. split; [apply in_or_app; auto|assumption].
  - intros x Hx HB Ha. apply arrived_app in Ha as [Ha|(u & b & [<-|[]] & Hc)]; [auto|]. rewrite H in Hc by assumption. discriminate.
  - intros x b Hx. destruct (b_deliv0 _ _ Hx) as (u & U1 & U2). exists u. split; [apply in_or_app; auto|assumption].
Qed.
Lemma bhist_read (B : N -> Prop) fs dl s s' l : bhist B fs dl s -> rxinv s' -> rx_retired s' = rx_retired s + lenN l ->
  (forall x, rx_retired s <= x < rx_retired s' -> carries (rx_retired s, l) x = byte_at (rx_ranges s) x) ->
  (forall x, rx_retired s' <= x -> byte_at (rx_ranges s') x = byte_at (rx_ranges s) x) ->
  bhist B fs (dl ++ l) s'.
Proof.
  intros [] I E C1 C2. split; auto.
  - rewrite E, lenN_app. lia.
  - intros x b Hx Hb. rewrite C2 in Hb by assumption. apply b_from0; [lia|assumption].
  - intros x Hx HB Ha. rewrite C2 by assumption. apply b_all0; auto. lia.
  - intros x b Hx. rewrite carries_app in Hx. destruct (carries (0, dl) x) eqn:Ec; [injection Hx as <-; auto|]. rewrite N.add_0_l, <- b_len0 in Hx.
    pose proof (carries_range _ _ _ _ Hx) as Hr. rewrite C1 in Hx by lia. apply b_from0; [lia|assumption].
Qed.
Lemma bhist_weaken (B B' : N -> Prop) fs dl s : (forall x, B' x -> B x) -> bhist B fs dl s -> bhist B' fs dl s.
Proof. intros H []. split; auto. Qed.

(** Dropping data at or beyond an offset past what was read. *)
Lemma rok_kless k l : forall lo, rok lo l -> exists a b, l = a ++ b /\ kless k a /\ Forall (fun e => k <= fst e) b.
Proof.
  induction l as [|[s d] l IH]; intros lo H; [exists [], []; splits; constructor|].
  destruct H as (A & B & C). destruct (N.lt_ge_cases s k).
  - destruct (IH _ C) as (a & b & -> & Ha & Hb). exists ((s, d) :: a), b. splits; auto. constructor; assumption.
  - exists [], ((s, d) :: l). splits; [reflexivity|constructor|]. constructor; [assumption|]. eapply fimp; [|apply (rok_keys _ _ C)]. cbn. intros. lia.
Qed.
Lemma discard_basic k s : exists s', rx_discard_after k s = Some s' /\ rx_retired s' = rx_retired s /\ rx_received s' = rx_received s.
Proof. unfold rx_discard_after. destruct (m_last _) as [[a v]|]; eexists; (split; [reflexivity|]); split; reflexivity. Qed.
Lemma discard_spec k s s' : rxinv s -> rx_retired s < k -> rx_discard_after k s = Some s' ->
  rxinv s' /\ rx_retired s' = rx_retired s /\ (forall x, byte_at (rx_ranges s') x = if x <? k then byte_at (rx_ranges s) x else None) /\ rx_end s' <= k /\ rx_end s' <= rx_end s.
Proof.
  intros I Hk H. unfold rx_discard_after in H. destruct (rok_kless k _ _ (xi_ok _ I)) as (a & b & El & Ha & Hb).
  pose proof (xi_ok _ I) as Hok. pose proof (xi_past _ I) as Hp. pose proof (xi_retired_le _ I) as Hr. pose proof (xi_end _ I) as He. rewrite El in *.
  rewrite filter_app, filter_all, filter_none, app_nil_r in H.
  2: { eapply fimp; [|exact Hb]. cbn. intros e ?. apply N.ltb_ge. assumption. }
  2: { eapply fimp; [|exact Ha]. cbn. intros e ?. apply N.ltb_lt. assumption. }
  apply rok_app in Hok as [Hoka Hokb]. apply Forall_app in Hp as [Hpa Hpb].
  assert (Hbx : forall x, x < k -> byte_at b x = None).
  { intros x Hx. destruct b as [|[s1 v1] b1]; [reflexivity|]. apply Forall_cons_iff in Hb as [Hb _]. cbn in Hb. cbn [rok] in Hokb. eapply (byte_at_below _ s1); [|lia]. cbn [rok]. splits; try tauto. lia. }
  destruct (m_last a) as [[ps pv]|] eqn:Em.
  - apply m_last_inv in Em as [a0 ->]. injection H as <-. cbn [rx_ranges rx_retired rx_end].
    apply rok_app in Hoka as [Hok0 Hok1]. cbn [rok] in Hok1. destruct Hok1 as (O1 & O2 & _). pose proof (lenN_pos _ O2) as O2'.
    apply Forall_app in Ha as [Ha0 Ha1]. apply Forall_cons_iff in Ha1 as [Ha1 _]. cbn in Ha1.
    apply Forall_app in Hpa as [Hp0 Hp1]. apply Forall_cons_iff in Hp1 as [Hp1 _]. cbn [fst snd] in Hp1.
    rewrite m_insert_replace by (eapply kless_rok; [exact Hok0|assumption]).
    assert (L : lenN (firstnN (k - ps) pv) = N.min (k - ps) (lenN pv)) by apply lenN_firstnN.
    splits.
    + split; cbn [rx_ranges rx_retired rx_end].
      * apply rok_app. split; [assumption|]. cbn [rok]. splits; auto. intros X. rewrite X, lenN_nil in L. lia.
      * apply Forall_app. split; [assumption|]. constructor; [cbn [fst snd]; lia|constructor].
      * rewrite rend_last. reflexivity.
    + reflexivity.
    + intros x. rewrite !byte_at_app. cbn [byte_at]. rewrite carries_first. replace (ps + (k - ps)) with k by lia.
      destruct (N.ltb_spec x k).
      * rewrite Hbx by assumption. destruct (byte_at a0 x); [reflexivity|]. destruct (carries (ps, pv) x); reflexivity.
      * rewrite (byte_at_above a0 0) by (try assumption; lia). reflexivity.
    + lia.
    + rewrite He, rend_app, rend_last. apply (rend_ge b) in Hokb. rewrite ?rend_last in *. rewrite ?L. lia.
  - apply m_last_none in Em. subst a. injection H as <-. cbn [rx_ranges rx_retired rx_end]. splits; auto; try lia.
    + split; cbn; auto.
    + intros x. cbn [app byte_at]. destruct (N.ltb_spec x k); [rewrite Hbx by assumption|]; reflexivity.
Qed.

(** The end of the buffer after a frame. *)
Lemma end_step s s' f C : rxinv s -> rxinv s' -> content_step s s' f -> rx_end s <= C -> fst f + lenN (snd f) <= C -> rx_end s' <= C.
Proof.
  intros I I' (E & H) Hs Hf. pose proof (xi_end _ I') as He. destruct (rx_ranges s') as [|e l] eqn:El using rev_ind.
  - cbn in He. pose proof (xi_retired_le _ I). lia.
  - clear IHl. destruct e as [k v]. rewrite rend_last in He. pose proof (xi_ok _ I') as Hok. pose proof (xi_past _ I') as Hp. rewrite El in *.
    apply rok_app in Hok as [Hok0 Hok1]. cbn [rok] in Hok1. destruct Hok1 as (O1 & O2 & _). apply lenN_pos in O2.
    apply Forall_app in Hp as [_ Hp]. apply Forall_cons_iff in Hp as [Hp _]. cbn [fst snd] in Hp.
    set (x := k + lenN v - 1). assert (Hx : rx_retired s <= x) by (unfold x; lia). destruct (H x Hx) as [H1 _].
    assert (carries (k, v) x <> None) as Hc by (apply carries_some; unfold x; lia).
    destruct (carries (k, v) x) as [b|] eqn:Eb; [|congruence].
    assert (byte_at (l ++ [(k, v)]) x = Some b) as Hb.
    { rewrite byte_at_app. rewrite (byte_at_above l 0) by (try assumption; unfold x; lia). cbn [byte_at]. rewrite Eb. reflexivity. }
    destruct (H1 _ Hb) as [D|D].
    + pose proof (xi_end _ I) as He'. apply (byte_at_range _ 0) in D; [|apply I]. destruct (rx_ranges s) as [|e0 l0] eqn:E0; [cbn in D; lia|].
      rewrite (rend_nonempty _ _ 0) in He' by discriminate. unfold x in D. lia.
    + destruct f as [fo fd]. apply carries_range in D. cbn [fst snd] in Hf. unfold x in D. lia.
Qed.

(** * What a history determines *)
Record gh := mkG { g_fr : list (N * list N); g_fi : list N; g_by : list N; g_hi : N; g_stop : bool; g_reset : bool; g_acked : bool; g_rel : list N }.
Definition ghost (h : rhist) : gh := mkG (s_frames h) (s_finals h) (s_bytes h) (s_high h) (had is_stop h) (had is_reset h) (had is_acked h) (s_rels h).
Definition gadd (g : gh) (e : rsop * rsout) : gh :=
  mkG (g_fr g ++ frame_of e) (g_fi g ++ final_of e) (g_by g ++ bytes_of e) (N.max (g_hi g) (high_of e)) (g_stop g || is_stop e) (g_reset g || is_reset e) (g_acked g || is_acked e) (g_rel g ++ rel_of e).
Lemma ghost_snoc h e : ghost (h ++ [e]) = if over h then ghost h else gadd (ghost h) e.
Proof.
  destruct (over h) eqn:E.
  - unfold ghost, s_frames, s_finals, s_bytes, s_high, had, s_rels. rewrite !over_same by assumption. reflexivity.
  - unfold ghost, gadd. cbn [g_fr g_fi g_by g_hi g_stop g_reset g_acked g_rel]. rewrite frames_snoc, finals_snoc, bytes_snoc, high_snoc, !had_snoc by assumption.
    f_equal. unfold s_rels. rewrite live_app, E, flat_map_app. cbn [flat_map]. rewrite app_nil_r. reflexivity.
Qed.

Definition known (g : gh) (C : N) : Prop := g_fi g <> [] /\ Forall (fun F => F = C) (g_fi g).
Definition everything (x : N) : Prop := True.
Definition ended_st (st : rstate) : bool := match st with StDataRead | StResetRecvd => true | _ => false end.
Definition shape (g : gh) (s : rs) : Prop :=
  let C := rf_consumed (rs_fc s) in
  match rs_st s with
  | StRecv => rf_retired (rs_fc s) = rx_retired (rs_buf s) /\ bhist everything (g_fr g) (g_by g) (rs_buf s) /\ rx_end (rs_buf s) <= C /\
      g_stop g = false /\ (g_reset g = false /\ g_rel g = []) /\ g_fi g = []
  | StSizeKnown => rf_retired (rs_fc s) = rx_retired (rs_buf s) /\ bhist everything (g_fr g) (g_by g) (rs_buf s) /\ rx_end (rs_buf s) <= C /\
      g_stop g = false /\ (g_reset g = false /\ g_rel g = []) /\ known g C /\ exists x, x < C /\ ~ arrived (g_fr g) x
  | StDataRecvd => rf_retired (rs_fc s) = rx_retired (rs_buf s) /\ bhist everything (g_fr g) (g_by g) (rs_buf s) /\ rx_end (rs_buf s) <= C /\
      g_stop g = false /\ known g C /\ forall x, x < C -> arrived (g_fr g) x
  | StSizeKnownAt err final rel => C = final /\ rel <= final /\ rx_retired (rs_buf s) < rel /\ rf_retired (rs_fc s) = final - (rel - rx_retired (rs_buf s)) /\
      bhist (fun x => x < rel) (g_fr g) (g_by g) (rs_buf s) /\ rx_end (rs_buf s) <= rel /\ g_stop g = false /\ known g C /\
      In rel (g_rel g) /\ Forall (fun r => rel <= r) (g_rel g) /\ g_reset g = true
  | StAbort reached _ _ => rf_retired (rs_fc s) = C /\ g_stop g = true /\ (if reached then known g C else g_fi g = [])
  | StWaitForReset => rf_retired (rs_fc s) = C /\ g_stop g = true /\ g_acked g = true
  | StDataRead | StResetRecvd => False
  end.
Definition deliv_ok (g : gh) : Prop := forall x b, carries (0, g_by g) x = Some b -> exists f, In f (g_fr g) /\ carries f x = Some b.
(** The stream ended. *)
Definition closed_shape (s : rs) : Prop := ended_st (rs_st s) = true /\ rf_retired (rs_fc s) = rf_consumed (rs_fc s).

Record ginv (g : gh) (s : rs) : Prop := { gi_hi : rf_consumed (rs_fc s) = g_hi g; gi_del : deliv_ok g }.
(** One step: from [g], [s] with result [e]. *)
Definition post (g : gh) (e : rsop * rsout) (s' : rs) : Prop :=
  ginv (gadd g e) s' /\ if ends (snd e) then closed_shape s' else shape (gadd g e) s'.

Lemma gadd_nil g e : frame_of e = [] -> final_of e = [] -> bytes_of e = [] -> high_of e = 0 -> is_stop e = false -> is_reset e = false -> is_acked e = false -> rel_of e = [] -> gadd g e = g.
Proof. intros A B C D E F G H. unfold gadd. rewrite A, B, C, D, E, F, G, H, !app_nil_r, !orb_false_r, N.max_0_r. destruct g; reflexivity. Qed.
Lemma post_err g o e s : (match o with QFrame _ _ _ | QReset _ _ _ | QRead _ => True | _ => False end) -> ginv g s -> shape g s -> post g (o, QErr e) s.
Proof.
  intros Ho G S. assert (gadd g (o, QErr e) = g) as E by (destruct o as [[|]?| | | | | | | | | ]; try destruct Ho; apply gadd_nil; reflexivity).
  unfold post. rewrite E. split; assumption.
Qed.

Lemma deliv_frames g e : deliv_ok g -> bytes_of e = [] -> deliv_ok (gadd g e).
Proof. intros D B x b. unfold gadd. cbn [g_by g_fr]. rewrite B, app_nil_r. intros H. destruct (D _ _ H) as (f & F1 & F2). exists f. split; [apply in_or_app; auto|assumption]. Qed.
Lemma deliv_bhist B g s : bhist B (g_fr g) (g_by g) s -> deliv_ok g.
Proof. intros []. exact b_deliv0. Qed.

Lemma all_received_ok fs dl b fc : bhist everything fs dl b -> rx_end b <= rf_consumed fc -> rf_consumed fc <= MAX_VARINT ->
  exists v, all_received fc b = Some v /\ (if v then forall x, x < rf_consumed fc -> arrived fs x else exists x, x < rf_consumed fc /\ ~ arrived fs x).
Proof.
  intros H He Hm. pose proof (b_inv _ _ _ _ H) as I. destruct (bytes_ready_spec _ 0 (rx_retired b) (xi_ok _ I) (xi_past _ I)) as (n & E & N1 & N2).
  unfold all_received, rx_bytes_ready. rewrite E.
  assert (Hn : rx_retired b + n <= rx_end b).
  { pose proof (xi_retired_le _ I). destruct (N.eq_dec n 0); [lia|]. specialize (N1 (rx_retired b + n - 1) ltac:(lia)).
    destruct (byte_at (rx_ranges b) (rx_retired b + n - 1)) eqn:Eb; [|congruence]. apply (byte_at_range _ 0) in Eb; [|apply I].
    rewrite (xi_end _ I). destruct (rx_ranges b) as [|e0 l0]; [cbn in Eb; lia|]. rewrite (rend_nonempty _ _ 0) by discriminate. lia. }
  rewrite chk_ok by (unfold MAX_VARINT in Hm; lia). eexists. split; [reflexivity|]. destruct H. destruct (N.eqb_spec (rf_consumed fc) (rx_retired b + n)) as [Heq|Hne].
  - intros x Hx. rewrite Heq in Hx. destruct (N.lt_ge_cases x (rx_retired b)) as [Hl|Hl].
    + assert (carries (0, dl) x <> None) as Hc by (apply carries_some; lia). destruct (carries (0, dl) x) as [c|] eqn:Ec; [|congruence].
      destruct (b_deliv0 _ _ Ec) as (f & F1 & F2). exists f, c. auto.
    + assert (byte_at (rx_ranges b) x <> None) as Hc by (apply N1; lia). destruct (byte_at (rx_ranges b) x) as [c|] eqn:Ec; [|congruence].
      destruct (b_from0 _ _ Hl Ec) as (f & F1 & F2). exists f, c. auto.
  - exists (rx_retired b + n). split; [lia|]. intros Ha. apply b_all0 in Ha; [congruence|lia|exact Logic.I].
Qed.

Lemma buffered_spec l : forall ret lo, rok lo l -> Forall (fun e => ret < fst e + lenN (snd e)) l -> exists m, buffered_loop ret l = Some m /\ (m = 0 <-> l = []).
Proof.
  induction l as [|[k v] l IH]; intros ret lo H P; cbn [buffered_loop]; [exists 0; tauto|].
  cbn [rok] in H. destruct H as (A & B & C). apply Forall_cons_iff in P as [P1 P2]. cbn [fst snd] in P1. rewrite csub_ok by lia.
  destruct (IH ret _ C P2) as (m & -> & _). eexists. split; [reflexivity|]. split; [intros Hz; destruct v; [congruence|]; rewrite lenN_cons in *; lia|discriminate].
Qed.

(** Facts every live stream has. *)
Lemma shape_lt g s : shape g s -> rinv RStream (rs_fc s) -> rf_consumed (rs_fc s) <= MAX_VARINT.
Proof. intros _ []. lia. Qed.

Lemma rs_consume_live g s c fin sess : shape g s -> both sess (rs_fc s) -> c <= MAX_VARINT -> g_hi g = rf_consumed (rs_fc s) ->
  exists reached retire st',
    rs_consume c fin sess s = consume_with reached retire st' c fin sess s /\
    (match rs_st s with
     | StRecv => reached = false /\ retire = false /\ st' = StRecv
     | StWaitForReset => reached = false /\ retire = true /\ st' = StWaitForReset
     | StAbort r n err => reached = r /\ retire = true /\ st' = StAbort (r || fin) n err
     | st => reached = true /\ retire = false /\ st' = st
     end) /\
    (rs_st s <> StWaitForReset -> if reached then known g (rf_consumed (rs_fc s)) else g_fi g = []).
Proof.
  intros S B Hc Hh. unfold shape in S. unfold rs_consume. destruct (rs_st s); try (destruct S; fail); eexists _, _, _; (split; [reflexivity|]); (split; [splits; reflexivity|intros Hw]); try tauto; congruence.
Qed.

Lemma known_add g e C : known g C -> Forall (fun F => F = C) (final_of e) -> known (gadd g e) C.
Proof. intros [A B] H. split; cbn [gadd g_fi]; [destruct (g_fi g); [congruence|discriminate]|]. apply Forall_app. auto. Qed.
Lemma known_first g e C : final_of e = [C] -> g_fi g = [] -> known (gadd g e) C.
Proof. intros H E. split; cbn [gadd g_fi]; rewrite E, H; [discriminate|]. constructor; [reflexivity|constructor]. Qed.

Lemma arrived_more fs gs x : arrived fs x -> arrived (fs ++ gs) x.
Proof. intros H. apply arrived_app. auto. Qed.

Ltac gs := unfold shape; cbn [rs_st rs_fc rs_buf with_buf with_st with_fc gadd g_fr g_by g_stop g_reset g_fi g_rel g_hi g_acked frame_of accepted bytes_of is_stop is_reset is_acked final_of high_of rel_of fst snd].

(** ** A frame *)
Lemma frame_step g s sess fin off d : shape g s -> ginv g s -> both sess (rs_fc s) -> off + lenN d <= MAX_VARINT ->
  exists sess' s' out, rs_step sess s (QFrame fin off d) = Some (sess', s', out) /\ moves sess (rs_fc s) sess' (rs_fc s') /\
    post g (QFrame fin off d, out) s' /\ rf_max_allowed (rs_fc s') = rf_max_allowed (rs_fc s) /\ ends out = false /\
    (forall v, out <> QMaxStreamData v) /\
    let e := off + lenN d in
    let new := N.max e (g_hi g) - g_hi g in
    (rs_st s <> StWaitForReset ->
      (out = QErr EFinalSize <-> (exists F, In F (g_fi g) /\ (F < e \/ (fin = true /\ e <> F))) \/ (fin = true /\ e < g_hi g)) /\
      (out = QErr EFlowControl <-> out <> QErr EFinalSize /\ (rf_max_allowed (rs_fc s) < e \/ rf_max_allowed sess < rf_consumed sess + new))) /\
    (out = QErr EFinalSize \/ out = QErr EFlowControl \/ out = QErr EProtocolViolation \/ exists ev, out = QDone ev false).
Proof.
  intros S G B Hlen. set (e := off + lenN d). pose proof (gi_hi _ _ G) as Hh. symmetry in Hh.
  assert (Hm : forall fc', rinv RStream fc' -> rf_consumed fc' <= MAX_VARINT) by (intros fc' []; lia).
  assert (Hperr : forall er, post g (QFrame fin off d, QErr er) s) by (intros; apply post_err; auto; exact Logic.I).
  cbn [rs_step]. unfold rs_frame. rewrite chk_ok by (unfold MAX_VARINT in Hlen; lia). fold e.
  destruct (rs_consume_live g s e fin sess S B Hlen Hh) as (reached & retire & st' & -> & Hst & Hk).
  pose proof (consume_with_ok reached retire st' e fin sess s B Hlen) as CW. cbn zeta in CW. rewrite <- Hh in CW.
  assert (Hfs : rs_st s <> StWaitForReset -> (fs_ok reached fin e (g_hi g) = false <-> (exists F, In F (g_fi g) /\ (F < e \/ (fin = true /\ e <> F))) \/ (fin = true /\ e < g_hi g))).
  { intros Hw. specialize (Hk Hw). unfold fs_ok. destruct reached.
    - destruct Hk as [K1 K2]. rewrite <- Hh in K2. destruct fin.
      + split.
        * intros X. apply N.eqb_neq in X. left. destruct (g_fi g) as [|F l]; [congruence|]. exists F. apply Forall_cons_iff in K2 as [-> _]. split; [left; reflexivity|]. right. auto.
        * intros X. apply N.eqb_neq. destruct X as [(F & HF & X)|[_ X]]; [|lia]. rewrite Forall_forall in K2. rewrite (K2 _ HF) in X. lia.
      + split.
        * intros X. apply N.leb_gt in X. left. destruct (g_fi g) as [|F l]; [congruence|]. exists F. apply Forall_cons_iff in K2 as [-> _]. split; [left; reflexivity|]. left. auto.
        * intros X. apply N.leb_gt. destruct X as [(F & HF & X)|[X _]]; [|discriminate]. rewrite Forall_forall in K2. rewrite (K2 _ HF) in X. destruct X as [X|[X _]]; [lia|discriminate].
    - rewrite Hk. destruct fin.
      + split; [intros X; apply N.leb_gt in X; right; auto|]. intros [(F & [] & _)|[_ X]]. apply N.leb_gt. assumption.
      + split; [discriminate|]. intros [(F & [] & _)|[X _]]. discriminate. }
  destruct (fs_ok reached fin e (g_hi g)) eqn:Efs; cbn [negb] in CW.
  2: { rewrite CW. exists sess, s, (QErr EFinalSize). splits; auto using moves_refl; try (intros; discriminate).
       intros Hw. specialize (Hfs Hw). splits; [tauto|]. split; [discriminate|]. intros [X _]. congruence. }
  assert (Hnofs : rs_st s <> StWaitForReset -> ~ ((exists F, In F (g_fi g) /\ (F < e \/ (fin = true /\ e <> F))) \/ (fin = true /\ e < g_hi g))).
  { intros Hw X. apply Hfs in X; [discriminate|assumption]. }
  destruct (orb _ _) eqn:Eor.
  { rewrite CW. exists sess, s, (QErr EFlowControl). splits; auto using moves_refl; try (intros; discriminate).
    intros Hw. splits.
    - split; [discriminate|]. intros X. apply Hnofs in X; tauto.
    - split; [|reflexivity]. intros _. split; [discriminate|]. apply orb_prop in Eor as [X|X]; apply N.ltb_lt in X; auto. }
  apply orb_false_elim in Eor as [Eo1 Eo2]. apply N.ltb_ge in Eo1, Eo2.
  assert (Hflow : forall o, o <> QErr EFlowControl -> o <> QErr EFinalSize -> rs_st s <> StWaitForReset ->
     (o = QErr EFinalSize <-> (exists F, In F (g_fi g) /\ (F < e \/ (fin = true /\ e <> F))) \/ (fin = true /\ e < g_hi g)) /\
     (o = QErr EFlowControl <-> o <> QErr EFinalSize /\ (rf_max_allowed (rs_fc s) < e \/ rf_max_allowed sess < rf_consumed sess + (N.max e (g_hi g) - g_hi g)))).
  { intros o O1 O2 Hw. split; (split; [congruence|]); [intros X; apply Hnofs in X; tauto|]. intros [_ [X|X]]; lia. }
  destruct CW as (sess1 & fc1 & -> & M & C1 & C2 & C3). set (s1 := mkRs fc1 (rs_buf s) st') in *. cbn [rs_st s1].
  assert (HC1 : rf_consumed fc1 <= MAX_VARINT) by (apply Hm; apply M).
  assert (Hg : forall ev, g_hi (gadd g (QFrame fin off d, QDone ev false)) = rf_consumed fc1) by (intros; cbn [gadd g_hi high_of accepted]; fold e; lia).
  assert (Hge : forall ev s', rs_fc s' = fc1 -> ginv (gadd g (QFrame fin off d, QDone ev false)) s').
  { intros ev s' E. split; [rewrite E, Hg; reflexivity|]. apply deliv_frames; [apply G|reflexivity]. }
  assert (Hfin : forall ev F, final_of (QFrame fin off d, QDone ev false) = [F] -> F = e /\ fin = true) by (intros ev F; cbn; destruct fin; [intros X; injection X as <-; auto|discriminate]).
  (* how each remaining case closes *)
  assert (Close : forall s', rs_fc s' = fc1 ->
     (forall ev, shape (gadd g (QFrame fin off d, QDone ev false)) s') ->
     (forall ev, ends (QDone ev false) = existsb ev_end ev) ->
     exists sess' s'' out, match (Some (inl (sess1, s', if negb (rs_data_ready s) && (rs_data_ready s' || inform_fin s') then [EvReadable] else []) : (rfc * rs * list revent) + rerr)) with
       | None => None | Some (inr er) => Some (sess, s, QErr er) | Some (inl (a, b, ev)) => Some (a, b, QDone ev false) end = Some (sess', s'', out) /\ moves sess (rs_fc s) sess' (rs_fc s'') /\
      post g (QFrame fin off d, out) s'' /\ rf_max_allowed (rs_fc s'') = rf_max_allowed (rs_fc s) /\ ends out = false /\ (forall v, out <> QMaxStreamData v) /\
      (let new := N.max e (g_hi g) - g_hi g in rs_st s <> StWaitForReset ->
      (out = QErr EFinalSize <-> (exists F, In F (g_fi g) /\ (F < e \/ (fin = true /\ e <> F))) \/ (fin = true /\ e < g_hi g)) /\
      (out = QErr EFlowControl <-> out <> QErr EFinalSize /\ (rf_max_allowed (rs_fc s) < e \/ rf_max_allowed sess < rf_consumed sess + new))) /\
      (out = QErr EFinalSize \/ out = QErr EFlowControl \/ out = QErr EProtocolViolation \/ exists ev, out = QDone ev false)).
  { intros s' E Hs _. eexists _, _, _. split; [reflexivity|]. rewrite E. 
    assert (He : forall b : bool, ends (QDone (if b then [EvReadable] else []) false) = false) by (intros []; reflexivity).
    splits; auto; try (intros; discriminate).
    - split; [apply Hge; assumption|]. cbn [snd]. rewrite He. apply Hs.
    - cbn zeta. intros Hw. apply Hflow; try discriminate. assumption.
    - right. right. right. eexists. reflexivity. }
  assert (Viol : exists sess' s'' out, Some (sess, s, QErr EProtocolViolation) = Some (sess', s'', out) /\ moves sess (rs_fc s) sess' (rs_fc s'') /\
      post g (QFrame fin off d, out) s'' /\ rf_max_allowed (rs_fc s'') = rf_max_allowed (rs_fc s) /\ ends out = false /\ (forall v, out <> QMaxStreamData v) /\
      (let new := N.max e (g_hi g) - g_hi g in rs_st s <> StWaitForReset ->
      (out = QErr EFinalSize <-> (exists F, In F (g_fi g) /\ (F < e \/ (fin = true /\ e <> F))) \/ (fin = true /\ e < g_hi g)) /\
      (out = QErr EFlowControl <-> out <> QErr EFinalSize /\ (rf_max_allowed (rs_fc s) < e \/ rf_max_allowed sess < rf_consumed sess + new))) /\
      (out = QErr EFinalSize \/ out = QErr EFlowControl \/ out = QErr EProtocolViolation \/ exists ev, out = QDone ev false)).
  { eexists _, _, _. split; [reflexivity|]. splits; auto using moves_refl; try (intros; discriminate). cbn zeta. intros Hw. apply Hflow; try discriminate. assumption. }
  unfold shape in S. destruct (rs_st s) eqn:Est.
  - (* Recv *)
    destruct Hst as (-> & -> & ->). destruct S as (S1 & S2 & S3 & S4 & S5 & S6). cbn [rs_buf s1].
    destruct (rx_inbound_spec (rs_buf s) off d (b_inv _ _ _ _ S2)) as (b & ok & -> & I & CS); [unfold MAX_VARINT in Hlen; lia|].
    destruct ok; [|exact Viol].
    assert (Hb : bhist everything (g_fr g ++ [(off, d)]) (g_by g) b) by (eapply bhist_frame; eauto).
    assert (Hb' : rx_end b <= rf_consumed fc1) by (eapply end_step; [exact (b_inv _ _ _ _ S2)|exact I|exact CS|lia|cbn [fst snd]; fold e; lia]).
    assert (Hr' : rf_retired fc1 = rx_retired b) by (destruct CS as [CS _]; congruence).
    destruct fin.
    + cbn [rs_fc s1]. destruct (all_received_ok _ _ _ _ Hb Hb' HC1) as (v & -> & Hv).
      apply Close; [reflexivity| |reflexivity]. intros ev. unfold shape. cbn [rs_st rs_fc rs_buf].
      destruct v; gs; rewrite ?app_nil_r, ?orb_false_r, ?orb_false_l; splits; auto; try tauto;
        apply known_first; auto; cbn [final_of accepted]; fold e; f_equal; revert Efs; unfold fs_ok; intros X; apply N.leb_le in X; lia.
    + apply Close; [reflexivity| |reflexivity]. intros ev. unfold shape. unfold s1; gs.
      rewrite ?app_nil_r, ?orb_false_r. splits; auto; tauto.
  - (* SizeKnown *)
    destruct Hst as (-> & -> & ->). destruct S as (S1 & S2 & S3 & S4 & S5 & S6 & S7). cbn [rs_buf s1].
    destruct (rx_inbound_spec (rs_buf s) off d (b_inv _ _ _ _ S2)) as (b & ok & -> & I & CS); [unfold MAX_VARINT in Hlen; lia|].
    destruct ok; [|exact Viol].
    assert (He : e <= g_hi g) by (revert Efs; unfold fs_ok; destruct fin; intros X; [apply N.eqb_eq in X|apply N.leb_le in X]; lia).
    assert (HCe : rf_consumed fc1 = rf_consumed (rs_fc s)) by lia.
    assert (Hb : bhist everything (g_fr g ++ [(off, d)]) (g_by g) b) by (eapply bhist_frame; eauto).
    assert (Hb' : rx_end b <= rf_consumed fc1) by (eapply end_step; [exact (b_inv _ _ _ _ S2)|exact I|exact CS|lia|cbn [fst snd]; fold e; lia]).
    assert (Hr' : rf_retired fc1 = rx_retired b) by (destruct CS as [CS _]; congruence).
    cbn [rs_fc s1]. destruct (all_received_ok _ _ _ _ Hb Hb' HC1) as (v & -> & Hv).
    assert (Hkn : forall ev, known (gadd g (QFrame fin off d, QDone ev false)) (rf_consumed fc1)).
    { intros ev. rewrite HCe. apply known_add; [assumption|]. cbn [final_of]. destruct fin; cbn [accepted]; [|constructor]. constructor; [|constructor]. fold e. revert Efs. unfold fs_ok. intros X. apply N.eqb_eq in X. lia. }
    apply Close; [reflexivity| |reflexivity]. intros ev. unfold shape. cbn [rs_st rs_fc rs_buf].
    destruct v; gs; rewrite ?app_nil_r, ?orb_false_r, ?orb_false_l; splits; auto; try tauto; apply Hkn.
  - (* SizeKnownAt *)
    destruct Hst as (-> & -> & ->). destruct S as (S1 & S2 & S3 & S4 & S5 & S6 & S7 & S8 & S9 & S10 & S11). cbn [rs_buf s1].
    assert (He : e <= g_hi g) by (revert Efs; unfold fs_ok; destruct fin; intros X; [apply N.eqb_eq in X|apply N.leb_le in X]; lia).
    assert (HCe : rf_consumed fc1 = rf_consumed (rs_fc s)) by lia.
    assert (Hkn : forall ev, known (gadd g (QFrame fin off d, QDone ev false)) (rf_consumed fc1)).
    { intros ev. rewrite HCe. apply known_add; [assumption|]. cbn [final_of]. destruct fin; cbn [accepted]; [|constructor]. constructor; [|constructor]. fold e. revert Efs. unfold fs_ok. intros X. apply N.eqb_eq in X. lia. }
    destruct (N.ltb_spec 0 (reliable - off)) as [Hkeep|Hkeep].
    + set (d' := firstnN (N.min (lenN d) (reliable - off)) d). assert (Hd' : lenN d' = N.min (lenN d) (reliable - off)) by (unfold d'; rewrite lenN_firstnN; lia).
      destruct (rx_inbound_spec (rs_buf s) off d' (b_inv _ _ _ _ S5)) as (b & ok & -> & I & CS); [unfold MAX_VARINT in Hlen; lia|].
      destruct ok; [|exact Viol].
      assert (Hb : bhist (fun x => x < reliable) (g_fr g ++ [(off, d)]) (g_by g) b).
      { eapply bhist_frame; [exact S5|exact I|exact CS| |].
        - intros x _ Hx Hc. apply carries_some in Hc. apply carries_some. lia.
        - intros x c Hc. unfold d' in Hc. rewrite carries_first in Hc. destruct (_ <? _); [assumption|discriminate]. }
      assert (Hb' : rx_end b <= reliable) by (eapply end_step; [exact (b_inv _ _ _ _ S5)|exact I|exact CS|lia|cbn [fst snd]; lia]).
      assert (Hr' : rx_retired b = rx_retired (rs_buf s)) by (destruct CS as [CS _]; congruence).
      apply Close; [reflexivity| |reflexivity]. intros ev. unfold shape. cbn [rs_st rs_fc rs_buf with_buf s1 gadd g_fr g_by g_stop g_reset g_fi g_rel frame_of accepted bytes_of is_stop is_reset final_of rel_of fst].
      rewrite ?app_nil_r, ?orb_false_r, Hr'. splits; auto; try congruence; apply Hkn.
    + apply Close; [reflexivity| |reflexivity]. intros ev. unfold shape. cbn [rs_st rs_fc rs_buf with_buf s1 gadd g_fr g_by g_stop g_reset g_fi g_rel frame_of accepted bytes_of is_stop is_reset final_of rel_of fst].
      rewrite ?app_nil_r, ?orb_false_r. splits; auto; try congruence.
      apply bhist_skip; [assumption|]. intros x Hx. apply carries_none. lia.

  - (* DataRecvd *)
    destruct Hst as (-> & -> & ->). destruct S as (S1 & S2 & S3 & S4 & S5 & S6). cbn [rs_buf s1].
    assert (He : e <= g_hi g) by (revert Efs; unfold fs_ok; destruct fin; intros X; [apply N.eqb_eq in X|apply N.leb_le in X]; lia).
    assert (HCe : rf_consumed fc1 = rf_consumed (rs_fc s)) by lia.
    assert (Hkn : forall ev, known (gadd g (QFrame fin off d, QDone ev false)) (rf_consumed fc1)).
    { intros ev. rewrite HCe. apply known_add; [assumption|]. cbn [final_of]. destruct fin; cbn [accepted]; [|constructor]. constructor; [|constructor]. fold e. revert Efs. unfold fs_ok. intros X. apply N.eqb_eq in X. lia. }
    apply Close; [reflexivity| |reflexivity]. intros ev. unfold shape. cbn [rs_st rs_fc rs_buf with_buf s1 gadd g_fr g_by g_stop g_reset g_fi g_rel frame_of accepted bytes_of is_stop is_reset final_of rel_of fst].
    rewrite ?app_nil_r, ?orb_false_r. splits; auto; try congruence; try lia.
    + (* all of the frame has arrived already *)
      destruct S2. split; auto.
      * intros x b Hx Hb. destruct (b_from0 _ _ Hx Hb) as (u & U1 & U2). exists u. split; [apply in_or_app; auto|assumption].
      * intros x Hx _ Ha. apply b_all0; [assumption|exact Logic.I|]. apply arrived_app in Ha as [Ha|(u & b & [<-|[]] & Hc)]; [assumption|]. apply S6. apply carries_range in Hc. lia.
      * intros x b Hx. destruct (b_deliv0 _ _ Hx) as (u & U1 & U2). exists u. split; [apply in_or_app; auto|assumption].
    + intros x Hx. apply arrived_more. apply S6. lia.
  - destruct S.
  - (* Abort *)
    destruct Hst as (-> & -> & ->). destruct S as (S1 & S2 & S3).
    apply Close; [reflexivity| |reflexivity]. intros ev. unfold shape. cbn [rs_st rs_fc rs_buf with_buf s1 gadd g_stop is_stop fst]. rewrite orb_false_r. splits; auto.
    match goal with |- context [orb ?r fin] => destruct r; cbn [orb] end.
    + assert (HCe : rf_consumed fc1 = rf_consumed (rs_fc s)) by (revert Efs; unfold fs_ok; destruct fin; intros X; [apply N.eqb_eq in X|apply N.leb_le in X]; lia).
      rewrite HCe. apply known_add; [assumption|]. cbn [final_of]. destruct fin; cbn [accepted]; [|constructor]. constructor; [|constructor]. fold e. revert Efs. unfold fs_ok. intros X. apply N.eqb_eq in X. lia.
    + destruct fin.
      * apply known_first; auto. cbn [final_of accepted]. fold e. f_equal. revert Efs. unfold fs_ok. intros X. apply N.leb_le in X. lia.
      * cbn [gadd g_fi final_of]. rewrite S3. reflexivity.
  - (* WaitForReset *)
    destruct Hst as (-> & -> & ->). destruct S as (S1 & S2 & S3).
    apply Close; [reflexivity| |reflexivity]. intros ev. unfold shape. cbn [rs_st rs_fc rs_buf with_buf s1 gadd g_stop is_stop g_acked is_acked fst]. rewrite !orb_false_r. splits; auto.
  - destruct S.
Qed.


Lemma finish_ok final err sess s : (match rs_st s with StSizeKnownAt _ _ _ | StAbort _ _ _ | StWaitForReset => True | _ => False end) ->
  both sess (rs_fc s) -> rf_consumed (rs_fc s) = final ->
  exists sess' fc', finish_reset final err sess s = Some (sess', mkRs fc' (rs_buf s) StResetRecvd, [EvReset err], true) /\ moves sess (rs_fc s) sess' fc' /\
    rf_consumed fc' = final /\ rf_retired fc' = final /\ rf_max_allowed fc' = rf_max_allowed (rs_fc s).
Proof.
  intros Hst B Hf. pose proof B as (_ & I & _). pose proof (ri_rc _ _ I). unfold finish_reset.
  destruct (retire_data_ok (final - rf_retired (rs_fc s)) sess (rs_fc s) B ltac:(lia)) as (sess' & fc' & E & M & E1 & E2 & E3).
  exists sess', fc'. destruct (rs_st s); try (destruct Hst; fail); rewrite csub_ok by lia; rewrite E; splits; auto; lia.
Qed.

Lemma bhist_discard (B : N -> Prop) fs dl s s' k : bhist B fs dl s -> rxinv s' -> rx_retired s' = rx_retired s ->
  (forall x, byte_at (rx_ranges s') x = if x <? k then byte_at (rx_ranges s) x else None) -> (forall x, x < k -> B x) -> bhist (fun x => x < k) fs dl s'.
Proof.
  intros [] I E Hx HB. split; auto; try congruence.
  - intros x b Hr Hb. rewrite Hx in Hb. destruct (x <? k); [|discriminate]. apply b_from0; [lia|assumption].
  - intros x Hr Hk Ha. rewrite Hx. destruct (N.ltb_spec x k); [|lia]. apply b_all0; auto. lia.
Qed.

(** A reset that leaves [reliable] bytes to deliver, with [fc] and buffer as they were. *)
Lemma undeliverable_ok final reliable read sess fc : both sess fc -> rf_consumed fc = final -> reliable <= final -> read <= final ->
  rf_retired fc <= final - (reliable - read) ->
  exists sess' fc', retire_undeliverable final reliable read sess fc = Some (sess', fc') /\ moves sess fc sess' fc' /\
    rf_consumed fc' = final /\ rf_retired fc' = final - (reliable - read) /\ rf_max_allowed fc' = rf_max_allowed fc.
Proof.
  intros B Hc Hr Hd Hle. unfold retire_undeliverable. rewrite csub_ok by lia.
  destruct (retire_data_ok (final - (reliable - read) - rf_retired fc) sess fc B ltac:(lia)) as (sess' & fc' & E & M & E1 & E2 & E3).
  exists sess', fc'. splits; auto; lia.
Qed.

(** What a result of a reset has to satisfy. *)
Definition reset_post (g : gh) (s : rs) (sess : rfc) (err final reliable : N) (r : option (rfc * rs * rsout)) : Prop :=
  exists sess' s' out, r = Some (sess', s', out) /\ moves sess (rs_fc s) sess' (rs_fc s') /\
    post g (QReset err final reliable, out) s' /\ rf_max_allowed (rs_fc s') = rf_max_allowed (rs_fc s) /\
    (forall v, out <> QMaxStreamData v) /\
    (reliable <= final -> rs_st s <> StWaitForReset ->
      (out = QErr EFinalSize <-> (exists F, In F (g_fi g) /\ (F < final \/ (true = true /\ final <> F))) \/ (true = true /\ final < g_hi g)) /\
      (out = QErr EFlowControl <-> out <> QErr EFinalSize /\ (rf_max_allowed (rs_fc s) < final \/ rf_max_allowed sess < rf_consumed sess + (N.max final (g_hi g) - g_hi g)))) /\
    ((exists er, out = QErr er) \/ exists ev b, out = QDone ev b /\ ((ev = [] /\ b = false) \/ (exists x, ev = [EvReset x] /\ b = true /\
       (g_stop g = true \/ exists r, In r (g_rel g ++ [reliable]) /\ r <= lenN (g_by g))))).

Lemma reset_step g s sess err final reliable : shape g s -> ginv g s -> both sess (rs_fc s) -> final <= MAX_VARINT ->
  reset_post g s sess err final reliable (rs_step sess s (QReset err final reliable)).
Proof.
  intros S G B Hlen. pose proof (gi_hi _ _ G) as Hh. symmetry in Hh. 
  assert (Hperr : forall er, post g (QReset err final reliable, QErr er) s) by (intros; apply post_err; auto; exact Logic.I).
  assert (Err : forall er, er <> EFinalSize -> er <> EFlowControl -> (reliable <= final -> rs_st s <> StWaitForReset -> ~ ((exists F, In F (g_fi g) /\ (F < final \/ (true = true /\ final <> F))) \/ (true = true /\ final < g_hi g)) /\
       ~ (rf_max_allowed (rs_fc s) < final \/ rf_max_allowed sess < rf_consumed sess + (N.max final (g_hi g) - g_hi g))) ->
       reset_post g s sess err final reliable (Some (sess, s, QErr er))).
  { intros er E1 E2 H. exists sess, s, (QErr er). splits; auto using moves_refl; try (intros; discriminate); [|left; eauto].
    intros H1 H2. specialize (H H1 H2). split; (split; [congruence|]); tauto. }
  cbn [rs_step]. unfold rs_reset. destruct (N.ltb_spec final reliable) as [Hrel|Hrel].
  { apply Err; try discriminate. lia. }
  destruct (rs_consume_live g s final true sess S B Hlen Hh) as (reached & retire & st' & -> & Hst & Hk).
  pose proof (consume_with_ok reached retire st' final true sess s B Hlen) as CW. cbn zeta in CW. rewrite <- Hh in CW.
  assert (Hfs : rs_st s <> StWaitForReset -> (fs_ok reached true final (g_hi g) = false <-> (exists F, In F (g_fi g) /\ (F < final \/ (true = true /\ final <> F))) \/ (true = true /\ final < g_hi g))).
  { intros Hw. specialize (Hk Hw). unfold fs_ok. destruct reached.
    - destruct Hk as [K1 K2]. rewrite <- Hh in K2. split.
      + intros X. apply N.eqb_neq in X. left. destruct (g_fi g) as [|F l]; [congruence|]. exists F. apply Forall_cons_iff in K2 as [-> _]. split; [left; reflexivity|]. right. auto.
      + intros X. apply N.eqb_neq. destruct X as [(F & HF & X)|[_ X]]; [|lia]. rewrite Forall_forall in K2. rewrite (K2 _ HF) in X. lia.
    - rewrite Hk. split; [intros X; apply N.leb_gt in X; right; auto|]. intros [(F & [] & _)|[_ X]]. apply N.leb_gt. assumption. }
  destruct (fs_ok reached true final (g_hi g)) eqn:Efs; cbn [negb] in CW.
  2: { rewrite CW. exists sess, s, (QErr EFinalSize). splits; auto using moves_refl; try (intros; discriminate); [|left; eauto].
       intros _ Hw. specialize (Hfs Hw). splits; [tauto|]. split; [discriminate|]. intros [X _]. congruence. }
  assert (Hnofs : rs_st s <> StWaitForReset -> ~ ((exists F, In F (g_fi g) /\ (F < final \/ (true = true /\ final <> F))) \/ (true = true /\ final < g_hi g))).
  { intros Hw X. apply Hfs in X; [discriminate|assumption]. }
  destruct (orb _ _) eqn:Eor.
  { rewrite CW. exists sess, s, (QErr EFlowControl). splits; auto using moves_refl; try (intros; discriminate); [|left; eauto].
    intros _ Hw. splits.
    - split; [discriminate|]. intros X. apply Hnofs in X; tauto.
    - split; [|reflexivity]. intros _. split; [discriminate|]. apply orb_prop in Eor as [X|X]; apply N.ltb_lt in X; auto. }
  apply orb_false_elim in Eor as [Eo1 Eo2]. apply N.ltb_ge in Eo1, Eo2.
  destruct CW as (sess1 & fc1 & -> & M & C1 & C2 & C3). set (s1 := mkRs fc1 (rs_buf s) st') in *. cbn [rs_st s1].
  assert (Hfin : rf_consumed fc1 = final). { revert Efs. unfold fs_ok. destruct reached; intros X; [apply N.eqb_eq in X|apply N.leb_le in X]; lia. }
  assert (Hgh : forall ev b, g_hi (gadd g (QReset err final reliable, QDone ev b)) = final) by (intros; gs; rewrite <- Hfin, C1; lia).
  assert (Hge : forall ev b s', rf_consumed (rs_fc s') = final -> ginv (gadd g (QReset err final reliable, QDone ev b)) s').
  { intros ev b s' E. split; [rewrite E, Hgh; reflexivity|]. apply deliv_frames; [apply G|reflexivity]. }
  assert (Hkn : rs_st s <> StWaitForReset -> forall ev b, known (gadd g (QReset err final reliable, QDone ev b)) final).
  { intros Hw ev b. specialize (Hk Hw). destruct reached.
    - apply known_add; [|constructor; [reflexivity|constructor]]. revert Efs. unfold fs_ok. intros X. apply N.eqb_eq in X. rewrite X, Hh. assumption.
    - apply known_first; auto. }
  assert (Close : forall sess' s' ev b, moves sess (rs_fc s) sess' (rs_fc s') -> rf_consumed (rs_fc s') = final -> rf_max_allowed (rs_fc s') = rf_max_allowed (rs_fc s) ->
     ((ev = [] /\ b = false /\ shape (gadd g (QReset err final reliable, QDone ev b)) s') \/
      (exists x, ev = [EvReset x] /\ b = true /\ closed_shape s' /\ (g_stop g = true \/ exists r, In r (g_rel g ++ [reliable]) /\ r <= lenN (g_by g)))) ->
     reset_post g s sess err final reliable (Some (sess', s', QDone ev b))).
  { intros sess' s' ev b Mv E1 E2 D. exists sess', s', (QDone ev b). splits; auto; try (intros; discriminate).
    - split; [apply Hge; assumption|]. destruct D as [(-> & -> & D)|(x & -> & -> & D & _)]; assumption.
    - intros _ Hw. split; (split; [discriminate|]); [intros X; apply Hnofs in X; tauto|]. intros [_ [X|X]]; lia.
    - right. exists ev, b. split; [reflexivity|]. destruct D as [(-> & -> & D)|(x & -> & -> & _ & D)]; [left; auto|right; exists x; auto]. }
  assert (Done : forall x sess' fc', moves sess (rs_fc s) sess' fc' -> rf_consumed fc' = final -> rf_retired fc' = final -> rf_max_allowed fc' = rf_max_allowed (rs_fc s) ->
     (g_stop g = true \/ exists r, In r (g_rel g ++ [reliable]) /\ r <= lenN (g_by g)) -> forall b',
     reset_post g s sess err final reliable (Some (sess', mkRs fc' b' StResetRecvd, QDone [EvReset x] true))).
  { intros. apply Close; auto. right. exists x. splits; auto. split; [reflexivity|]. cbn [rs_fc]. congruence. }
  (* entering or staying in the state of a partial reset *)
  assert (Partial : forall err0 b, rs_st s <> StWaitForReset -> g_stop g = false -> rf_retired fc1 <= final - (reliable - rx_retired (rs_buf s)) -> rx_retired (rs_buf s) <= final -> rxinv (rs_buf s) ->
     rx_discard_after reliable (rs_buf s) = Some b ->
     rx_retired (rs_buf s) = lenN (g_by g) ->
     Forall (fun r => reliable <= r) (g_rel g) ->
     (rx_retired (rs_buf s) < reliable -> bhist (fun x => x < reliable) (g_fr g) (g_by g) b) ->
     reset_post g s sess err final reliable
       match match retire_undeliverable final reliable (rx_retired b) sess1 fc1 with
             | None => None
             | Some (sess2, fc2) => match complete_reset sess2 (mkRs fc2 b (StSizeKnownAt err0 final reliable)) with None => None | Some x => Some (inl x) end
             end with
       | None => None | Some (inr e) => Some (sess, s, QErr e) | Some (inl (sess', s', ev, ended)) => Some (sess', s', QDone ev ended) end).
  { intros err0 b Hw Hns Hret Hread Ix Ed Hlen' Hall Hb. destruct (discard_basic reliable (rs_buf s)) as (b1 & Ed1 & R1 & _). rewrite Ed in Ed1. injection Ed1 as <-. rewrite R1.
    destruct (undeliverable_ok final reliable (rx_retired (rs_buf s)) sess1 fc1 (proj1 M) Hfin Hrel Hread Hret) as (sess2 & fc2 & -> & M2 & U1 & U2 & U3).
    assert (M3 : moves sess (rs_fc s) sess2 fc2) by (eapply moves_trans; eauto).
    unfold complete_reset. cbn [rs_st rs_buf]. rewrite R1. destruct (N.ltb_spec (rx_retired (rs_buf s)) reliable) as [Hlt|Hge'].
    - apply Close; [assumption|assumption|cbn [rs_fc]; congruence|]. left. splits; auto. destruct (discard_spec _ _ _ Ix Hlt Ed) as (D1 & D2 & D3 & D4 & D5).
      gs. rewrite ?app_nil_r, ?orb_false_r, ?orb_true_r, R1. splits; auto; try congruence.
      + rewrite U1. apply (Hkn Hw).
      + apply in_or_app. right. left. reflexivity.
      + apply Forall_app. split; [assumption|]. constructor; [lia|constructor].
    - destruct (finish_ok final err0 sess2 (mkRs fc2 b (StSizeKnownAt err0 final reliable)) Logic.I (proj1 M3) U1) as (sess3 & fc3 & E & M4 & V1 & V2 & V3).
      cbn [rs_st rs_fc rs_buf] in E, M4, V3. rewrite E. apply Done; auto; try congruence.
      + eapply moves_trans; eauto.
      + right. exists reliable. split; [apply in_or_app; right; left; reflexivity|lia]. }
  unfold shape in S. destruct (rs_st s) eqn:Est; try (destruct S; fail).
  - destruct Hst as (-> & -> & ->). destruct S as (S1 & S2 & S3 & S4 & (S5 & S5') & S6). cbn [rs_buf s1 rs_fc].
    destruct (discard_basic reliable (rs_buf s)) as (b & Ed & R1 & _). rewrite Ed. pose proof (xi_retired_le _ (b_inv _ _ _ _ S2)).
    apply Partial; auto; try discriminate; try lia.
    + apply S2.
    + apply S2.
    + rewrite S5'. constructor.
    + intros Hlt. destruct (discard_spec _ _ _ (b_inv _ _ _ _ S2) Hlt Ed) as (D1 & D2 & D3 & D4 & D5). eapply bhist_discard; eauto; intros; exact Logic.I.
  - destruct Hst as (-> & -> & ->). destruct S as (S1 & S2 & S3 & S4 & (S5 & S5') & S6 & S7). cbn [rs_buf s1 rs_fc].
    destruct (discard_basic reliable (rs_buf s)) as (b & Ed & R1 & _). rewrite Ed. pose proof (xi_retired_le _ (b_inv _ _ _ _ S2)).
    apply Partial; auto; try discriminate; try lia.
    + apply S2.
    + apply S2.
    + rewrite S5'. constructor.
    + intros Hlt. destruct (discard_spec _ _ _ (b_inv _ _ _ _ S2) Hlt Ed) as (D1 & D2 & D3 & D4 & D5). eapply bhist_discard; eauto; intros; exact Logic.I.
  - destruct Hst as (-> & -> & ->). destruct S as (S1 & S2 & S3 & S4 & S5 & S6 & S7 & S8 & S9 & S10 & S11). cbn [rs_buf s1 rs_fc].
    assert (Hno : reliable <= final -> StSizeKnownAt err0 final0 reliable0 <> StWaitForReset -> ~ ((exists F, In F (g_fi g) /\ (F < final \/ (true = true /\ final <> F))) \/ (true = true /\ final < g_hi g)) /\
       ~ (rf_max_allowed (rs_fc s) < final \/ rf_max_allowed sess < rf_consumed sess + (N.max final (g_hi g) - g_hi g))) by (intros _ Hw; split; [auto|intros [X|X]; lia]).
    destruct (negb (err =? err0)); [apply Err; auto; discriminate|]. destruct (N.ltb_spec reliable reliable0) as [Hrl|Hrl].
    + assert (final0 = final) as -> by (revert Efs; unfold fs_ok; intros X; apply N.eqb_eq in X; lia).
      destruct (discard_basic reliable (rs_buf s)) as (b & Ed & R1 & _). rewrite Ed. pose proof (xi_retired_le _ (b_inv _ _ _ _ S5)).
      apply Partial; auto; try discriminate; try lia.
      * apply S5.
      * apply S5.
      * eapply fimp; [|exact S10]. cbn. intros. lia.
      * intros Hlt. destruct (discard_spec _ _ _ (b_inv _ _ _ _ S5) Hlt Ed) as (D1 & D2 & D3 & D4 & D5). eapply bhist_discard; eauto. cbn. intros. lia.
    + apply Close; auto. left. splits; auto. unfold s1. gs. rewrite ?app_nil_r, ?orb_false_r, ?orb_true_r.
      assert (final0 = final) as -> by (revert Efs; unfold fs_ok; intros X; apply N.eqb_eq in X; lia). splits; auto; try congruence.
      * rewrite Hfin. apply (Hkn ltac:(discriminate)).
      * apply in_or_app. auto.
      * apply Forall_app. split; [assumption|]. constructor; [lia|constructor].
  - destruct Hst as (-> & -> & ->). destruct S as (S1 & S2 & S3 & S4 & S5 & S6). cbn [rs_buf s1 rs_fc].
    apply Close; auto. left. splits; auto. unfold s1. gs. rewrite ?app_nil_r, ?orb_false_r, ?orb_true_r.
    assert (E : rf_consumed (rs_fc s) = final) by (revert Efs; unfold fs_ok; intros X; apply N.eqb_eq in X; lia). rewrite E in *.
    splits; auto; try congruence; try lia.
    + rewrite Hfin. apply (Hkn ltac:(discriminate)).
    + rewrite Hfin. assumption.
  - destruct Hst as (-> & -> & ->). destruct S as (S1 & S2 & S3).
    destruct (finish_ok final err sess1 s1 Logic.I (proj1 M) Hfin) as (sess2 & fc2 & -> & M2 & V1 & V2 & V3). cbn [rs_fc s1] in *.
    apply Done; auto; try congruence. eapply moves_trans; eauto.
  - destruct Hst as (-> & -> & ->). destruct S as (S1 & S2 & S3).
    destruct (finish_ok final err sess1 s1 Logic.I (proj1 M) Hfin) as (sess2 & fc2 & -> & M2 & V1 & V2 & V3). cbn [rs_fc s1] in *.
    apply Done; auto; try congruence. eapply moves_trans; eauto.
Qed.

(** ** Reading *)
Lemma read_step g s sess n : shape g s -> ginv g s -> both sess (rs_fc s) ->
  exists sess' s' out, rs_step sess s (QRead n) = Some (sess', s', out) /\ moves sess (rs_fc s) sess' (rs_fc s') /\
    post g (QRead n, out) s' /\ rf_max_allowed (rs_fc s') = rf_max_allowed (rs_fc s) /\ (forall v, out <> QMaxStreamData v) /\
    ((out = QErr ENoMoreData /\ g_stop g = true) \/ exists l fin ev, out = QBytes l fin ev /\ g_stop g = false /\ lenN l <= n /\
       (fin = true -> ev = [EvComplete] /\ known g (g_hi g) /\ lenN (g_by g ++ l) = g_hi g) /\
       (fin = false -> ev = [] \/ exists x r, ev = [EvReset x] /\ In r (g_rel g) /\ r <= lenN (g_by g ++ l)) /\
       (lenN l < n -> arrived (g_fr g) (lenN (g_by g ++ l)) -> exists r, In r (g_rel g) /\ r <= lenN (g_by g ++ l)) /\
       (g_reset g = false -> g_fi g <> [] -> (forall x, x < g_hi g -> arrived (g_fr g) x) -> g_hi g <= lenN (g_by g) + n -> fin = true)).
Proof.
  intros S G B. pose proof (gi_hi _ _ G) as Hh. symmetry in Hh. pose proof S as S0.
  assert (NoMore : g_stop g = true -> exists sess' s' out, Some (sess, s, QErr ENoMoreData) = Some (sess', s', out) /\ moves sess (rs_fc s) sess' (rs_fc s') /\
    post g (QRead n, out) s' /\ rf_max_allowed (rs_fc s') = rf_max_allowed (rs_fc s) /\ (forall v, out <> QMaxStreamData v) /\
    ((out = QErr ENoMoreData /\ g_stop g = true) \/ exists l fin ev, out = QBytes l fin ev /\ g_stop g = false /\ lenN l <= n /\
       (fin = true -> ev = [EvComplete] /\ known g (g_hi g) /\ lenN (g_by g ++ l) = g_hi g) /\
       (fin = false -> ev = [] \/ exists x r, ev = [EvReset x] /\ In r (g_rel g) /\ r <= lenN (g_by g ++ l)) /\
       (lenN l < n -> arrived (g_fr g) (lenN (g_by g ++ l)) -> exists r, In r (g_rel g) /\ r <= lenN (g_by g ++ l)) /\
       (g_reset g = false -> g_fi g <> [] -> (forall x, x < g_hi g -> arrived (g_fr g) x) -> g_hi g <= lenN (g_by g) + n -> fin = true))).
  { intros Hs. eexists _, _, _. split; [reflexivity|]. splits; auto using moves_refl; try (intros; discriminate). apply post_err; auto; exact Logic.I. }
  assert (Hadd : forall l fin ev, gadd g (QRead n, QBytes l fin ev) = mkG (g_fr g) (g_fi g) (g_by g ++ l) (g_hi g) (g_stop g) (g_reset g) (g_acked g) (g_rel g)).
  { intros. unfold gadd. cbn [frame_of final_of bytes_of high_of is_stop is_reset is_acked rel_of fst snd]. rewrite !app_nil_r, !orb_false_r, N.max_0_r. reflexivity. }
  cbn [rs_step]. unfold rs_read. unfold shape in S. destruct (rs_st s) eqn:Est; try (destruct S; fail).
  - destruct S as (S1 & S2 & S3 & S4 & (S5 & S5') & S6).
    destruct (rx_read_spec (rs_buf s) n (b_inv _ _ _ _ S2)) as (b & l & -> & I & E & L & R1 & R2 & R3 & _ & R4). pose proof (xi_retired_le _ I).
    destruct (retire_data_ok (lenN l) sess (rs_fc s) B ltac:(lia)) as (sess1 & fc1 & -> & M & E1 & E2 & E3).
    assert (Hb : bhist everything (g_fr g) (g_by g ++ l) b) by (eapply bhist_read; eauto).
    eexists _, _, _. split; [reflexivity|]. splits; auto; try (intros; discriminate).
    + split; rewrite Hadd.
      * split; [cbn; congruence|]. intros x y. cbn [g_by g_fr]. apply Hb.
      * cbn [ends snd existsb orb]. gs. splits; auto; lia.
    + right. exists l, false, []. splits; auto; try (intros; discriminate).
      * intros Hn Ha. exfalso. rewrite <- (b_len _ _ _ _ Hb) in Ha. apply (b_all _ _ _ _ S2) in Ha; [|lia|exact Logic.I]. apply Ha. auto.
  - destruct S as (S1 & S2 & S3 & S4 & (S5 & S5') & S6 & S7).
    destruct (rx_read_spec (rs_buf s) n (b_inv _ _ _ _ S2)) as (b & l & -> & I & E & L & R1 & R2 & R3 & _ & R4). pose proof (xi_retired_le _ I).
    destruct (retire_data_ok (lenN l) sess (rs_fc s) B ltac:(lia)) as (sess1 & fc1 & -> & M & E1 & E2 & E3).
    assert (Hb : bhist everything (g_fr g) (g_by g ++ l) b) by (eapply bhist_read; eauto).
    eexists _, _, _. split; [reflexivity|]. splits; auto; try (intros; discriminate).
    + split; rewrite Hadd.
      * split; [cbn; congruence|]. intros x y. cbn [g_by g_fr]. apply Hb.
      * cbn [ends snd existsb orb]. gs. rewrite E1. splits; auto; lia.
    + right. exists l, false, []. splits; auto; try (intros; discriminate).
      * intros Hn Ha. exfalso. rewrite <- (b_len _ _ _ _ Hb) in Ha. apply (b_all _ _ _ _ S2) in Ha; [|lia|exact Logic.I]. apply Ha. auto.
      * intros _ _ X. destruct S7 as (x & X1 & X2). rewrite <- Hh in X1. specialize (X _ X1). tauto.
  - destruct S as (S1 & S2 & S3 & S4 & S5 & S6 & S7 & S8 & S9 & S10 & S11).
    destruct (rx_read_spec (rs_buf s) n (b_inv _ _ _ _ S5)) as (b & l & -> & I & E & L & R1 & R2 & R3 & _ & R4). pose proof (xi_retired_le _ I).
    destruct (retire_data_ok (lenN l) sess (rs_fc s) B ltac:(lia)) as (sess1 & fc1 & -> & M & E1 & E2 & E3).
    assert (Hb : bhist (fun x => x < reliable) (g_fr g) (g_by g ++ l) b) by (eapply bhist_read; eauto).
    assert (Hmore : lenN l < n -> arrived (g_fr g) (lenN (g_by g ++ l)) -> exists r, In r (g_rel g) /\ r <= lenN (g_by g ++ l)).
    { intros Hn Ha. rewrite <- (b_len _ _ _ _ Hb) in *. destruct (N.lt_ge_cases (rx_retired b) reliable); [|exists reliable; auto].
      exfalso. apply (b_all _ _ _ _ S5) in Ha; [|lia|assumption]. apply Ha. auto. }
    unfold complete_reset. cbn [rs_st rs_buf]. destruct (N.ltb_spec (rx_retired b) reliable).
    + eexists _, _, _. split; [reflexivity|]. splits; auto; try (intros; discriminate).
      * split; rewrite Hadd.
        -- split; [cbn; congruence|]. intros x y. cbn [g_by g_fr]. apply Hb.
        -- cbn [ends snd existsb orb]. gs. rewrite E1. splits; auto; try lia.
      * right. exists l, false, []. splits; auto; try (intros; discriminate). intros X. congruence.
    + destruct (finish_ok final err sess1 (mkRs fc1 b (StSizeKnownAt err final reliable)) Logic.I (proj1 M)) as (sess2 & fc2 & -> & M2 & V1 & V2 & V3); [cbn [rs_fc]; congruence|].
      cbn [rs_fc rs_buf] in *. eexists _, _, _. split; [reflexivity|]. cbn [rs_fc]. splits; auto; try (intros; discriminate); try congruence.
      * eapply moves_trans; eauto.
      * split; rewrite Hadd.
        -- split; [cbn; congruence|]. intros x y. cbn [g_by g_fr]. apply Hb.
        -- cbn [ends snd existsb orb ev_end]. split; [reflexivity|]. cbn [rs_fc]. congruence.
      * right. exists l, false, [EvReset err]. splits; auto; try (intros; discriminate).
        -- intros _. right. exists err, reliable. splits; auto. rewrite <- (b_len _ _ _ _ Hb). assumption.
        -- intros X. congruence.
  - destruct S as (S1 & S2 & S3 & S4 & S5 & S6).
    destruct (rx_read_spec (rs_buf s) n (b_inv _ _ _ _ S2)) as (b & l & -> & I & E & L & R1 & R2 & R3 & _ & R4). pose proof (xi_retired_le _ I) as Hrl.
    destruct (retire_data_ok (lenN l) sess (rs_fc s) B ltac:(lia)) as (sess1 & fc1 & -> & M & E1 & E2 & E3).
    assert (Hb : bhist everything (g_fr g) (g_by g ++ l) b) by (eapply bhist_read; eauto). pose proof (b_len _ _ _ _ Hb) as Hbl.
    destruct (buffered_spec _ _ _ (xi_ok _ I) (xi_past _ I)) as (m & Em & Hm). unfold rx_buffered. rewrite Em.
    assert (Hall : forall x, rx_retired (rs_buf s) <= x -> x < g_hi g -> byte_at (rx_ranges (rs_buf s)) x <> None).
    { intros x Hx Hx2. apply (b_all _ _ _ _ S2); [assumption|exact Logic.I|]. apply S6. lia. }
    assert (Hend : m = 0 <-> rx_retired b = g_hi g).
    { split.
      - intros Hz. apply Hm in Hz. destruct (N.lt_ge_cases (rx_retired b) (g_hi g)) as [Hlt|]; [|lia]. exfalso. specialize (Hall (rx_retired b) ltac:(lia) Hlt). rewrite <- R2 in Hall by lia. rewrite Hz in Hall. apply Hall. reflexivity.
      - intros Hz. apply Hm. pose proof (xi_past _ I) as Hp. pose proof (xi_end _ I) as He. pose proof (xi_ok _ I) as Hok. destruct (rx_ranges b) as [|e r]; [reflexivity|]. exfalso.
        rewrite (rend_nonempty _ _ 0) in He by discriminate. apply Forall_cons_iff in Hp as [Hp _]. destruct e as [k v]. cbn [rok rend fst snd] in *. destruct Hok as (_ & _ & Hok). apply rend_ge in Hok. lia. }
    destruct (N.eqb_spec m 0) as [Hz|Hz].
    + eexists _, _, _. split; [reflexivity|]. splits; auto; try (intros; discriminate).
      * split; rewrite Hadd.
        -- split; [cbn; congruence|]. intros x y. cbn [g_by g_fr]. apply Hb.
        -- cbn [ends snd existsb orb ev_end]. split; [reflexivity|]. cbn [rs_fc]. apply Hend in Hz. lia.
      * right. exists l, true, [EvComplete]. splits; auto; try (intros; discriminate).
        -- intros _. rewrite Hh. splits; auto. rewrite <- Hbl, <- Hh. apply Hend. assumption.
        -- intros Hn Ha. exfalso. rewrite <- Hbl in Ha. apply (b_all _ _ _ _ S2) in Ha; [|lia|exact Logic.I]. apply Ha. auto.
    + eexists _, _, _. split; [reflexivity|]. splits; auto; try (intros; discriminate).
      * split; rewrite Hadd.
        -- split; [cbn; congruence|]. intros x y. cbn [g_by g_fr]. apply Hb.
        -- cbn [ends snd existsb orb ev_end]. gs. rewrite E1. splits; auto; try lia.
      * right. exists l, false, []. splits; auto; try (intros; discriminate).
        -- intros Hn Ha. exfalso. rewrite <- Hbl in Ha. apply (b_all _ _ _ _ S2) in Ha; [|lia|exact Logic.I]. apply Ha. auto.
        -- intros _ _ _ Hn. exfalso. apply Hz. apply Hend. pose proof (b_len _ _ _ _ S2) as Hbl2.
           destruct (N.lt_ge_cases (lenN l) n) as [Hln|Hln]; [|lia].
           destruct (N.lt_ge_cases (rx_retired b) (g_hi g)) as [Hlt|]; [|lia]. exfalso. apply (Hall (rx_retired b)); [lia|assumption|]. auto.
  - apply NoMore. tauto.
  - apply NoMore. tauto.
Qed.

(** ** The application stops the stream *)
Lemma stop_step g s sess err : shape g s -> ginv g s -> both sess (rs_fc s) ->
  exists sess' s' ev b, rs_step sess s (QStop err) = Some (sess', s', QDone ev b) /\ moves sess (rs_fc s) sess' (rs_fc s') /\
    post g (QStop err, QDone ev b) s' /\ rf_max_allowed (rs_fc s') = rf_max_allowed (rs_fc s) /\ ends (QDone ev b) = b.
Proof.
  intros S G B. pose proof (gi_hi _ _ G) as Hh. symmetry in Hh. pose proof B as (_ & I & _). pose proof (ri_rc _ _ I).
  assert (Hadd : forall ev b, gadd g (QStop err, QDone ev b) = mkG (g_fr g) (g_fi g) (g_by g) (g_hi g) true (g_reset g) (g_acked g) (g_rel g)).
  { intros. unfold gadd. cbn [frame_of final_of bytes_of high_of is_stop is_reset is_acked rel_of fst snd]. rewrite !app_nil_r, !orb_false_r, orb_true_r, N.max_0_r. reflexivity. }
  assert (Hgi : forall ev b s', rf_consumed (rs_fc s') = g_hi g -> ginv (gadd g (QStop err, QDone ev b)) s') by (intros; rewrite Hadd; split; [assumption|apply G]).
  cbn [rs_step]. unfold rs_stop.
  destruct (retire_data_ok (rf_consumed (rs_fc s) - rf_retired (rs_fc s)) sess (rs_fc s) B ltac:(lia)) as (sess1 & fc1 & E & M & E1 & E2 & E3).
  unfold shape in S. destruct (rs_st s) eqn:Est; try (destruct S; fail); rewrite ?csub_ok, ?E by lia.
  - eexists _, _, _, _. split; [reflexivity|]. splits; auto. split; [apply Hgi; cbn; congruence|]. cbn [ends snd existsb orb]. rewrite Hadd. gs. splits; auto; try lia. tauto.
  - eexists _, _, _, _. split; [reflexivity|]. splits; auto. split; [apply Hgi; cbn; congruence|]. cbn [ends snd existsb orb]. rewrite Hadd. gs. splits; auto; try lia. rewrite E1. unfold known in *. cbn [g_fi]. tauto.
  - destruct S as (S1 & _). destruct (finish_ok final err0 sess s) as (sess2 & fc2 & -> & M2 & V1 & V2 & V3); [rewrite Est; exact Logic.I|assumption|assumption|].
    eexists _, _, _, _. split; [reflexivity|]. splits; auto. split; [apply Hgi; cbn; congruence|]. cbn [ends snd existsb orb]. split; [reflexivity|]. cbn. congruence.
  - eexists _, _, _, _. split; [reflexivity|]. splits; auto. split; [apply Hgi; cbn; congruence|]. cbn [ends snd existsb orb]. split; [reflexivity|]. cbn. lia.
  - eexists _, _, _, _. split; [reflexivity|]. splits; auto using moves_refl. split; [apply Hgi; cbn; congruence|]. cbn [ends snd existsb orb]. rewrite Hadd. unfold shape. rewrite Est. gs. unfold known in *. cbn [g_fi]. tauto.
  - eexists _, _, _, _. split; [reflexivity|]. splits; auto using moves_refl. split; [apply Hgi; cbn; congruence|]. cbn [ends snd existsb orb]. rewrite Hadd. unfold shape. rewrite Est. gs. tauto.
Qed.
Lemma acked_step g s sess : shape g s -> ginv g s -> both sess (rs_fc s) ->
  exists s' b, rs_step sess s QStopAcked = Some (sess, s', QDone [] b) /\ rs_fc s' = rs_fc s /\ post g (QStopAcked, QDone [] b) s' /\ (b = true -> g_stop g = true).
Proof.
  intros S G B. pose proof (gi_hi _ _ G) as Hh.
  assert (Hadd : forall ev b, gadd g (QStopAcked, QDone ev b) = mkG (g_fr g) (g_fi g) (g_by g) (g_hi g) (g_stop g) (g_reset g) true (g_rel g)).
  { intros. unfold gadd. cbn [frame_of final_of bytes_of high_of is_stop is_reset is_acked rel_of fst snd]. rewrite !app_nil_r, !orb_false_r, orb_true_r, N.max_0_r. reflexivity. }
  assert (Hgi : forall ev b s', rs_fc s' = rs_fc s -> ginv (gadd g (QStopAcked, QDone ev b)) s') by (intros ev b s' E; rewrite Hadd; split; [rewrite E; assumption|apply G]).
  cbn [rs_step]. unfold rs_stop_acked. unfold shape in S. destruct (rs_st s) as [| |err final rel| | |rch need err| |] eqn:Est; try (destruct S; fail).
  5: destruct rch.
  all: eexists _, _; (split; [reflexivity|]); (split; [reflexivity|]); (split; [|try tauto; try (intros; discriminate)]).
  all: split; [apply Hgi; reflexivity|]; cbn [ends snd existsb orb]; rewrite ?Hadd.
  all: try (split; [reflexivity|cbn; tauto]).
  all: unfold shape; cbn [with_st rs_st rs_fc rs_buf]; rewrite ?Est; gs; unfold known in *; cbn [g_fi] in *; tauto.
Qed.

(** ** Window operations *)
Lemma gadd_window g o out : (match o with QWrite _ _ _ | QBlocked | QSetMax _ | QMaxLost _ | QStopLost => True | _ => False end) -> (match out with QBytes _ _ _ => False | _ => True end) -> gadd g (o, out) = g.
Proof. intros H H2. apply gadd_nil; destruct o; try destruct H; try reflexivity; destruct out; try destruct H2; reflexivity. Qed.
Lemma shape_fc g s fc' : shape g s -> rf_consumed fc' = rf_consumed (rs_fc s) -> rf_retired fc' = rf_retired (rs_fc s) -> shape g (with_fc fc' s).
Proof. unfold shape. cbn [with_fc rs_fc rs_buf rs_st]. intros S -> ->. exact S. Qed.
Definition winop (o : rsop) : bool := match o with QWrite _ _ _ | QBlocked | QSetMax _ | QMaxLost _ | QStopLost => true | _ => false end.
(** These may overflow: see C53. *)
Lemma window_step g s sess o sess' s' out : shape g s -> ginv g s -> both sess (rs_fc s) -> winop o = true ->
  (match o with QSetMax m => rf_max_active (rs_fc s) <= m | _ => True end) ->
  rs_step sess s o = Some (sess', s', out) ->
  moves sess (rs_fc s) sess' (rs_fc s') /\ post g (o, out) s' /\ ends out = false /\
  rf_max_allowed (rs_fc s') = match out with QMaxStreamData v => v | _ => rf_max_allowed (rs_fc s) end.
Proof.
  intros S G B W Hset H. pose proof B as (I1 & I2 & L).
  assert (Same : forall out', (match out' with QBytes _ _ _ => False | _ => True end) -> ends out' = false -> (forall v, out' <> QMaxStreamData v) -> (sess', s', out) = (sess, s, out') -> moves sess (rs_fc s) sess' (rs_fc s') /\ post g (o, out) s' /\ ends out = false /\
    rf_max_allowed (rs_fc s') = match out with QMaxStreamData v => v | _ => rf_max_allowed (rs_fc s) end).
  { intros out' H1 H2 H3 E. injection E as -> -> ->. splits; auto using moves_refl.
    - unfold post. rewrite gadd_window; [|destruct o; try discriminate; exact Logic.I|assumption]. split; [assumption|]. cbn [snd]. rewrite H2. assumption.
    - destruct out'; auto. exfalso. eapply H3. reflexivity. }
  (* an operation on the window of a receiving stream *)
  assert (Fc : forall ro fc' ro', rstep RStream (rs_fc s) ro = Some (fc', ro') -> (match ro with RConsume _ | RRetire _ => False | _ => True end) ->
     raises (rs_fc s) ro ->
     sess' = sess -> s' = with_fc fc' s -> out = match ro' with RFrame v => QMaxStreamData v | _ => QNothing end ->
     moves sess (rs_fc s) sess' (rs_fc s') /\ post g (o, out) s' /\ ends out = false /\
     rf_max_allowed (rs_fc s') = match out with QMaxStreamData v => v | _ => rf_max_allowed (rs_fc s) end).
  { intros ro fc' ro' E Hro Hr -> -> ->. destruct (rstep_inv _ _ _ _ _ dS I2 Hr E) as (A1 & A2 & A3 & A4 & A5 & A6). cbn [with_fc rs_fc].
    assert (A4' : rf_consumed fc' = rf_consumed (rs_fc s)) by (destruct ro; [destruct Hro|..]; assumption).
    assert (A5' : rf_retired fc' = rf_retired (rs_fc s)) by (destruct ro; try (destruct Hro; fail); assumption).
    splits.
    - unfold moves, both. splits; auto; lia.
    - unfold post. rewrite gadd_window; [|destruct o; try discriminate; exact Logic.I|destruct ro'; exact Logic.I]. split.
      + destruct G. split; [cbn [with_fc rs_fc]; congruence|assumption].
      + destruct ro'; cbn [snd ends]; apply shape_fc; auto.
    - destruct ro'; reflexivity.
    - rewrite A2. destruct ro'; reflexivity. }
  destruct o; try discriminate W; cbn [rs_step] in H.
  - (* QStopLost *) unfold rs_stop_lost in H. destruct (rs_st s) eqn:Est; try (apply some_inj in H; symmetry in H; eapply Same; [| | |exact H]; [exact Logic.I|reflexivity|discriminate]).
    injection H as <- <- <-. cbn [with_st rs_fc]. splits; auto using moves_refl. unfold post. rewrite gadd_window by exact Logic.I. split; [destruct G; split; auto|]. cbn [snd ends]. unfold shape in *. rewrite Est in S. cbn [with_st rs_st rs_fc]. exact S.
  - (* QWrite *) destruct (rs_st s) eqn:Est; try (apply some_inj in H; symmetry in H; eapply Same; [| | |exact H]; [exact Logic.I|reflexivity|discriminate]).
    + destruct (rfc_write RStream now rtt fits (rs_fc s)) as [[fc' [v|]]|] eqn:E; [| |discriminate]; injection H as <- <- <-.
      * eapply (Fc (RWrite now rtt fits) fc' (RFrame v)); auto; try exact Logic.I. cbn [rstep]. rewrite E. reflexivity.
      * eapply (Fc (RWrite now rtt fits) fc' RQuiet); auto; try exact Logic.I. cbn [rstep]. rewrite E. reflexivity.
    + destruct needed; [|apply some_inj in H; symmetry in H; eapply Same; [| | |exact H]; [exact Logic.I|reflexivity|discriminate]].
      destruct fits; [|apply some_inj in H; symmetry in H; eapply Same; [| | |exact H]; [exact Logic.I|reflexivity|discriminate]].
      injection H as <- <- <-. cbn [with_st rs_fc]. splits; auto using moves_refl. unfold post. rewrite gadd_window by exact Logic.I. split; [destruct G; split; auto|]. cbn [snd ends]. unfold shape in *. rewrite Est in S. cbn [with_st rs_st rs_fc]. exact S.
  - destruct (rs_st s) eqn:Est; try (apply some_inj in H; symmetry in H; eapply Same; [| | |exact H]; [exact Logic.I|reflexivity|discriminate]).
    destruct (rfc_flowc_update (rs_fc s)) as [fc'|] eqn:E; [|discriminate]. injection H as <- <- <-.
    eapply (Fc RBlocked fc' RQuiet); auto; try exact Logic.I. cbn [rstep]. rewrite E. reflexivity.
  - destruct (rs_st s) eqn:Est; try (apply some_inj in H; symmetry in H; eapply Same; [| | |exact H]; [exact Logic.I|reflexivity|discriminate]).
    injection H as <- <- <-. eapply (Fc (RSetMax m) _ RQuiet); auto; try exact Logic.I. reflexivity.
  - destruct (rs_st s) eqn:Est; try (apply some_inj in H; symmetry in H; eapply Same; [| | |exact H]; [exact Logic.I|reflexivity|discriminate]).
    injection H as <- <- <-. eapply (Fc (RLost v) _ RQuiet); auto; try exact Logic.I. reflexivity.
Qed.

(** ** A stream that is over *)
Lemma over_step s sess o : ended_st (rs_st s) = true -> (match o with QFrame _ off d => off + lenN d < 2 ^ 64 | _ => True end) ->
  exists out, rs_step sess s o = Some (sess, s, out) /\ (forall v, out <> QMaxStreamData v).
Proof.
  intros H Ho. destruct o; cbn [rs_step].
  - unfold rs_frame. rewrite chk_ok by assumption. unfold rs_consume. destruct (rs_st s) eqn:Est; try discriminate H; rewrite Est; eexists; (split; [reflexivity|discriminate]).
  - unfold rs_reset. destruct (final <? reliable); [eexists; split; [reflexivity|discriminate]|]. unfold rs_consume. destruct (rs_st s) eqn:Est; try discriminate H; rewrite Est; eexists; (split; [reflexivity|discriminate]).
  - unfold rs_read. destruct (rs_st s) eqn:Est; try discriminate H; eexists; (split; [reflexivity|discriminate]).
  - unfold rs_stop. destruct (rs_st s) eqn:Est; try discriminate H; eexists; (split; [reflexivity|discriminate]).
  - unfold rs_stop_acked. destruct (rs_st s) eqn:Est; try discriminate H; eexists; (split; [reflexivity|discriminate]).
  - unfold rs_stop_lost. destruct (rs_st s) eqn:Est; try discriminate H; eexists; (split; [reflexivity|discriminate]).
  - destruct (rs_st s) eqn:Est; try discriminate H; eexists; (split; [reflexivity|discriminate]).
  - destruct (rs_st s) eqn:Est; try discriminate H; eexists; (split; [reflexivity|discriminate]).
  - destruct (rs_st s) eqn:Est; try discriminate H; eexists; (split; [reflexivity|discriminate]).
  - destruct (rs_st s) eqn:Est; try discriminate H; eexists; (split; [reflexivity|discriminate]).
Qed.

(** * One stream *)
Definition sinv (m : N) (h : rhist) (s : rs) : Prop :=
  ginv (ghost h) s /\ rf_max_allowed (rs_fc s) = s_max m h /\ (if over h then closed_shape s else shape (ghost h) s).
Definition sop_ok (o : rsop) : Prop := match o with QFrame _ off d => off + lenN d <= MAX_VARINT | QReset _ final _ => final <= MAX_VARINT | _ => True end.

Lemma sinv_step m h s sess o sess' s' out : sinv m h s -> both sess (rs_fc s) -> sop_ok o ->
  (match o with QSetMax w => rf_max_active (rs_fc s) <= w | _ => True end) ->
  rs_step sess s o = Some (sess', s', out) ->
  sinv m (h ++ [(o, out)]) s' /\ moves sess (rs_fc s) sess' (rs_fc s').
Proof.
  intros (G & Hm & S) B Ho Hset H. unfold sinv. rewrite ghost_snoc, over_app, max_snoc. cbn [snd]. destruct (over h) eqn:Eo; cbn [orb].
  - destruct (over_step s sess o (proj1 S)) as (out' & E & Hn); [destruct o; auto; cbn in Ho; unfold MAX_VARINT in Ho; lia|].
    rewrite E in H. injection H as <- <- <-. splits; auto using moves_refl. destruct out'; auto. exfalso. eapply Hn. reflexivity.
  - assert (P : post (ghost h) (o, out) s' /\ moves sess (rs_fc s) sess' (rs_fc s') /\ rf_max_allowed (rs_fc s') = match out with QMaxStreamData v => v | _ => rf_max_allowed (rs_fc s) end).
    { destruct o; cbn [sop_ok] in Ho.
      - destruct (frame_step _ _ sess fin off d S G B Ho) as (a & b & c & E & M & P & X & _ & Hn & _). rewrite E in H. injection H as <- <- <-. splits; auto. destruct c; auto. exfalso. eapply Hn. reflexivity.
      - destruct (reset_step _ _ sess err final reliable S G B Ho) as (a & b & c & E & M & P & X & Hn & _). rewrite E in H. injection H as <- <- <-. splits; auto. destruct c; auto. exfalso. eapply Hn. reflexivity.
      - destruct (read_step _ _ sess n S G B) as (a & b & c & E & M & P & X & Hn & _). rewrite E in H. injection H as <- <- <-. splits; auto. destruct c; auto. exfalso. eapply Hn. reflexivity.
      - destruct (stop_step _ _ sess err S G B) as (a & b & c & d & E & M & P & X & _). rewrite E in H. injection H as <- <- <-. splits; auto.
      - destruct (acked_step _ _ sess S G B) as (a & b & E & M & P & _). rewrite E in H. injection H as <- <- <-. rewrite M. splits; auto using moves_refl.
      - eapply window_step in H as (A1 & A2 & A3 & A4); eauto.
      - eapply window_step in H as (A1 & A2 & A3 & A4); eauto.
      - eapply window_step in H as (A1 & A2 & A3 & A4); eauto.
      - eapply window_step in H as (A1 & A2 & A3 & A4); eauto.
      - eapply window_step in H as (A1 & A2 & A3 & A4); eauto. }
    destruct P as ([P1 P2] & M & X). cbn [snd] in P2. splits; auto. rewrite X. destruct out; auto.
Qed.
Lemma sinv_new m : m <= MAX_VARINT -> sinv m [] (rs_new m) /\ rinv RStream (rs_fc (rs_new m)).
Proof.
  intros Hm. split; [|apply rinv_new; assumption]. unfold sinv. splits; try reflexivity.
  - split; [reflexivity|]. intros x b Hc. cbn in Hc. apply carries_range in Hc. cbn in Hc. lia.
  - cbn. splits; auto; try lia. split; try (cbn; congruence).
    + apply rxinv_new.
    + intros x _ _ (f & b & [] & _).
    + intros x b Hc. apply carries_range in Hc. cbn in Hc. lia.
Qed.

(** * The connection *)
Definition sumN (l : list N) : N := fold_right N.add 0 l.
Definition scons (l : list rs) : N := sumN (map (fun s => rf_consumed (rs_fc s)) l).
Definition sret (l : list rs) : N := sumN (map (fun s => rf_retired (rs_fc s)) l).
Record cinv (D : N) (h : list (cop * cout)) (c : rconn) : Prop := {
  ci_len : length (c_streams c) = n_streams h;
  ci_str : forall i s, nth_error (c_streams c) i = Some s -> sinv (nth i (initial_maxes h) 0) (on_stream i h) s /\ rinv RStream (rs_fc s);
  ci_none : forall i, (n_streams h <= i)%nat -> on_stream i h = [];
  ci_sess : rinv RConn (c_sess c);
  ci_max : rf_max_allowed (c_sess c) = conn_max D h;
  ci_con : rf_consumed (c_sess c) = scons (c_streams c);
  ci_ret : rf_retired (c_sess c) = sret (c_streams c) }.

Lemma nth_set {A} (l : list A) : forall i j x, nth_error (set_nth i x l) j = if Nat.eqb i j then match nth_error l j with Some _ => Some x | None => None end else nth_error l j.
Proof. induction l as [|a l IH]; intros [|i] [|j] x; cbn; try reflexivity; try (destruct (Nat.eqb i j); reflexivity). apply IH. Qed.
Lemma len_set {A} (l : list A) : forall i x, length (set_nth i x l) = length l.
Proof. induction l as [|a l IH]; intros [|i] x; cbn; auto. Qed.
Lemma sum_set (f : rs -> N) l : forall i s s', nth_error l i = Some s -> sumN (map f (set_nth i s' l)) + f s = sumN (map f l) + f s'.
Proof. induction l as [|a l IH]; intros [|i] s s' H; cbn in *; try discriminate; [injection H as ->; lia|]. specialize (IH _ _ s' H). unfold sumN in *. lia. Qed.
Lemma sums_le l i s : nth_error l i = Some s -> (forall j t, nth_error l j = Some t -> rf_retired (rs_fc t) <= rf_consumed (rs_fc t)) ->
  rf_consumed (rs_fc s) + sret l <= scons l + rf_retired (rs_fc s).
Proof.
  revert i. induction l as [|a l IH]; intros [|i] H Hall; cbn in *; try discriminate.
  - injection H as ->. assert (sret l <= scons l); [|unfold sret, scons, sumN in *; lia].
    assert (Hall' : forall j t, nth_error l j = Some t -> rf_retired (rs_fc t) <= rf_consumed (rs_fc t)) by (intros j t Hj; apply (Hall (S j) t Hj)).
    clear - Hall'. induction l as [|a l IH]; [reflexivity|]. cbn. pose proof (Hall' O a eq_refl). assert (sret l <= scons l) by (apply IH; intros j t Hj; apply (Hall' (S j) t Hj)). unfold sret, scons, sumN in *. lia.
  - specialize (IH _ H (fun j t Hj => Hall (S j) t Hj)). pose proof (Hall O a eq_refl). unfold sret, scons, sumN in *. lia.
Qed.
Lemma on_stream_app i h k : on_stream i (h ++ k) = on_stream i h ++ on_stream i k.
Proof. induction h as [|[o out] h IH]; [reflexivity|]. cbn [app on_stream]. destruct o; try assumption. destruct out; try assumption. destruct (Nat.eqb i i0); rewrite IH; reflexivity. Qed.
Lemma maxes_app h k : initial_maxes (h ++ k) = initial_maxes h ++ initial_maxes k.
Proof. induction h as [|[o out] h IH]; [reflexivity|]. cbn [app initial_maxes]. destruct o; try assumption. destruct out; try assumption. rewrite IH. reflexivity. Qed.
Lemma conn_max_snoc h : forall D o out, conn_max D (h ++ [(o, out)]) = match out with CMaxData v => v | _ => conn_max D h end.
Proof. induction h as [|[a b] h IH]; intros D o out; cbn [app conn_max]; [destruct out; reflexivity|]. destruct b; rewrite IH; reflexivity. Qed.

Lemma cinv_both D h c i s : cinv D h c -> nth_error (c_streams c) i = Some s -> both (c_sess c) (rs_fc s).
Proof.
  intros C H. destruct (ci_str _ _ _ C _ _ H) as [_ I]. split; [apply C|]. split; [assumption|]. rewrite (ci_con _ _ _ C), (ci_ret _ _ _ C).
  eapply sums_le; [eassumption|]. intros j t Hj. destruct (ci_str _ _ _ C _ _ Hj) as [_ I']. apply I'.
Qed.
Definition may_raise (c : rconn) (o : cop) : Prop := match o with COn i (QSetMax m) => forall s, nth_error (c_streams c) i = Some s -> rf_max_active (rs_fc s) <= m | _ => True end.

Lemma cinv_new D : D <= MAX_VARINT -> cinv D [] (rconn_new D).
Proof. intros H. split; cbn; auto. - intros [|i] s; discriminate. - apply rinv_new; assumption. Qed.

Lemma cinv_step D h c o c' out : cinv D h c -> op_ok o -> may_raise c o -> cstep c o = Some (c', out) -> cinv D (h ++ [(o, out)]) c'.
Proof.
  intros C Ho Hr H. unfold cstep in H. destruct (c_closed c).
  { injection H as <- <-. destruct C. split; auto.
    - unfold n_streams. rewrite maxes_app, app_length. destruct o; cbn; rewrite Nat.add_0_r; assumption.
    - intros i s Hs. rewrite maxes_app, on_stream_app. destruct o; cbn; rewrite !app_nil_r; auto.
    - intros i Hi. rewrite on_stream_app. unfold n_streams in Hi. rewrite maxes_app, app_length in Hi. rewrite ci_none0 by (unfold n_streams; lia). destruct o; reflexivity.
    - rewrite conn_max_snoc. assumption. }
  destruct o as [max|i op|now rtt fits| |v].
  - injection H as <- <-. destruct C. split; cbn [c_sess c_streams]; auto.
    + unfold n_streams in *. rewrite maxes_app, !app_length. cbn. lia.
    + intros i s Hs. rewrite maxes_app, on_stream_app. cbn [on_stream initial_maxes]. rewrite app_nil_r.
      destruct (Nat.lt_ge_cases i (length (c_streams c))) as [Hi|Hi].
      * rewrite nth_error_app1 in Hs by assumption. rewrite app_nth1 by (unfold n_streams in *; lia). auto.
      * rewrite nth_error_app2 in Hs by assumption. destruct (i - length (c_streams c))%nat as [|k] eqn:Ek; [|destruct k; discriminate]. injection Hs as <-.
        rewrite app_nth2 by (unfold n_streams in *; lia). replace (i - length (initial_maxes h))%nat with O by (unfold n_streams in *; lia). cbn [nth].
        rewrite ci_none0 by lia. apply sinv_new. exact Ho.
    + intros i Hi. rewrite on_stream_app. unfold n_streams in Hi. rewrite maxes_app, app_length in Hi. rewrite ci_none0 by (unfold n_streams; lia). reflexivity.
    + rewrite conn_max_snoc. assumption.
    + unfold scons in *. rewrite map_app. unfold sumN. rewrite fold_right_app. cbn. rewrite ci_con0. reflexivity.
    + unfold sret in *. rewrite map_app. unfold sumN. rewrite fold_right_app. cbn. rewrite ci_ret0. reflexivity.
  - destruct (nth_error (c_streams c) i) as [s|] eqn:Es.
    + destruct (rs_step (c_sess c) s op) as [[[sess' s'] out']|] eqn:E; [|discriminate]. injection H as <- <-.
      assert (Ho' : sop_ok op) by (destruct op; auto; exact Ho).
      destruct (ci_str _ _ _ C _ _ Es) as [Si Ii].
      destruct (sinv_step _ _ _ _ _ _ _ _ Si (cinv_both _ _ _ _ _ C Es) Ho' ltac:(destruct op; auto; apply Hr; assumption) E) as [Si' M].
      pose proof (sum_set (fun s => rf_consumed (rs_fc s)) _ _ _ s' Es) as X1. pose proof (sum_set (fun s => rf_retired (rs_fc s)) _ _ _ s' Es) as X2.
      destruct M as ((M1 & M2 & _) & M3 & M4 & M5 & _). destruct C. split; cbn [c_sess c_streams]; auto.
      * unfold n_streams in *. rewrite maxes_app, app_length, len_set. cbn. lia.
      * intros j t Hj. rewrite nth_set in Hj. rewrite maxes_app, on_stream_app. cbn [on_stream initial_maxes]. rewrite app_nil_r.
        rewrite (Nat.eqb_sym j i). destruct (Nat.eqb_spec i j) as [->|Hne].
        -- rewrite Es in Hj. injection Hj as <-. split; assumption.
        -- rewrite app_nil_r. auto.
      * intros j Hj. rewrite on_stream_app. unfold n_streams in Hj. rewrite maxes_app, app_length in Hj. rewrite ci_none0 by (unfold n_streams; lia). cbn [on_stream].
        destruct (Nat.eqb_spec j i) as [->|]; [|reflexivity]. assert (i < length (c_streams c))%nat by (apply nth_error_Some; congruence). unfold n_streams in *. cbn in Hj. lia.
      * rewrite conn_max_snoc. congruence.
      * unfold scons in *. lia.
      * unfold sret in *. lia.
    + injection H as <- <-. destruct C. split; auto.
      * unfold n_streams. rewrite maxes_app, app_length. cbn; rewrite Nat.add_0_r; assumption.
      * intros j t Hs. rewrite maxes_app, on_stream_app. cbn; rewrite !app_nil_r; auto.
      * intros j Hi. rewrite on_stream_app. unfold n_streams in Hi. rewrite maxes_app, app_length in Hi. rewrite ci_none0 by (unfold n_streams; lia). reflexivity.
      * rewrite conn_max_snoc. assumption.
  - assert (exists f ro, rstep RConn (c_sess c) (RWrite now rtt fits) = Some (f, ro) /\ c' = mkC f (c_streams c) false /\ out = match ro with RFrame v => CMaxData v | _ => CNone end) as (f & ro & E & -> & ->).
    { cbn [rstep]. destruct (rfc_write RConn now rtt fits (c_sess c)) as [[f [v|]]|]; [| |discriminate]; injection H as <- <-; eexists _, _; (split; [reflexivity|]); split; reflexivity. }
    destruct C. destruct (rstep_inv RConn (c_sess c) (RWrite now rtt fits) f ro dC ci_sess0 Logic.I E) as (A1 & A2 & A3 & A4 & A5 & A6). split; cbn [c_sess c_streams]; auto.
    + unfold n_streams. rewrite maxes_app, app_length. cbn; rewrite Nat.add_0_r; assumption.
    + intros j t Hs. rewrite maxes_app, on_stream_app. cbn; rewrite !app_nil_r; auto.
    + intros j Hi. rewrite on_stream_app. unfold n_streams in Hi. rewrite maxes_app, app_length in Hi. rewrite ci_none0 by (unfold n_streams; lia). reflexivity.
    + rewrite conn_max_snoc, A2. destruct ro; auto.
    + congruence.
    + congruence.
  - destruct (rfc_flowc_update (c_sess c)) as [f|] eqn:E; [|discriminate]. injection H as <- <-.
    destruct C. destruct (rstep_inv RConn (c_sess c) RBlocked f RQuiet dC ci_sess0 Logic.I) as (A1 & A2 & A3 & A4 & A5 & A6); [cbn [rstep]; rewrite E; reflexivity|]. split; cbn [c_sess c_streams]; auto.
    + unfold n_streams. rewrite maxes_app, app_length. cbn; rewrite Nat.add_0_r; assumption.
    + intros j t Hs. rewrite maxes_app, on_stream_app. cbn; rewrite !app_nil_r; auto.
    + intros j Hi. rewrite on_stream_app. unfold n_streams in Hi. rewrite maxes_app, app_length in Hi. rewrite ci_none0 by (unfold n_streams; lia). reflexivity.
    + rewrite conn_max_snoc. congruence.
    + congruence.
    + congruence.
  - injection H as <- <-.
    destruct C. destruct (rstep_inv RConn (c_sess c) (RLost v) (rfc_lost v (c_sess c)) RQuiet dC ci_sess0 Logic.I) as (A1 & A2 & A3 & A4 & A5 & A6); [reflexivity|]. split; cbn [c_sess c_streams]; auto.
    + unfold n_streams. rewrite maxes_app, app_length. cbn; rewrite Nat.add_0_r; assumption.
    + intros j t Hs. rewrite maxes_app, on_stream_app. cbn; rewrite !app_nil_r; auto.
    + intros j Hi. rewrite on_stream_app. unfold n_streams in Hi. rewrite maxes_app, app_length in Hi. rewrite ci_none0 by (unfold n_streams; lia). reflexivity.
    + rewrite conn_max_snoc. congruence.
    + congruence.
    + congruence.
Qed.

Lemma cruns_inv D ops : forall h c c' h', cinv D h c -> Forall op_ok ops -> windows_raised c ops -> cruns c ops = Some (c', h') -> cinv D (h ++ h') c'.
Proof.
  induction ops as [|o ops IH]; intros h c c' h' C Ho Hw H; cbn [cruns] in H.
  - injection H as <- <-. rewrite app_nil_r. assumption.
  - apply Forall_cons_iff in Ho as [Ho1 Ho2]. cbn [windows_raised] in Hw. destruct Hw as [Hw1 Hw2]. destruct (cstep c o) as [[c1 out]|] eqn:E; [|discriminate].
    destruct (cruns c1 ops) as [[c2 h2]|] eqn:E2; [|discriminate]. injection H as <- <-.
    replace (h ++ (o, out) :: h2) with ((h ++ [(o, out)]) ++ h2) by (rewrite <- app_assoc; reflexivity).
    eapply IH; [|exact Ho2|exact Hw2|exact E2]. eapply cinv_step; eauto.
Qed.
Lemma reach D ops c h : D <= MAX_VARINT -> Forall op_ok ops -> windows_raised (rconn_new D) ops -> cruns (rconn_new D) ops = Some (c, h) -> cinv D h c.
Proof. intros HD Ho Hw H. apply (cruns_inv D ops [] (rconn_new D) c h); auto. apply cinv_new. assumption. Qed.

Lemma used_scons D h c : cinv D h c -> conn_used h = scons (c_streams c).
Proof.
  intros C. unfold conn_used, total. rewrite <- (ci_len _ _ _ C). 
  assert (G : forall l k, (forall i s, nth_error l i = Some s -> rf_consumed (rs_fc s) = s_high (on_stream (k + i) h)) ->
     fold_right N.add 0 (map (fun i => s_high (on_stream i h)) (seq k (length l))) = scons l).
  { induction l as [|a l IH]; intros k Hl; [reflexivity|]. cbn. pose proof (Hl O a eq_refl) as H0. rewrite Nat.add_0_r in H0. rewrite <- H0. unfold scons, sumN in *. cbn. rewrite <- (IH (S k)); [reflexivity|].
    intros i s Hi. rewrite (Hl (S i) s Hi). f_equal. f_equal. lia. }
  apply (G _ O). intros i s Hi. destruct (ci_str _ _ _ C _ _ Hi) as [[Gi _] _]. apply Gi.
Qed.

(** * Statements used by RsProps *)
Lemma reached_inv D ops c h : reached D ops c h -> cinv D h c.
Proof. intros (A & B & C & E). eapply reach; eauto. Qed.
Lemma live_stream D ops c h i : reached D ops c h -> (i < n_streams h)%nat -> over (on_stream i h) = false ->
  exists s, nth_error (c_streams c) i = Some s /\ shape (ghost (on_stream i h)) s /\ ginv (ghost (on_stream i h)) s /\ both (c_sess c) (rs_fc s) /\
    rf_max_allowed (rs_fc s) = s_max (nth i (initial_maxes h) 0) (on_stream i h) /\
    forall o sess' s' out, c_closed c = false -> rs_step (c_sess c) s o = Some (sess', s', out) -> exists c', cstep c (COn i o) = Some (c', CStream out).
Proof.
  intros R Hi Ho. apply reached_inv in R as C. destruct (nth_error (c_streams c) i) as [s|] eqn:Es.
  2: { apply nth_error_None in Es. rewrite (ci_len _ _ _ C) in Es. lia. }
  exists s. destruct (ci_str _ _ _ C _ _ Es) as [(G & Hm & S) I]. rewrite Ho in S. splits; auto.
  - eapply cinv_both; eauto.
  - intros o sess' s' out Hc E. unfold cstep. rewrite Hc, Es, E. eauto.
Qed.
Lemma wait_acked g s : shape g s -> g_acked g = false -> rs_st s <> StWaitForReset.
Proof. intros S H E. unfold shape in S. rewrite E in S. destruct S as (_ & _ & S). congruence. Qed.

Lemma frame_final_lemma D ops c h i fin off d : reached D ops c h -> c_closed c = false -> (i < n_streams h)%nat -> over (on_stream i h) = false -> had is_acked (on_stream i h) = false ->
  off + lenN d <= MAX_VARINT ->
  exists c' out, cstep c (COn i (QFrame fin off d)) = Some (c', CStream out) /\
    (out = QErr EFinalSize <-> contradicts (on_stream i h) (off + lenN d) fin) /\
    (out = QErr EFlowControl <-> ~ contradicts (on_stream i h) (off + lenN d) fin /\
       (s_max (nth i (initial_maxes h) 0) (on_stream i h) < off + lenN d \/
        conn_max D h < conn_used h + (N.max (off + lenN d) (s_high (on_stream i h)) - s_high (on_stream i h)))).
Proof.
  intros R Hc Hi Ho Ha Hl. destruct (live_stream _ _ _ _ _ R Hi Ho) as (s & Es & S & G & B & Hm & K).
  destruct (frame_step _ _ _ fin off d S G B Hl) as (sess' & s' & out & E & _ & _ & _ & _ & _ & F & _).
  destruct (K _ _ _ _ Hc E) as [c' Ec]. exists c', out. split; [assumption|]. apply reached_inv in R as C.
  cbn zeta in F. destruct (F (wait_acked _ _ S Ha)) as [F1 F2]. cbn [ghost g_fi g_hi] in F1, F2. rewrite Hm, (ci_max _ _ _ C), (ci_con _ _ _ C), <- (used_scons _ _ _ C) in F2.
  unfold contradicts. split; [exact F1|]. rewrite F2. rewrite F1. reflexivity.
Qed.
Lemma reset_final_lemma D ops c h i err final rel : reached D ops c h -> c_closed c = false -> (i < n_streams h)%nat -> over (on_stream i h) = false -> had is_acked (on_stream i h) = false ->
  final <= MAX_VARINT -> rel <= final ->
  exists c' out, cstep c (COn i (QReset err final rel)) = Some (c', CStream out) /\
    (out = QErr EFinalSize <-> contradicts (on_stream i h) final true) /\
    (out = QErr EFlowControl <-> ~ contradicts (on_stream i h) final true /\
       (s_max (nth i (initial_maxes h) 0) (on_stream i h) < final \/
        conn_max D h < conn_used h + (N.max final (s_high (on_stream i h)) - s_high (on_stream i h)))).
Proof.
  intros R Hc Hi Ho Ha Hl Hrel. destruct (live_stream _ _ _ _ _ R Hi Ho) as (s & Es & S & G & B & Hm & K).
  destruct (reset_step _ _ _ err final rel S G B Hl) as (sess' & s' & out & E & _ & _ & _ & _ & F & _).
  destruct (K _ _ _ _ Hc E) as [c' Ec]. exists c', out. split; [assumption|]. apply reached_inv in R as C.
  destruct (F Hrel (wait_acked _ _ S Ha)) as [F1 F2]. cbn [ghost g_fi g_hi] in F1, F2. rewrite Hm, (ci_max _ _ _ C), (ci_con _ _ _ C), <- (used_scons _ _ _ C) in F2.
  unfold contradicts. split; [exact F1|]. rewrite F2. rewrite F1. reflexivity.
Qed.

Lemma not_stop_finals g s : shape g s -> ginv g s -> g_stop g = false -> forall F, In F (g_fi g) -> F = g_hi g.
Proof.
  intros S G H F HF. pose proof (gi_hi _ _ G) as Hh. unfold shape in S. rewrite Hh in S.
  assert (X : known g (g_hi g) -> F = g_hi g) by (intros [_ K]; rewrite Forall_forall in K; auto).
  destruct (rs_st s); try (destruct S; fail); try (apply X; tauto).
  - destruct S as (_ & _ & _ & _ & _ & S). rewrite S in HF. destruct HF.
  - destruct S as (_ & S & _). congruence.
  - destruct S as (_ & S & _). congruence.
Qed.
Lemma bytes_snoc_read h n l fin ev : over h = false -> s_bytes (h ++ [(QRead n, QBytes l fin ev)]) = s_bytes h ++ l.
Proof. intros H. rewrite bytes_snoc by assumption. reflexivity. Qed.
Lemma read_lemma D ops c h i n : reached D ops c h -> c_closed c = false -> (i < n_streams h)%nat -> over (on_stream i h) = false ->
  exists c' out, cstep c (COn i (QRead n)) = Some (c', CStream out) /\
    let hi := on_stream i h in
    ((out = QErr ENoMoreData /\ had is_stop hi = true) \/ exists l fin ev, out = QBytes l fin ev /\ lenN l <= n /\
       (fin = true -> ev = [EvComplete] /\ s_finals hi <> [] /\ Forall (fun F => F = lenN (s_bytes hi ++ l)) (s_finals hi)) /\
       (fin = false -> ev = [] \/ exists x r, ev = [EvReset x] /\ In r (s_rels hi) /\ r <= lenN (s_bytes hi ++ l)) /\
       (lenN l < n -> arrived (s_frames hi) (lenN (s_bytes hi ++ l)) -> exists r, In r (s_rels hi) /\ r <= lenN (s_bytes hi ++ l)) /\
       (forall F, had is_reset hi = false -> In F (s_finals hi) -> (forall x, x < F -> arrived (s_frames hi) x) -> F <= lenN (s_bytes hi) + n -> fin = true)).
Proof.
  intros R Hc Hi Ho. destruct (live_stream _ _ _ _ _ R Hi Ho) as (s & Es & S & G & B & Hm & K).
  destruct (read_step _ _ _ n S G B) as (sess' & s' & out & E & _ & _ & _ & _ & F).
  destruct (K _ _ _ _ Hc E) as [c' Ec]. exists c', out. split; [assumption|]. cbn zeta. cbn [ghost g_fi g_hi g_by g_fr g_rel g_stop g_reset] in F.
  destruct F as [F|(l & fin & ev & -> & F0 & F1 & F2 & F3 & F4 & F5)]; [left; exact F|right]. exists l, fin, ev. splits; auto.
  - intros X. destruct (F2 X) as (Y1 & Y2 & Y3). splits; auto; [apply Y2|]. rewrite Y3. apply Y2.
  - intros F Hr HF Hall Hn. apply F5; auto.
    + intros X. rewrite X in HF. destruct HF.
    + change (s_high (on_stream i h)) with (g_hi (ghost (on_stream i h))). rewrite <- (not_stop_finals _ _ S G F0 _ HF). assumption.
    + change (s_high (on_stream i h)) with (g_hi (ghost (on_stream i h))). rewrite <- (not_stop_finals _ _ S G F0 _ HF). assumption.
Qed.

Lemma app_over h o out : over h = false -> over (h ++ [(o, out)]) = ends out.
Proof. intros H. rewrite over_app, H. reflexivity. Qed.

(** Results of other operations report a reset only after the reliable part was read, unless the application stopped the stream. *)
Lemma reset_reported_lemma D ops c h i o c' ev b x : reached D ops c h -> (i < n_streams h)%nat -> over (on_stream i h) = false -> op_ok (COn i o) -> may_raise c (COn i o) ->
  cstep c (COn i o) = Some (c', CStream (QDone ev b)) -> In (EvReset x) ev ->
  (exists e, o = QStop e) \/ had is_stop (on_stream i h) = true \/ exists r, In r (s_rels (on_stream i h) ++ rel_of (o, QDone ev b)) /\ r <= lenN (s_bytes (on_stream i h)).
Proof.
  intros R Hi Ho Hok Hr H Hin. destruct (live_stream _ _ _ _ _ R Hi Ho) as (s & Es & S & G & B & Hm & K). unfold cstep in H. destruct (c_closed c); [discriminate|]. rewrite Es in H.
  destruct (rs_step (c_sess c) s o) as [[[sess' s'] out]|] eqn:E; [|discriminate]. injection H as <- ->.
  destruct o; cbn [op_ok] in Hok; cbn [rs_step] in E.
  - exfalso. destruct (frame_step _ _ _ fin off d S G B Hok) as (a & b' & out & E' & _ & _ & _ & En & _). cbn [rs_step] in E'. rewrite E in E'. injection E' as _ _ <-.
    cbn [ends] in En. apply orb_false_elim in En as [_ En]. assert (existsb ev_end ev = true); [|congruence]. apply existsb_exists. eauto.
  - destruct (reset_step _ _ _ err final reliable S G B Hok) as (a & b' & out & E' & _ & _ & _ & _ & _ & [(er & ->)|(ev' & bb & -> & F)]); cbn [rs_step] in E'; rewrite E in E'; [discriminate|].
    injection E' as <- <- <- <-. right. destruct F as [(-> & _)|(y & -> & -> & F)]; [destruct Hin|]. exact F.
  - destruct (rs_read n (c_sess c) s) as [[[[[[? ?] ?] ?] ?]|?]|]; discriminate.
  - left. eauto.
  - destruct (rs_stop_acked s) as [? ?]. injection E as <- <- <- <-. destruct Hin.
  - discriminate.
  - destruct (rs_st s); try discriminate; [destruct (rfc_write RStream now rtt fits (rs_fc s)) as [[? [?|]]|]; discriminate|]. destruct needed; [destruct fits|]; discriminate.
  - destruct (rs_st s); try discriminate. destruct (rfc_flowc_update _); discriminate.
  - destruct (rs_st s); discriminate.
  - destruct (rs_st s); discriminate.
Qed.

Lemma over_live_same h : over h = false -> live h = h.
Proof. induction h as [|e h IH]; [reflexivity|]. cbn. destruct (ends (snd e)); [discriminate|]. intros H. rewrite IH by assumption. reflexivity. Qed.

Lemma stream_prefix_lemma D ops c h i g : reached D ops c h -> (i < n_streams h)%nat -> pieces_of g (s_frames (on_stream i h)) ->
  s_bytes (on_stream i h) = stream_slice g 0 (length (s_bytes (on_stream i h))).
Proof.
  intros R Hi P. apply reached_inv in R. destruct (nth_error (c_streams c) i) as [s|] eqn:Es; [|apply nth_error_None in Es; rewrite (ci_len _ _ _ R) in Es; lia].
  destruct (ci_str _ _ _ R _ _ Es) as [(G & _ & _) _]. pose proof (gi_del _ _ G) as Dl. cbn [ghost g_by g_fr] in Dl. set (l := s_bytes (on_stream i h)) in *.
  apply nth_error_ext. intros n. rewrite nth_slice. destruct (Nat.ltb_spec n (length l)) as [L|L]; [|apply nth_error_None; assumption].
  destruct (nth_error l n) as [y|] eqn:E; [|apply nth_error_None in E; lia]. destruct (Dl (N.of_nat n) y) as (f & F1 & F2).
  { unfold carries. cbn [fst snd]. destruct (N.leb_spec 0 (N.of_nat n)); [|lia]. rewrite N.sub_0_r, Nat2N.id. assumption. }
  f_equal. rewrite N.add_0_l. apply (P _ _ _ F1 F2).
Qed.

Lemma no_panic_rs D ops c h o : reached D ops c h -> op_ok o -> window_op o = false -> exists c' out, cstep c o = Some (c', out).
Proof.
  intros R Ho Hw. apply reached_inv in R as C. unfold cstep. destruct (c_closed c); [eauto|]. destruct o as [m|i o| | |]; try discriminate; eauto.
  destruct (nth_error (c_streams c) i) as [s|] eqn:Es; [|eauto]. destruct (ci_str _ _ _ C _ _ Es) as [(G & Hm & S) I]. pose proof (cinv_both _ _ _ _ _ C Es) as B.
  assert (exists sess' s' out, rs_step (c_sess c) s o = Some (sess', s', out)) as (sess' & s' & out & ->); [|eauto].
  destruct (over (on_stream i h)).
  - destruct (over_step s (c_sess c) o (proj1 S)) as (out & E & _); [destruct o; auto; cbn in Ho; unfold MAX_VARINT in Ho; lia|]. eauto.
  - destruct o; try discriminate.
    + destruct (frame_step _ _ _ fin off d S G B Ho) as (a & b & out & E & _). eauto.
    + destruct (reset_step _ _ _ err final reliable S G B Ho) as (a & b & out & E & _). eauto.
    + destruct (read_step _ _ _ n S G B) as (a & b & out & E & _). eauto.
    + destruct (stop_step _ _ _ err S G B) as (a & b & ev & bb & E & _). eauto.
    + destruct (acked_step _ _ _ S G B) as (a & b & E & _). eauto.
    + cbn. eauto.
    + cbn. destruct (rs_st s); eauto.
    + cbn. destruct (rs_st s); eauto.
Qed.

Lemma credit_lemma D ops c h : reached D ops c h -> rf_retired (c_sess c) <= conn_used h /\ conn_used h <= rf_retired (c_sess c) + owed h.
Proof.
  intros R. apply reached_inv in R as C. rewrite (used_scons _ _ _ C), (ci_ret _ _ _ C). unfold owed, total. rewrite <- (ci_len _ _ _ C).
  assert (G : forall l k, (forall i s, nth_error l i = Some s -> rf_retired (rs_fc s) <= rf_consumed (rs_fc s) /\ rf_consumed (rs_fc s) <= rf_retired (rs_fc s) + (if over (on_stream (k + i) h) then 0 else s_high (on_stream (k + i) h) - lenN (s_bytes (on_stream (k + i) h)))) ->
     sret l <= scons l /\ scons l <= sret l + fold_right N.add 0 (map (fun i => if over (on_stream i h) then 0 else s_high (on_stream i h) - lenN (s_bytes (on_stream i h))) (seq k (length l)))).
  { induction l as [|a l IH]; intros k Hl; [cbn; lia|]. cbn [length seq map fold_right]. pose proof (Hl O a eq_refl) as H0. rewrite Nat.add_0_r in H0.
    assert (IH' := IH (S k) ltac:(intros i s Hi; replace (S k + i)%nat with (k + S i)%nat by lia; apply (Hl (S i) s Hi))).
    unfold sret, scons, sumN in *. cbn [map fold_right]. lia. }
  apply (G _ O). intros i s Hi. cbn [Nat.add]. destruct (ci_str _ _ _ C _ _ Hi) as [(Gi & _ & S) I]. pose proof (gi_hi _ _ Gi) as Hh. cbn [ghost g_hi] in Hh. split; [apply I|].
  destruct (over (on_stream i h)); [destruct S; lia|]. unfold shape in S. cbn [ghost g_by g_fr] in S.
  destruct (rs_st s); try (destruct S; fail).
  - destruct S as (S1 & S2 & _). rewrite S1, (b_len _ _ _ _ S2). lia.
  - destruct S as (S1 & S2 & _). rewrite S1, (b_len _ _ _ _ S2). lia.
  - destruct S as (S1 & S2 & S3 & S4 & S5 & _). rewrite (b_len _ _ _ _ S5) in *. rewrite S4. lia.
  - destruct S as (S1 & S2 & _). rewrite S1, (b_len _ _ _ _ S2). lia.
  - destruct S. lia.
  - destruct S. lia.
Qed.

Lemma max_data_lemma D ops c h now rtt fits c' v : reached D ops c h -> cstep c (CWrite now rtt fits) = Some (c', CMaxData v) ->
  N.min (conn_used h + rf_max_active (c_sess c)) MAX_VARINT <= v + owed h.
Proof.
  intros R H. destruct (credit_lemma _ _ _ _ R) as [_ L]. unfold cstep in H. destruct (c_closed c); [discriminate|].
  destruct (rfc_write RConn now rtt fits (c_sess c)) as [[f [w|]]|] eqn:E; try discriminate. injection H as _ <-.
  apply rwrite_spec in E as (m & M1 & _ & _ & _ & _ & _ & _ & -> & _ & _); [|apply dC]. lia.
Qed.
Lemma stop_acked_lemma D ops c h i : reached D ops c h -> c_closed c = false -> (i < n_streams h)%nat -> over (on_stream i h) = false ->
  had is_stop (on_stream i h) = true -> had is_acked (on_stream i h) = false ->
  exists c' b, cstep c (COn i QStopAcked) = Some (c', CStream (QDone [] b)) /\ (b = true <-> s_finals (on_stream i h) <> []).
Proof.
  intros R Hc Hi Ho Hs Ha. destruct (live_stream _ _ _ _ _ R Hi Ho) as (s & Es & S & G & B & Hm & K).
  specialize (K QStopAcked). cbn [rs_step] in K. unfold rs_stop_acked in K. unfold shape in S. cbn [ghost g_stop g_fi g_acked] in S. unfold known in S. cbn [g_fi] in S.
  destruct (rs_st s) as [| |err final rel| | |rch need err| |] eqn:Est; try (exfalso; intuition congruence).
  destruct S as (_ & _ & S). destruct rch; (destruct (K _ _ _ Hc eq_refl) as [c' Ec]; eexists c', _; split; [exact Ec|]).
  - destruct S. tauto.
  - rewrite S. split; [discriminate|congruence].
Qed.
