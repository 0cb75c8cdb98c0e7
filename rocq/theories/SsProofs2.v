(** Writing, acknowledgements and losses of send streams; the invariant of every history. *)
From Verif Require Import Base Lib CodecModel FrameModel FrameSpec FrameProofs FrameProps CodecProofs FcModel RtModel RtSpec RtProofs SsModel SsSpec SsProofs.

(** Histories that agree on what matters to the state. *)
Definition rel (P : tok -> Prop) : Prop := (exists x, P = fun t => carries t x) \/ P = is_fin \/ P = is_reset.
Definition ext (h h' : hist) : Prop :=
  forall P, rel P -> (was_acked h' P <-> was_acked h P) /\ (in_flight h P -> in_flight h' P).
Lemma rel_carries x : rel (fun t => carries t x). Proof. left. eauto. Qed.
Lemma rel_fin : rel is_fin. Proof. right. left. reflexivity. Qed.
Lemma rel_reset : rel is_reset. Proof. right. right. reflexivity. Qed.
Lemma ext_quiet h e : quiet e -> ext h (h ++ [e]).
Proof. intros Q P _. split; [apply quiet_acked; exact Q|apply quiet_flight; exact Q]. Qed.

Lemma buf_ext h h' W b : ext h h' -> buf_ok h W b -> buf_ok h' W b.
Proof.
  intros X (A & B & C & D & E & F & G). unfold buf_ok. splits; auto.
  - intros x. destruct (X _ (rel_carries x)) as [-> _]. apply F.
  - intros x Hx. apply (X _ (rel_carries x)). apply G. exact Hx.
Qed.
Lemma st_ext L h h' W m st : ext h h' -> st_ok L h W m st -> st_ok L h' W m st.
Proof.
  intros X. assert (B := fun b => buf_ext h h' W b X).
  assert (U : forall n, acked_upto h n -> acked_upto h' n). { intros n H x Hx. apply (X _ (rel_carries x)). apply H. exact Hx. }
  destruct (X _ rel_fin) as [AF FF]. destruct (X _ rel_reset) as [AR FR].
  destruct st; cbn [st_ok]; intros H.
  - exact H.
  - destruct H as (H1 & H2 & H3 & H4 & H5). splits; auto.
  - destruct H as (H1 & H2 & H3 & H4 & H5 & H6 & H7). rewrite AF. splits; auto. intros Y. destruct (H6 Y); auto.
  - destruct H as (H1 & H2 & H3 & H4 & H5 & H6). rewrite AF. splits; auto.
  - destruct H as (c & H1 & H2 & H3 & H4 & H5 & H6 & H7 & H8 & H9 & H10). exists c. rewrite AR. splits; auto.
    destruct H6 as [[? ?]|?]; auto.
  - destruct H as (H1 & H2 & H3 & H4 & H5 & H6 & H7 & H8 & H9). rewrite AR. splits; auto; tauto.
  - destruct H as (e0 & c & H1 & H2 & H3 & H4 & H5 & H6). exists e0, c. rewrite AR. splits; auto. destruct H6; auto.
Qed.

(** ** Writing: each frame as if it were written alone *)
Definition wh (p : prio) (rem sp : N) (h : hist) (f : list (list N * tok)) : hist := h ++ [(OWrite p rem sp, RFrames f true, [])].
Lemma wh_quiet p rem sp f more : quiet (OWrite p rem sp, RFrames f more, []). Proof. qu. Qed.
Lemma wh_merge p rem sp h f g more : ext (wh p rem sp (wh p rem sp h f) g) (h ++ [(OWrite p rem sp, RFrames (f ++ g) more, [])]).
Proof.
  intros P _. unfold wh. rewrite !(quiet_acked _ _ _ (wh_quiet p rem sp _ _)). split; [tauto|].
  intros (a & e & b & E & S & NL).
  assert (C : b = [] /\ e = (OWrite p rem sp, RFrames g true, []) \/ (exists b', b = b' ++ [(OWrite p rem sp, RFrames g true, [])])).
  { destruct b as [|x b] using rev_ind; [left|right].
    - apply app_inj_tail in E as [_ <-]. auto.
    - rewrite app_comm_cons, app_assoc in E. apply app_inj_tail in E as [_ <-]. eauto. }
  destruct C as [[-> ->]|[b' ->]].
  { apply in_flight_new. destruct S as (f0 & S & HP). exists f0. split; [|exact HP]. cbn [frames1] in *. apply in_or_app. auto. }
  rewrite app_comm_cons, app_assoc in E. apply app_inj_tail in E as [E _].
  assert (C : b' = [] /\ e = (OWrite p rem sp, RFrames f true, []) /\ a = h \/ (exists b2, b' = b2 ++ [(OWrite p rem sp, RFrames f true, [])] /\ h = a ++ e :: b2)).
  { destruct b' as [|x b2] using rev_ind; [left|right].
    - apply app_inj_tail in E as [-> <-]. auto.
    - rewrite app_comm_cons, app_assoc in E. apply app_inj_tail in E as [E <-]. exists b2. auto. }
  destruct C as [(-> & -> & ->)|(b2 & -> & ->)].
  { apply in_flight_new. destruct S as (f0 & S & HP). exists f0. split; [|exact HP]. cbn [frames1] in *. apply in_or_app. auto. }
  apply quiet_flight; [apply wh_quiet|]. exists a, e, b2. splits; auto. intros e' He. apply NL. rewrite <- app_assoc. apply in_or_app. auto.
Qed.
Lemma wh_nil p rem sp h f more : ext (wh p rem sp h f) (h ++ [(OWrite p rem sp, RFrames f more, [])]).
Proof.
  intros P _. unfold wh. rewrite !(quiet_acked _ _ _ (wh_quiet p rem sp _ _)). split; [tauto|].
  intros (a & e & b & E & S & NL). destruct b as [|x b] using rev_ind.
  - apply app_inj_tail in E as [-> <-]. apply in_flight_new. exact S.
  - rewrite app_comm_cons, app_assoc in E. apply app_inj_tail in E as [-> <-].
    apply quiet_flight; [apply wh_quiet|]. exists a, e, b. splits; auto. intros e' He. apply NL. apply in_or_app. auto.
Qed.
Lemma wh_ext p rem sp h f : ext h (wh p rem sp h f).
Proof. apply ext_quiet, wh_quiet. Qed.

Definition pending (p : prio) (s : ss) : Prop :=
  match ss_st s with StResetSent _ _ _ pr _ _ | StResetRel _ _ _ _ pr _ => oprio_eqb pr p = true | _ => False end.
Definition blocked_pending (p : prio) (s : ss) : Prop := prio_eqb p (ss_pri s) = true /\ ss_fc_blocked s = true.
Definition stuff (W : list N) (p : prio) (s : ss) : Prop := exists re, ss_is_retx p s = Some re /\ has_stuff W re s.

Definition ores (w : option (list N)) : list (list N * tok) := match w with Some l => [(l, TkReset)] | None => [] end.
Definition olen (w : option (list N)) : N := match w with Some l => lenN l | None => 0 end.

Lemma reset_frame rem id e f r : id < 2 ^ 62 -> e < 2 ^ 62 -> f < 2 ^ 62 -> r <= f ->
  exists l, frame_wire (if r =? 0 then FResetStream id e f else FResetStreamAt id e f r) = Some l /\ lenN l <= 40 /\
    wr_reset_stream rem id e f r = Some (if lenN l <=? rem then Some l else None).
Proof.
  intros Hi He Hf Hr.
  assert (OK : frame_ok (wreq_frame (WReset id e f r))).
  { cbn [wreq_frame]. destruct (r =? 0); cbn [frame_ok]; unfold V62; splits; auto. }
  destruct (control_frames_written_iff_fit rem _ OK) as (l & Hl & Hw & _). exists l. cbn [wreq_frame run_wreq] in *. splits; auto.
  destruct (r =? 0); unfold frame_wire in Hl; cbn [frame_fields] in Hl; eapply N.le_trans; try (eapply vi_len; [|exact Hl|reflexivity]);
    try (intros v Hv; cbn in Hv; decompose [or] Hv; subst; eauto; tauto); vm_compute; discriminate.
Qed.
Lemma blocked_frame rem id v : id < 2 ^ 62 -> v < 2 ^ 62 ->
  exists l, frame_wire (FStreamDataBlocked id v) = Some l /\ lenN l <= 24 /\
    wr_stream_data_blocked rem id v = Some (if lenN l <=? rem then Some l else None).
Proof.
  intros Hi Hv.
  destruct (control_frames_written_iff_fit rem (WStreamDataBlocked id v) (conj Hi Hv)) as (l & Hl & Hw & _). exists l. cbn [wreq_frame run_wreq] in *. splits; auto.
  unfold frame_wire in Hl; cbn [frame_fields] in Hl; eapply vi_len; [|exact Hl|reflexivity].
  intros u Hu. cbn in Hu; decompose [or] Hu; subst; eauto; tauto.
Qed.

Section Write.
Variables (p : prio) (rem0 sp : N).
Notation wh' := (wh p rem0 sp).

Lemma write_reset_spec L h W m s rem : st_ok L h W m (ss_st s) -> ss_id s < 2 ^ 62 -> lenN W < 2 ^ 62 ->
  exists s1 w done, ss_write_reset p rem s = Some (s1, w, done) /\ same_but_state s s1 /\ ss_bytes s1 = ss_bytes s /\
    st_ok L (wh' h (ores w)) W m (ss_st s1) /\ Forall (frame_good (ss_id s) L W m) (ores w) /\ olen w <= rem /\
    (w <> None -> pending p s) /\ (40 <= rem -> pending p s -> w <> None) /\ (w = None -> s1 = s /\ done = false) /\
    (done = true -> w <> None) /\ (done = false -> forall e f r pr fr fw, ss_st s = StResetSent e f r pr fr fw -> w = None).
Proof.
  intros H Hi HW. unfold ss_write_reset, pending.
  assert (Same : st_ok L (wh' h (ores None)) W m (ss_st s)) by (eapply st_ext; [apply wh_ext|exact H]).
  assert (Nope : forall X : Prop, (40 <= rem -> ~ X) -> exists s1 w done, Some (s, @None (list N), false) = Some (s1, w, done) /\ same_but_state s s1 /\ ss_bytes s1 = ss_bytes s /\
    st_ok L (wh' h (ores w)) W m (ss_st s1) /\ Forall (frame_good (ss_id s) L W m) (ores w) /\ olen w <= rem /\
    (w <> None -> X) /\ (40 <= rem -> X -> w <> None) /\ (w = None -> s1 = s /\ done = false) /\
    (done = true -> w <> None) /\ (done = false -> forall e f r pr fr fw, ss_st s = StResetSent e f r pr fr fw -> w = None)).
  { intros X HX. exists s, None, false. cbn [olen ores]. splits; auto using same_refl; try apply N.le_0_l; try congruence. intros A B. destruct (HX A B). }
  destruct (ss_st s) eqn:Es; try (apply Nope; tauto).
  - cbn [st_ok] in H. destruct H as (c & H1 & H2 & H3 & H4 & H5 & H6 & H7 & H8 & H9 & H10). subst final.
    destruct (oprio_eqb pr p) eqn:Ep.
    2:{ apply Nope. congruence. }
    destruct (reset_frame rem (ss_id s) err (lenN W) reliable) as (l & F1 & F2 & F3); auto.
    { destruct H6 as [[-> _]|[-> _]]; [assumption|apply N.le_0_l]. }
    rewrite F3. destruct (lenN l <=? rem) eqn:El.
    + eexists _, _, _. splits; [reflexivity|sst Es|reflexivity| | | | | | | |]; cbn [olen ores]; try congruence; try lia.
      * cbn [with_st ss_st st_ok]. exists c. assert (X := wh_ext p rem0 sp h [(l, TkReset)]).
        destruct (X _ rel_reset) as [AR _].
        assert (U : forall n, acked_upto h n -> acked_upto (wh' h [(l, TkReset)]) n). { intros n Y x Hx. apply (X _ (rel_carries x)). apply Y. exact Hx. }
        rewrite AR. splits; auto; [destruct H6 as [[? ?]|?]; auto|]. intros _. apply in_flight_new. exists (l, TkReset). split; [left; reflexivity|reflexivity].
      * constructor; [|constructor]. unfold frame_good. cbn [snd fst]. exists err, c, reliable. splits; auto. destruct H6 as [[-> _]|[-> ?]]; auto.
    + apply Nope. lia.
  - cbn [st_ok] in H. destruct H as (H1 & H2 & H3 & H4 & H5 & H6 & H7 & H8 & H9). subst final.
    destruct (oprio_eqb pr p) eqn:Ep.
    2:{ apply Nope. congruence. }
    destruct (reset_frame rem (ss_id s) err (lenN W) reliable) as (l & F1 & F2 & F3); auto.
    rewrite F3. destruct (lenN l <=? rem) eqn:El.
    + eexists _, _, _. splits; [reflexivity|sst Es|reflexivity| | | | | | | |]; cbn [olen ores]; try congruence; try lia.
      * cbn [with_st ss_st st_ok]. assert (X := wh_ext p rem0 sp h [(l, TkReset)]).
        destruct (X _ rel_reset) as [AR _]. rewrite AR. splits; auto; try apply H8; [eapply buf_ext; eauto|]. intros _. apply in_flight_new. exists (l, TkReset). split; [left; reflexivity|reflexivity].
      * constructor; [|constructor]. unfold frame_good. cbn [snd fst]. exists err, reliable, reliable. splits; auto.
    + apply Nope. lia.
Qed.

Definition obl (w : option (list N * N)) : list (list N * tok) := match w with Some (l, lim) => [(l, TkBlocked lim)] | None => [] end.
Definition oblen (w : option (list N * N)) : N := match w with Some (l, _) => lenN l | None => 0 end.
Lemma needed_le L W fc lim : fc_ok L W fc -> sfc_blocked_needed fc = Some lim -> lim <= L.
Proof. intros (A & B & C). unfold sfc_blocked_needed. destruct (sf_blocked_at fc) as [b|]; [|discriminate]. destruct (_ && _); intros X; inv X. exact C. Qed.
Lemma fc_sent_ok L W fc : fc_ok L W fc -> fc_ok L W (sfc_sent fc).
Proof. intros (A & B & C). unfold fc_ok, sfc_sent. cbn. auto. Qed.

Lemma write_blocked_spec L h W m s rem : st_ok L h W m (ss_st s) -> ss_id s < 2 ^ 62 -> L < 2 ^ 62 ->
  exists s1 w, ss_write_blocked p rem s = Some (s1, w) /\ same_but_state s s1 /\ ss_bytes s1 = ss_bytes s /\
    st_ok L h W m (ss_st s1) /\ Forall (frame_good (ss_id s) L W m) (obl w) /\ oblen w <= rem /\
    (w <> None -> blocked_pending p s) /\ (24 <= rem -> blocked_pending p s -> w <> None) /\ (w = None -> s1 = s).
Proof.
  intros H Hi HL. unfold ss_write_blocked, blocked_pending, ss_fc_blocked.
  destruct (prio_eqb p (ss_pri s)) eqn:Ep.
  2:{ exists s, None. cbn [oblen obl]. splits; auto using same_refl; try apply N.le_0_l; try congruence. intros _ [? _]. congruence. }
  assert (None' : forall X : Prop, ~ X -> exists s1 w, Some (s, @None (list N * N)) = Some (s1, w) /\ same_but_state s s1 /\ ss_bytes s1 = ss_bytes s /\
    st_ok L h W m (ss_st s1) /\ Forall (frame_good (ss_id s) L W m) (obl w) /\ oblen w <= rem /\
    (w <> None -> true = true /\ X) /\ (24 <= rem -> true = true /\ X -> w <> None) /\ (w = None -> s1 = s)).
  { intros X HX. exists s, None. cbn [oblen obl]. splits; auto using same_refl; try apply N.le_0_l; try congruence. tauto. }
  destruct (ss_st s) eqn:Es; try (apply None'; discriminate).
  - cbn [st_ok] in H. destruct H as (A & B & C & D). destruct (sfc_blocked_needed fc) as [lim|] eqn:En; [|apply None'; discriminate].
    pose proof (needed_le _ _ _ _ D En) as Hlim.
    destruct (blocked_frame rem (ss_id s) lim) as (l & F1 & F2 & F3); [auto|lia|]. rewrite F3.
    destruct (lenN l <=? rem) eqn:El.
    + eexists _, _. splits; [reflexivity|sst Es|reflexivity|cbn [with_st ss_st st_ok]; splits; auto using fc_sent_ok| |cbn; lia| | |]; try congruence; auto.
      constructor; [|constructor]. unfold frame_good. cbn. auto.
    + eexists _, None. cbn [oblen obl]. splits; [reflexivity|apply same_refl|reflexivity|rewrite Es; cbn [st_ok]; auto|constructor|apply N.le_0_l|congruence|lia|auto].
  - cbn [st_ok] in H. destruct H as (A & B & D & C). destruct (sfc_blocked_needed fc) as [lim|] eqn:En; [|apply None'; discriminate].
    pose proof (needed_le _ _ _ _ D En) as Hlim.
    destruct (blocked_frame rem (ss_id s) lim) as (l & F1 & F2 & F3); [auto|lia|]. rewrite F3.
    destruct (lenN l <=? rem) eqn:El.
    + eexists _, _. splits; [reflexivity|sst Es|reflexivity|cbn [with_st ss_st st_ok]; splits; auto using fc_sent_ok; apply C| |cbn; lia| | |]; try congruence; auto.
      constructor; [|constructor]. unfold frame_good. cbn. auto.
    + eexists _, None. cbn [oblen obl]. splits; [reflexivity|apply same_refl|reflexivity|rewrite Es; cbn [st_ok]; auto|constructor|apply N.le_0_l|congruence|lia|auto].
Qed.

Definition ost (w : option (list N * tok * bool)) : list (list N * tok) := match w with Some (l, t, _) => [(l, t)] | None => [] end.
Definition ostlen (w : option (list N * tok * bool)) : N := match w with Some (l, _, _) => lenN l | None => 0 end.
(** After a reset, nothing beyond the reliable part is sent, and no FIN. *)
Definition in_reliable (m : summary) (t : tok) : Prop :=
  forall e c, m_phase m = PhReset e c -> match t with TkStream off len fin => off + len <= c /\ fin = false | _ => True end.

Lemma write_stream_spec L h W m s rem : st_ok L h W m (ss_st s) -> ss_id s < 2 ^ 62 -> lenN W < 2 ^ 62 ->
  exists s1 w, ss_write_stream p rem sp s = Some (s1, w) /\ same_but_state s s1 /\ ss_bytes s1 = N.max (ss_bytes s) (highest (map snd (ost w))) /\
    st_ok L (wh' h (ost w)) W m (ss_st s1) /\ Forall (frame_good (ss_id s) L W m) (ost w) /\ ostlen w <= rem /\
    (w <> None -> stuff W p s) /\ (18 <= rem -> stuff W p s -> w <> None) /\ Forall (fun f => in_reliable m (snd f)) (ost w).
Proof.
  intros H Hi HW. unfold ss_write_stream, stuff.
  destruct (ss_is_retx p s) as [re|] eqn:Er.
  2:{ exists s, None. cbn [ost ostlen map highest fold_right]. splits; auto using same_refl; try lia; try congruence. - eapply st_ext; [apply wh_ext|exact H].
    - intros _ (re & X & _). discriminate. }
  destruct (next_spec _ _ _ _ re sp _ H) as (s1 & x & -> & N1 & N2 & N3 & N4 & N5 & N6).
  destruct x as [[o d]|].
  2:{ exists s1, None. cbn [ost ostlen map highest fold_right]. splits; auto; try lia; try congruence. - eapply st_ext; [apply wh_ext|exact N4].
    - intros _ (re' & X & Y). inv X. tauto. }
  destruct N5 as [HS (len & -> & Ho & Hoff)].
  assert (Hsl : lenN (slice o len W) = len) by (apply lenN_slice; exact Ho).
  set (fo := match ss_st s with StDataSent b _ _ _ => Some (tb_used b) | _ => None end).
  assert (Hfo : match ss_st s with StDataSent _ _ _ _ => fo = Some (lenN W) /\ m_phase m = PhClosed | _ => fo = None end).
  { subst fo. destruct (ss_st s); auto. cbn [st_ok] in H. destruct H as (H1 & _ & H2 & _). rewrite (buf_used _ _ _ H2). auto. }
  clearbody fo.
  destruct (stream_frame_fits rem (ss_id s) o (slice o len W) fo Hi) as (r & Hr & Hfit); [lia|]. rewrite Hr.
  destruct r as [[[[l n] fin] fill]|].
  2:{ exists s1, None. cbn [ost ostlen map highest fold_right]. splits; auto; try lia; try congruence. - eapply st_ext; [apply wh_ext|exact N4].
    - intros H18 _ _. eapply (wr_stream_writes rem (ss_id s) o (slice o len W) fo _ Hi); [| |  |exact Hr|reflexivity]; try lia.
      rewrite Hsl. destruct (ss_st s); try tauto; try (left; apply Hoff).
      destruct Hoff as [[Y|(Y1 & Y2 & Y3)] _]; [left; exact Y|right]. destruct Hfo as [-> _]. congruence. }
  destruct (Hfit l n fin fill eq_refl) as (F1 & F2 & F3 & F4 & F5). rewrite Hsl in F3.
  rewrite firstnN_slice in F1. replace (N.min n len) with n in F1 by lia.
  set (h1 := wh' h [(l, TkStream o n fin)]).
  assert (NH : st_ok L h1 W m (ss_st s1)) by (eapply st_ext; [apply wh_ext|exact N4]).
  destruct (mark_sent_st L h1 W m s1 o n fin NH) as (s2 & M1 & M2 & M3 & M4).
  { lia. }
  { destruct (ss_st s), (ss_st s1); try tauto; try congruence. }
  { intros y Hy. apply in_flight_new. exists (l, TkStream o n fin). split; [left; reflexivity|exact Hy]. }
  { intros Hy. apply in_flight_new. exists (l, TkStream o n fin). split; [left; reflexivity|exact Hy]. }
  rewrite M1. eexists _, _. splits; [reflexivity|eapply same_trans; eauto| |exact M4| |exact F2| | |]; cbn [ost map snd highest fold_right].
  - rewrite M3, N2. lia.
  - constructor; [|constructor]. unfold frame_good. cbn [snd fst]. splits; [lia|exact F4| |eauto].
    intros Hf. apply F5 in Hf. destruct (ss_st s); try congruence. destruct Hfo as [Hfo HP]. rewrite Hfo in Hf. split; [congruence|]. rewrite HP. discriminate.
  - intros _. exists re. auto.
  - congruence.
  - constructor; [|constructor]. intros e c HP. cbn [snd].
    destruct (ss_st s) eqn:Es; cbn [st_ok] in H; try tauto.
    + destruct H as (H & _). congruence.
    + destruct H as (H & _). congruence.
    + destruct H as (H & _). assert (c = reliable) by congruence. subst c. split; [lia|]. destruct fin; [|reflexivity]. destruct F5 as [F5 _]. rewrite Hfo in F5. discriminate (F5 eq_refl).
Qed.
End Write.

Lemma highest_app a b : highest (a ++ b) = N.max (highest a) (highest b).
Proof. induction a as [|t a IH]; cbn [app highest fold_right]; [fold (highest b); lia|]. fold (highest (a ++ b)) (highest a). destruct t; rewrite IH; lia. Qed.
Lemma total_app a b : total (a ++ b) = total a + total b.
Proof. induction a as [|f a IH]; cbn [app total fold_right]; [fold (total b); lia|]. fold (total (a ++ b)) (total a). lia. Qed.

Lemma has_at_spec L h W m p s : st_ok L h W m (ss_st s) -> let '(s', x) := ss_has_data_at p s in
  same_but_state s s' /\ ss_bytes s' = ss_bytes s /\ st_ok L h W m (ss_st s') /\
  (x = true <-> pending p s \/ blocked_pending p s \/ stuff W p s).
Proof.
  intros H. unfold ss_has_data_at.
  assert (ISt : forall e f r pr fr fw, ss_st s = StResetSent e f r pr fr fw -> ~ blocked_pending p s /\ ~ stuff W p s).
  { intros. unfold blocked_pending, ss_fc_blocked, stuff, has_stuff. rewrite H0. split; [intros [_ ?]; discriminate|intros (re & _ & [])]. }
  assert (Core : ~ pending p s -> let '(s', x) := (if prio_eqb p (ss_pri s) && ss_fc_blocked s then (s, true)
      else match ss_is_retx p s with Some re => ss_has_next re s | None => (s, false) end) in
    same_but_state s s' /\ ss_bytes s' = ss_bytes s /\ st_ok L h W m (ss_st s') /\
    (x = true <-> pending p s \/ blocked_pending p s \/ stuff W p s)).
  { intros NP. destruct (prio_eqb p (ss_pri s) && ss_fc_blocked s) eqn:E1.
    - splits; auto using same_refl. split; auto. intros _. right. left. unfold blocked_pending. apply andb_true_iff in E1. exact E1.
    - assert (NB : ~ blocked_pending p s). { unfold blocked_pending. intros [X Y]. rewrite X, Y in E1. discriminate. }
      unfold stuff. destruct (ss_is_retx p s) as [re|].
      + pose proof (has_next_spec _ _ _ _ re _ H) as X. destruct (ss_has_next re s) as [s' x]. destruct X as (X1 & X2 & X3 & X4).
        splits; auto. rewrite X4. split.
        * intros Y. right. right. exists re. auto.
        * intros [Y|[Y|(re' & Y & Z)]]; try tauto. inv Y. exact Z.
      + splits; auto using same_refl. split; [discriminate|]. intros [Y|[Y|(re' & Y & Z)]]; try tauto. discriminate. }
  destruct (ss_st s) eqn:Es; try (apply Core; unfold pending; rewrite Es; tauto).
  - rewrite Es. splits; auto using same_refl. destruct (ISt _ _ _ _ _ _ eq_refl). unfold pending. rewrite Es. tauto.
  - destruct (oprio_eqb pr p) eqn:Ep.
    + rewrite Es. splits; auto using same_refl. unfold pending. rewrite Es. tauto.
    + apply Core. unfold pending. rewrite Es, Ep. discriminate.
Qed.

Lemma has_spec init s toks h p : inv init s toks h -> let '(s', x) := ss_has_data_at p s in
  inv init s' toks (h ++ [(OHas p, RHas x, [])]) /\ (x = true <-> pending p s \/ blocked_pending p s \/ stuff (written h) p s) /\ same_but_state s s'.
Proof.
  intros I. assert (I' := I). destruct I as (I1 & I2 & I3 & I4 & I5 & I6 & I7 & I8 & I9 & I10 & I11 & I12 & I13).
  pose proof (has_at_spec _ _ _ _ p _ I13) as X. destruct (ss_has_data_at p s) as [s' x]. destruct X as (SB & X2 & X3 & X4).
  splits; auto. assert (SB' := SB). destruct SB' as (S1 & S2 & S3 & S4 & S5 & S6 & _).
  eapply step_still; eauto; try reflexivity; [qu|apply sum_same; auto|lia|].
  intros _. eapply st_ext; [apply ext_quiet; qu|exact X3].
Qed.

Lemma write_spec init s toks h p rem sp : inv init s toks h ->
  exists s' fs more, ss_write p rem sp s = Some (s', fs, more) /\
    inv init s' (toks ++ map snd fs) (h ++ [(OWrite p rem sp, RFrames fs more, [])]) /\
    total fs <= rem /\ Forall (fun f => in_reliable (summ h) (snd f)) fs /\ same_but_state s s' /\
    (fs <> [] -> snd (ss_has_data_at p s) = true) /\ (40 <= rem -> snd (ss_has_data_at p s) = true -> fs <> []).
Proof.
  intros I. assert (I' := I). destruct I as (I1 & I2 & I3 & I4 & I5 & I6 & I7 & I8 & I9 & I10 & I11 & I12 & I13).
  pose proof (has_at_spec _ _ _ _ p _ I13) as HA. destruct (ss_has_data_at p s) as [sh x]. destruct HA as (_ & _ & _ & HA). cbn [snd].
  assert (HW : lenN (written h) < 2 ^ 62) by lia.
  (* the invariant after the write, from its parts *)
  assert (Fin : forall s' fs more, same_but_state s s' -> ss_bytes s' = N.max (ss_bytes s) (highest (map snd fs)) ->
    st_ok (slimit init h) (h ++ [(OWrite p rem sp, RFrames fs more, [])]) (written h) (summ h) (ss_st s') ->
    Forall (frame_good (ss_id s) (slimit init h) (written h) (summ h)) fs ->
    inv init s' (toks ++ map snd fs) (h ++ [(OWrite p rem sp, RFrames fs more, [])])).
  { intros s' fs more (S1 & S2 & S3 & S4 & S5 & S6 & _) B St G.
    assert (ES : sum1 (summ h) (OWrite p rem sp, RFrames fs more, []) = summ h) by (apply sum_same; auto).
    unfold inv. rewrite frames_snoc, written_snoc, summ_snoc, slimit_snoc, ES, S1, S4, S5. cbn [frames1 written1 slimit1]. rewrite app_nil_r.
    splits; auto.
    - rewrite map_app, I1. reflexivity.
    - apply Forall_app. auto.
    - intros P HP. rewrite (quiet_acked _ _ _ (wh_quiet _ _ _ _ _)) in HP. destruct (I10 P HP) as (t & Ht & Pt). exists t. split; [apply in_or_app; auto|exact Pt].
    - rewrite highest_app, B, I11. reflexivity.
    - intros y Hy. apply I12. eapply lost_quiet; [|exact Hy]. apply wh_quiet. }
  unfold ss_write.
  destruct (write_reset_spec p rem sp _ _ _ _ _ rem I13 I5 HW) as (s1 & w & done & -> & R1 & R2 & R3 & R4 & R5 & R6 & R7 & R8 & R9 & R10).
  fold (olen w). fold (ores w).
  assert (F1 : total (ores w) = olen w) by (destruct w; cbn; lia).
  assert (Rel1 : Forall (fun f => in_reliable (summ h) (snd f)) (ores w)) by (destruct w; cbn [ores]; repeat constructor; intros ? ? ?; exact Logic.I).
  assert (HB1 : highest (map snd (ores w)) = 0) by (destruct w; reflexivity).
  assert (Id1 : ss_id s1 < 2 ^ 62) by (destruct R1 as (-> & _); exact I5).
  destruct done.
  { eexists _, _, _. splits; [reflexivity| |lia|auto|auto| |].
    - apply Fin; [exact R1|rewrite HB1; lia|eapply st_ext; [apply wh_nil|exact R3]|exact R4].
    - intros _. apply HA. left. apply R6. apply R9. reflexivity.
    - intros _ _. destruct w; [discriminate|]. exfalso. apply R9; reflexivity. }
  destruct (write_blocked_spec p _ _ _ _ _ (rem - olen w) R3 Id1 I4) as (s2 & w2 & -> & B1 & B2 & B3 & B4 & B5 & B6 & B7 & B8).
  fold (oblen w2).
  assert (EF2 : (match w2 with Some (l, limit) => ores w ++ [(l, TkBlocked limit)] | None => ores w end) = ores w ++ obl w2).
  { destruct w2 as [[? ?]|]; [reflexivity|]. cbn [obl]. rewrite app_nil_r. reflexivity. }
  rewrite EF2.
  assert (F2 : total (ores w ++ obl w2) = olen w + oblen w2) by (rewrite total_app, F1; destruct w2 as [[? ?]|]; cbn; lia).
  assert (Rel2 : Forall (fun f => in_reliable (summ h) (snd f)) (ores w ++ obl w2)) by (apply Forall_app; split; [exact Rel1|destruct w2 as [[? ?]|]; cbn [obl]; repeat constructor; intros ? ? ?; exact Logic.I]).
  assert (HB2 : highest (map snd (ores w ++ obl w2)) = 0) by (rewrite map_app, highest_app, HB1; destruct w2 as [[? ?]|]; reflexivity).
  assert (St2 : st_ok (slimit init h) (wh p rem sp h (ores w ++ obl w2)) (written h) (summ h) (ss_st s2)).
  { eapply st_ext; [apply wh_merge|]. eapply st_ext; [apply wh_ext|exact B3]. }
  assert (E12 : ss_id s1 = ss_id s) by (apply R1). rewrite E12 in *.
  assert (G2 : Forall (frame_good (ss_id s) (slimit init h) (written h) (summ h)) (ores w ++ obl w2)) by (apply Forall_app; auto).
  assert (Id2 : ss_id s2 = ss_id s) by (destruct B1 as (-> & _); exact E12).
  assert (SB2 : same_but_state s s2) by (eapply same_trans; eauto).
  assert (Back2 : ores w ++ obl w2 <> [] -> x = true).
  { intros NE. apply HA. destruct w as [l|]; [left; apply R6; discriminate|]. destruct (R8 eq_refl) as [-> _].
    destruct w2 as [[? ?]|]; [|destruct (NE eq_refl)]. right. left. apply B6. discriminate. }
  assert (Stuff2 : ores w ++ obl w2 = [] -> s2 = s).
  { destruct w as [?|]; [discriminate|]. destruct w2 as [[? ?]|]; [discriminate|]. intros _. rewrite (B8 eq_refl). apply R8. reflexivity. }
  assert (Fwd2 : 40 <= rem -> x = true -> ores w ++ obl w2 = [] -> stuff (written h) p s).
  { intros H40 Hx E. apply HA in Hx as [Hp|[Hb|Hs]]; [| |exact Hs]; exfalso.
    - specialize (R7 H40 Hp). destruct w; [discriminate E|congruence].
    - destruct w as [?|]; [discriminate|]. destruct (R8 eq_refl) as [-> _]. cbn [olen] in *. assert (X : w2 <> None) by (apply B7; [lia|exact Hb]). destruct w2 as [[? ?]|]; [discriminate|congruence]. }
  destruct (is_full (rem - olen w - oblen w2)) eqn:Efull.
  { eexists _, _, _. splits; [reflexivity| |lia|auto|auto|auto|].
    - apply Fin; [exact SB2|rewrite HB2; lia|eapply st_ext; [apply wh_nil|exact St2]|exact G2].
    - intros H40 Hx E. destruct w as [?|]; [discriminate|]. destruct w2 as [[? ?]|]; [discriminate|]. cbn [olen oblen] in Efull. unfold is_full, MINIMUM_FRAME_SIZE in Efull. lia. }
  rewrite <- Id2 in I5.
  destruct (write_stream_spec p rem sp _ _ _ _ _ (rem - olen w - oblen w2) St2 I5 HW) as (s3 & w3 & -> & T1 & T2 & T3 & T4 & T5 & T6 & T7 & T8).
  rewrite Id2 in *.
  assert (X : exists more, (match w3 with
    | None => Some (s3, ores w ++ obl w2, negb (is_full (rem - olen w - oblen w2)))
    | Some (l, t, fill) => Some (s3, (ores w ++ obl w2) ++ [(l, t)], negb (is_full (if fill then 0 else rem - olen w - oblen w2 - lenN l)))
    end) = Some (s3, (ores w ++ obl w2) ++ ost w3, more)).
  { destruct w3 as [[[? ?] ?]|]; cbn [ost]; rewrite ?app_nil_r; eauto. }
  destruct X as [more EX].
  exists s3, ((ores w ++ obl w2) ++ ost w3), more. splits.
  - rewrite Efull in EX. destruct w3 as [[[l t] fill]|]; exact EX.
  - apply Fin.
    + eapply same_trans; eauto.
    + rewrite map_app, highest_app, HB2, T2, B2, R2. lia.
    + eapply st_ext; [apply wh_merge|exact T3].
    + apply Forall_app. auto.
  - rewrite total_app, F2. assert (total (ost w3) = ostlen w3) by (destruct w3 as [[[? ?] ?]|]; cbn; lia). lia.
  - apply Forall_app. auto.
  - eapply same_trans; eauto.
  - intros NE. destruct (ores w ++ obl w2) eqn:E; [|apply Back2; discriminate]. apply HA. right. right. rewrite <- (Stuff2 eq_refl). apply T6.
    destruct w3; [discriminate|]. destruct (NE eq_refl).
  - intros H40 Hx E. apply app_eq_nil in E as [E1 E2]. specialize (Fwd2 H40 Hx E1). rewrite <- (Stuff2 E1) in Fwd2.
    assert (H18 : 18 <= rem - olen w - oblen w2). { destruct w as [?|]; [discriminate|]. destruct w2 as [[? ?]|]; [discriminate|]. cbn [olen oblen]. lia. }
    specialize (T7 H18 Fwd2). destruct w3 as [[[? ?] ?]|]; [discriminate|congruence].
Qed.

(** ** Acknowledgements and losses *)
Definition tok_entry (e : sentry) (t : tok) : Prop :=
  (exists i evs, e = (OAck i, RTok (Some t), evs)) \/ (exists i evs, e = (OLose i, RTok (Some t), evs)).
Lemma step_tok init s toks h e t s' : inv init s toks h -> tok_entry e t -> In t toks ->
  ss_id s' = ss_id s -> ss_low s' = ss_low s -> ss_conn s' = ss_conn s -> ss_bytes s' = ss_bytes s -> ss_retx s <= ss_retx s' ->
  (forall x, lost1 e (fun t => carries t x) -> x < ss_retx s') ->
  st_ok (slimit init h) (h ++ [e]) (written h) (sum1 (summ h) e) (ss_st s') ->
  inv init s' toks (h ++ [e]).
Proof.
  intros (I1 & I2 & I3 & I4 & I5 & I6 & I7 & I8 & I9 & I10 & I11 & I12 & I13) TE Ht E1 E2 E3 E4 E5 E6 St.
  assert (F : frames1 e = [] /\ written1 e = [] /\ slimit1 (slimit init h) e = slimit init h /\
     sum1 (summ h) e = mkSum (m_phase (summ h)) (m_len (summ h)) (m_committed (summ h)) (m_complete (sum1 (summ h) e)) (m_dropped (summ h))).
  { destruct TE as [(i & evs & ->)|(i & evs & ->)]; cbn [frames1 written1 slimit1]; splits; auto; unfold sum1; cbn [written1 lenN length N.of_nat m_complete]; rewrite N.add_0_r; reflexivity. }
  destruct F as (F1 & F2 & F3 & F4).
  unfold inv. rewrite frames_snoc, written_snoc, summ_snoc, slimit_snoc, F1, F2, F3, !app_nil_r, E1, E2, E3, E4. splits; auto.
  - rewrite F4. cbn [m_len]. exact I2.
  - rewrite F4. cbn [m_committed]. exact I8.
  - eapply Forall_impl; [|exact I9]. intros f G. rewrite F4. eapply good_keep; eauto; cbn [m_phase m_dropped]; auto; try lia. exists []. rewrite app_nil_r. reflexivity.
  - intros P HP. apply was_acked_snoc in HP as [HP|HP]; [auto|]. exists t. split; [exact Ht|].
    destruct TE as [(i & evs & ->)|(i & evs & ->)]; cbn in HP; tauto.
  - intros x (y & Hy & L). apply in_app_or in Hy as [Hy|[<-|[]]]; [|apply E6; exact L]. assert (x < ss_retx s) by (apply I12; exists y; auto). lia.
Qed.

(** The facts about a history that acknowledgement or loss of [t] keeps. *)
Lemma ack_ext h e t : tok_entry e t -> (forall x, ~ carries t x) -> ~ is_fin t -> ~ is_reset t -> ext h (h ++ [e]).
Proof.
  intros TE C F R P HP. rewrite was_acked_snoc.
  assert (NP : ~ P t) by (destruct HP as [[x ->]|[->| ->]]; auto).
  assert (NA : ~ acked1 e P) by (destruct TE as [(i & evs & ->)|(i & evs & ->)]; cbn; tauto).
  assert (NL : ~ lost1 e P) by (destruct TE as [(i & evs & ->)|(i & evs & ->)]; cbn; tauto).
  split; [tauto|]. intros X. apply in_flight_keep; auto.
Qed.
Lemma sum1_quiet m o r evs : (match o with OAck _ | OLose _ => True | _ => False end) -> ~ In EvComplete evs -> sum1 m (o, r, evs) = m.
Proof. intros Ho NE. apply sum_same; auto; destruct o; try tauto; reflexivity. Qed.

(** States that only remember acknowledgements. *)
Lemma st_done L h e t W m st : tok_entry e t -> ~ is_reset t ->
  (match st with StDataRecvd _ _ | StResetSent _ _ _ _ _ _ | StResetRecvd _ _ => True | _ => False end) ->
  st_ok L h W m st -> st_ok L (h ++ [e]) W m st.
Proof.
  intros TE NR K. assert (U := fun n => acked_upto_snoc h e n).
  assert (A : forall P, was_acked h P -> was_acked (h ++ [e]) P) by (intros P X; apply was_acked_snoc; auto).
  assert (AR : was_acked (h ++ [e]) is_reset -> was_acked h is_reset).
  { intros X. apply was_acked_snoc in X as [X|X]; [exact X|]. destruct TE as [(i & evs & ->)|(i & evs & ->)]; cbn in X; tauto. }
  assert (FR : in_flight h is_reset -> in_flight (h ++ [e]) is_reset).
  { intros X. apply in_flight_keep; [exact X|]. destruct TE as [(i & evs & ->)|(i & evs & ->)]; cbn; tauto. }
  destruct st; try tauto; cbn [st_ok]; intros H.
  - destruct H as (H1 & H2 & H3 & H4 & H5 & H6). splits; auto.
  - destruct H as (c & H1 & H2 & H3 & H4 & H5 & H6 & H7 & H8 & H9 & H10). exists c. splits; auto.
    destruct H6 as [[? ?]|?]; auto.
  - destruct H as (e0 & c & H1 & H2 & H3 & H4 & H5 & H6). exists e0, c. splits; auto. destruct H6; auto.
Qed.

Lemma tok_good init s toks h t : inv init s toks h -> In t toks -> exists l, frame_good (ss_id s) (slimit init h) (written h) (summ h) (l, t).
Proof.
  intros (I1 & _ & _ & _ & _ & _ & _ & _ & I9 & _) Ht. subst toks. apply in_map_iff in Ht as ([l t'] & <- & Hf). rewrite Forall_forall in I9. exists l. apply I9. exact Hf.
Qed.

Lemma retired_max h W b : buf_ok h W b -> tb_buf b <> [] -> tb_retired b < lenN W /\ ~ was_acked h (fun t => carries t (tb_retired b)).
Proof.
  intros (A & B & C & D & E & F & G) NE. split.
  - destruct (N.le_gt_cases (lenN W) (tb_retired b)) as [Hle|]; [|assumption]. exfalso. apply NE. rewrite B. apply lenN0. rewrite lenN_skipnN. lia.
  - intros X. apply F in X. exact (not_acked_at _ A X).
Qed.

Definition unfinished (h : hist) (W : list N) : Prop := ~ (acked_upto h (lenN W) /\ was_acked h is_fin).

Lemma ack_stream_spec init s toks h i off len fin : inv init s toks h -> In (TkStream off len fin) toks ->
  exists s' evs, ss_mark_acked off len fin s = Some (s', evs) /\
    inv init s' toks (h ++ [(OAck i, RTok (Some (TkStream off len fin)), evs)]) /\
    (In EvComplete evs -> evs = [EvComplete] /\ m_complete (summ h) = false) /\
    ss_acked s <= ss_acked s'.
Proof.
  intros I Ht. set (t := TkStream off len fin) in *. assert (I' := I). destruct (tok_good _ _ _ _ _ I Ht) as (l & G). unfold frame_good in G. cbn [snd fst t] in G. fold t in G.
  destruct G as (G1 & G2 & G3 & _).
  destruct I as (I1 & I2 & I3 & I4 & I5 & I6 & I7 & I8 & I9 & I10 & I11 & I12 & I13).
  assert (Step : forall s' evs, ss_id s' = ss_id s -> ss_low s' = ss_low s -> ss_conn s' = ss_conn s -> ss_bytes s' = ss_bytes s -> ss_retx s' = ss_retx s ->
     st_ok (slimit init h) (h ++ [(OAck i, RTok (Some t), evs)]) (written h) (sum1 (summ h) (OAck i, RTok (Some t), evs)) (ss_st s') ->
     inv init s' toks (h ++ [(OAck i, RTok (Some t), evs)])).
  { intros s' evs E1 E2 E3 E4 E5 E6. eapply step_tok; eauto; [left; eauto|lia|]. intros x []. }
  assert (TE : forall evs, tok_entry (OAck i, RTok (Some t), evs) t) by (intros; left; eauto).
  assert (NR : ~ is_reset t) by (unfold is_reset, t; discriminate).
  assert (Keep : forall evs P, in_flight h P -> in_flight (h ++ [(OAck i, RTok (Some t), evs)]) P) by (intros; apply in_flight_keep; auto).
  assert (AR : forall evs, was_acked (h ++ [(OAck i, RTok (Some t), evs)]) is_reset <-> was_acked h is_reset).
  { intros. rewrite was_acked_snoc. cbn. tauto. }
  assert (Buf : forall evs b, buf_ok h (written h) b -> exists b', tb_acked off len b = Some b' /\ buf_ok (h ++ [(OAck i, RTok (Some t), evs)]) (written h) b' /\ tb_retired b <= tb_retired b').
  { intros evs b Hb. eapply (buf_acked h _ (written h) b off len fin); [exact Hb|exact G1|intros P; cbn; tauto|intros P []]. }
  unfold ss_mark_acked, ss_acked. destruct (ss_st s) eqn:Es.
  - exists s, []. splits; [reflexivity| |intros []|rewrite Es; lia]. apply Step; auto. rewrite sum1_quiet; auto. rewrite Es. exact I13.
  - cbn [st_ok] in I13. destruct I13 as (A & B & C & D & E).
    destruct (Buf [] b D) as (b' & Eb & _). rewrite Eb.
    set (evs := ss_maybe_writable (tb_avail b) (tb_avail b') (with_st (StSend fc b' committed) s)).
    destruct (Buf evs b D) as (b2 & Eb2 & B2 & B3). assert (b2 = b') by congruence. subst b2.
    eexists _, _. splits; [reflexivity| | |exact B3].
    + apply Step; auto. rewrite sum1_quiet; [|exact Logic.I|apply writable_no_complete]. cbn [with_st ss_st st_ok]. splits; auto.
    + intros X. destruct (writable_no_complete _ _ _ X).
  - cbn [st_ok] in I13. destruct I13 as (A & B & D & E & F1 & F2 & F3).
    destruct (Buf [] b D) as (b' & Eb & _). rewrite Eb. cbv zeta.
    assert (FA : forall evs, fin_acked || fin = true <-> was_acked (h ++ [(OAck i, RTok (Some t), evs)]) is_fin).
    { intros evs. rewrite was_acked_snoc, <- F1. cbn. destruct fin_acked, fin; cbn; intuition congruence. }
    destruct ((fin_acked || fin) && (tb_buffered b' =? 0)) eqn:Ec.
    + destruct (Buf [EvComplete] b D) as (b2 & Eb2 & B2 & B3). assert (b2 = b') by congruence. subst b2.
      assert (RL : tb_retired b' = lenN (written h)). { pose proof (buf_buffered _ _ _ B2). assert (R := proj1 (proj2 (proj2 B2))). lia. }
      eexists _, _. splits; [reflexivity| |auto|exact B3].
      apply Step; auto. unfold sum1. cbn [existsb orb m_phase m_complete with_st ss_st st_ok]. rewrite orb_true_r. splits; auto.
      * lia.
      * rewrite <- RL. apply (buf_acked_upto _ _ _ B2).
      * apply FA. destruct (fin_acked || fin); [reflexivity|discriminate].
    + destruct (Buf [] b D) as (b2 & Eb2 & B2 & B3). assert (b2 = b') by congruence. subst b2.
      eexists _, _. splits; [reflexivity| |intros []|exact B3].
      apply Step; auto. rewrite sum1_quiet; auto. cbn [with_st ss_st st_ok]. splits; auto; try apply FA.
      * intros X. destruct (F2 X) as [Y|Y]; [left; auto|right; apply was_acked_snoc; auto].
      * intros X Y. rewrite X in Ec. unfold tb_buffered in Ec. rewrite Y in Ec. discriminate.
  - exists s, []. splits; [reflexivity| |intros []|rewrite Es; lia]. apply Step; auto. rewrite sum1_quiet; auto. rewrite Es. eapply st_done; eauto.
  - exists s, []. splits; [reflexivity| |intros []|rewrite Es; lia]. apply Step; auto. rewrite sum1_quiet; auto. rewrite Es. eapply st_done; eauto.
  - cbn [st_ok] in I13. destruct I13 as (H1 & H2 & H3 & H4 & H5 & H6 & H7 & H8 & H9).
    destruct (Buf [] b H6) as (b' & Eb & B2 & B3). rewrite Eb.
    pose proof (buf_buffered _ _ _ B2) as HB. assert (R := proj1 (proj2 (proj2 B2))). pose proof (buf_acked_upto _ _ _ B2) as HU.
    destruct (reliable <=? tb_retired b') eqn:Er; [destruct racked|].
    + eexists _, _. splits; [reflexivity| |intros []|exact B3]. apply Step; auto. rewrite sum1_quiet; auto. cbn [with_st ss_st st_ok].
      exists err, reliable. rewrite AR. splits; auto; [apply H8; reflexivity|lia|left; eapply acked_upto_le; [exact HU|lia]].
    + eexists _, _. splits; [reflexivity| |intros []|exact B3]. apply Step; auto. rewrite sum1_quiet; auto. cbn [with_st ss_st st_ok].
      exists reliable. rewrite AR. splits; auto; [left; split; [reflexivity|eapply acked_upto_le; [exact HU|lia]]|lia|]. intros X. apply H8 in X. discriminate.
    + eexists _, _. splits; [reflexivity| |intros []|exact B3]. apply Step; auto. rewrite sum1_quiet; auto. cbn [with_st ss_st st_ok].
      rewrite AR. splits; auto; try apply H8. lia.
  - exists s, []. splits; [reflexivity| |intros []|rewrite Es; lia]. apply Step; auto. rewrite sum1_quiet; auto. rewrite Es. eapply st_done; eauto.
Qed.

Lemma ack_reset_spec init s toks h i : inv init s toks h -> In TkReset toks ->
  inv init (ss_reset_acked s) toks (h ++ [(OAck i, RTok (Some TkReset), [])]).
Proof.
  intros I Ht. assert (I' := I). destruct (tok_good _ _ _ _ _ I Ht) as (l & G). unfold frame_good in G. cbn [snd fst] in G.
  destruct G as (e & c & r & G1 & _). set (en := (OAck i, RTok (Some TkReset), []) : sentry) in *.
  destruct I as (I1 & I2 & I3 & I4 & I5 & I6 & I7 & I8 & I9 & I10 & I11 & I12 & I13).
  assert (Step : forall st', st_ok (slimit init h) (h ++ [en]) (written h) (summ h) st' -> inv init (with_st st' s) toks (h ++ [en])).
  { intros st' E6. apply (step_tok init s toks h en TkReset); auto; [left; unfold en; eauto|cbn; lia|intros x []|]. cbn [with_st ss_st]. unfold en. rewrite sum1_quiet; auto. }
  assert (AR : was_acked (h ++ [en]) is_reset) by (apply was_acked_snoc; right; cbn; reflexivity).
  assert (U := fun n => acked_upto_snoc h en n).
  assert (W : with_st (ss_st s) s = s) by (destruct s; reflexivity).
  unfold ss_reset_acked. destruct (ss_st s) eqn:Es; cbn [st_ok] in I13.
  - destruct I13 as (X & _). congruence.
  - destruct I13 as (X & _). congruence.
  - destruct I13 as (X & _). congruence.
  - destruct I13 as (X & _). congruence.
  - destruct I13 as (c0 & H1 & H2 & H3 & H4 & H5 & H6 & H7 & H8 & H9 & H10). apply Step. cbn [st_ok]. exists err, c0. splits; auto. destruct H6 as [[? ?]|[? ?]]; auto.
  - destruct I13 as (H1 & H2 & H3 & H4 & H5 & H6 & H7 & H8 & H9). replace (reliable <=? tb_retired b) with false by lia. apply Step. cbn [st_ok].
    splits; auto; try tauto.
    + destruct H6 as (A & B & C & D & E & F & G). unfold buf_ok. splits; auto.
      * intros x. rewrite was_acked_snoc, F. cbn. tauto.
      * intros x Hx. apply in_flight_keep; auto.
    + intros X. apply in_flight_keep; auto.
  - destruct I13 as (e0 & c0 & H1 & H2 & H3 & H4 & H5 & H6). rewrite <- W. apply Step. cbn [st_ok]. exists e0, c0. splits; auto. destruct H6; auto.
Qed.

Lemma still_tok init s toks h en t : inv init s toks h -> tok_entry en t -> In t toks -> sum1 (summ h) en = summ h ->
  (forall x, ~ carries t x) -> ~ is_fin t -> ~ is_reset t -> forall s', ss_id s' = ss_id s -> ss_low s' = ss_low s -> ss_conn s' = ss_conn s -> ss_bytes s' = ss_bytes s -> ss_retx s' = ss_retx s ->
  (st_ok (slimit init h) (h ++ [en]) (written h) (summ h) (ss_st s) -> st_ok (slimit init h) (h ++ [en]) (written h) (summ h) (ss_st s')) ->
  inv init s' toks (h ++ [en]).
Proof.
  intros I TE Ht Sm C F R s' E1 E2 E3 E4 E5 St. assert (I13 : st_ok (slimit init h) h (written h) (summ h) (ss_st s)) by (apply I).
  eapply step_tok; eauto; [lia| |].
  - intros x X. destruct TE as [(i & evs & ->)|(i & evs & ->)]; cbn in X; [tauto|]. destruct (C x X).
  - rewrite Sm. apply St. eapply st_ext; [eapply ack_ext; eauto|exact I13].
Qed.

Lemma lose_stream_spec init s toks h i off len fin : inv init s toks h -> In (TkStream off len fin) toks ->
  exists s', ss_mark_lost off len fin s = Some s' /\ inv init s' toks (h ++ [(OLose i, RTok (Some (TkStream off len fin)), [])]) /\ ss_acked s' = ss_acked s.
Proof.
  intros I Ht. set (t := TkStream off len fin) in *. assert (I' := I). destruct (tok_good _ _ _ _ _ I Ht) as (l & G). unfold frame_good in G. cbn [snd fst t] in G. fold t in G.
  destruct G as (G1 & G2 & G3 & _). set (en := (OLose i, RTok (Some t), []) : sentry) in *.
  destruct I as (I1 & I2 & I3 & I4 & I5 & I6 & I7 & I8 & I9 & I10 & I11 & I12 & I13).
  assert (Step : forall s', ss_id s' = ss_id s -> ss_low s' = ss_low s -> ss_conn s' = ss_conn s -> ss_bytes s' = ss_bytes s -> ss_retx s' = N.max (ss_retx s) (off + len) ->
     st_ok (slimit init h) (h ++ [en]) (written h) (summ h) (ss_st s') -> inv init s' toks (h ++ [en])).
  { intros s' E1 E2 E3 E4 E5 E6. eapply step_tok; eauto; [right; unfold en; eauto|lia| |].
    - intros x X. cbn in X. unfold covers in X. lia.
    - unfold en. rewrite sum1_quiet; auto. }
  assert (TE : tok_entry en t) by (right; unfold en; eauto).
  assert (NR : ~ is_reset t) by (unfold is_reset, t; discriminate).
  assert (A : forall P, was_acked (h ++ [en]) P <-> was_acked h P) by (intros; rewrite was_acked_snoc; cbn; tauto).
  assert (KR : in_flight h is_reset -> in_flight (h ++ [en]) is_reset) by (intros; apply in_flight_keep; auto).
  assert (Buf : forall b, buf_ok h (written h) b -> exists b', tb_lost off len b = Some b' /\ buf_ok (h ++ [en]) (written h) b' /\ tb_retired b' = tb_retired b /\ tb_buf b' = tb_buf b).
  { intros b Hb. destruct (buf_lost h en (written h) b off len fin) as (b' & X1 & X2 & X3 & X4 & _); auto; try (cbn; tauto). exists b'. auto. }
  unfold ss_mark_lost, ss_acked. cbn [ss_st]. destruct (ss_st s) eqn:Es.
  - eexists. splits; [reflexivity| |cbn [ss_st]; rewrite ?Es; reflexivity]. apply Step; auto.
  - cbn [st_ok] in I13. destruct I13 as (H1 & H2 & H3 & H4 & H5). destruct (Buf b H4) as (b' & -> & B1 & B2 & B3).
    eexists. splits; [reflexivity| |exact B2]. apply Step; auto. cbn [with_st ss_st st_ok]. splits; auto.
  - cbn [st_ok] in I13. destruct I13 as (H1 & H2 & H3 & H4 & H5 & H6 & H7). destruct (Buf b H3) as (b' & -> & B1 & B2 & B3).
    eexists. splits; [reflexivity| |exact B2]. apply Step; auto. cbn [with_st ss_st st_ok]. rewrite A, B3. splits; auto; try apply H5.
    destruct fin eqn:Ef; intros X; [right; apply H5; exact X|]. destruct (H6 X) as [Y|Y]; [left; apply in_flight_keep; auto|right; exact Y].
    cbn. unfold is_fin, t. discriminate.
  - eexists. splits; [reflexivity| |cbn [ss_st]; rewrite ?Es; reflexivity]. apply Step; auto. cbn [ss_st]. eapply st_done; eauto.
  - eexists. splits; [reflexivity| |cbn [ss_st]; rewrite ?Es; reflexivity]. apply Step; auto. cbn [ss_st]. eapply st_done; eauto.
  - cbn [st_ok] in I13. destruct I13 as (H1 & H2 & H3 & H4 & H5 & H6 & H7 & H8 & H9). destruct (Buf b H6) as (b' & -> & B1 & B2 & B3).
    eexists. splits; [reflexivity| |exact B2]. apply Step; auto. cbn [with_st ss_st st_ok]. rewrite A, B2. splits; auto; apply H8.
  - eexists. splits; [reflexivity| |cbn [ss_st]; rewrite ?Es; reflexivity]. apply Step; auto. cbn [ss_st]. eapply st_done; eauto.
Qed.
Lemma lose_reset_spec init s toks h i : inv init s toks h -> In TkReset toks ->
  exists s', ss_reset_lost s = Some s' /\ inv init s' toks (h ++ [(OLose i, RTok (Some TkReset), [])]) /\ ss_acked s' = ss_acked s.
Proof.
  intros I Ht. assert (I' := I). destruct (tok_good _ _ _ _ _ I Ht) as (l & G). unfold frame_good in G. cbn [snd fst] in G.
  destruct G as (e & c & r & G1 & _). set (en := (OLose i, RTok (Some TkReset), []) : sentry) in *.
  destruct I as (I1 & I2 & I3 & I4 & I5 & I6 & I7 & I8 & I9 & I10 & I11 & I12 & I13).
  assert (Step : forall st', st_ok (slimit init h) (h ++ [en]) (written h) (summ h) st' -> inv init (with_st st' s) toks (h ++ [en])).
  { intros st' E6. apply (step_tok init s toks h en TkReset); auto; [right; unfold en; eauto|cbn; lia|intros x []|]. cbn [with_st ss_st]. unfold en. rewrite sum1_quiet; auto. }
  assert (A : forall P, was_acked (h ++ [en]) P <-> was_acked h P) by (intros; rewrite was_acked_snoc; cbn; tauto).
  assert (U := fun n => acked_upto_snoc h en n).
  assert (W : with_st (ss_st s) s = s) by (destruct s; reflexivity).
  unfold ss_reset_lost, ss_acked. destruct (ss_st s) eqn:Es; cbn [st_ok] in I13.
  - destruct I13 as (X & _). congruence.
  - destruct I13 as (X & _). congruence.
  - destruct I13 as (X & _). congruence.
  - destruct I13 as (X & _). congruence.
  - destruct I13 as (c0 & H1 & H2 & H3 & H4 & H5 & H6 & H7 & H8 & H9 & H10). eexists. splits; [reflexivity| |reflexivity]. apply Step. cbn [st_ok]. exists c0. rewrite A. splits; auto; [destruct H6 as [[? ?]|[? ?]]; auto|discriminate].
  - destruct I13 as (H1 & H2 & H3 & H4 & H5 & H6 & H7 & H8 & H9). eexists. splits; [reflexivity| |reflexivity]. apply Step. cbn [st_ok].
    rewrite A. splits; auto; try apply H8; [|discriminate].
    destruct H6 as (X & B & C & D & E & F & G). unfold buf_ok. splits; auto.
    + intros x. rewrite A. apply F.
    + intros x Hx. apply in_flight_keep; auto.
  - destruct I13 as (e0 & c0 & H1 & H2 & H3 & H4 & H5 & H6). exists s. rewrite Es. splits; auto. rewrite <- W. apply Step. cbn [st_ok]. exists e0, c0. rewrite A. splits; auto. destruct H6; auto.
Qed.
Lemma fc_lost_ok L W fc l : fc_ok L W fc -> fc_ok L W (sfc_lost l fc).
Proof. intros (A & B & C). unfold sfc_lost, fc_ok. destruct (sf_blocked_at fc) as [b|] eqn:E; [destruct (_ =? _)|]; cbn; rewrite ?E; auto. Qed.

(** ** Every step *)
Definition completes (e : sentry) : Prop := In EvComplete (snd e).
Lemma step_inv init s toks h o : inv init s toks h -> op_ok o ->
  exists s' toks' r evs, ss_step (s, toks) o = Some ((s', toks'), r, evs) /\ inv init s' toks' (h ++ [(o, r, evs)]) /\
    (In EvComplete evs -> evs = [EvComplete] /\ m_complete (summ h) = false).
Proof.
  intros I Ho.
  assert (NT : forall o', (forall P, ~ acked1 (o', RTok None, []) P) /\ (forall P, ~ lost1 (o', RTok None, []) P)) by (intros o'; split; intros P X; cbn in X; destruct o'; exact X).
  destruct o; cbn [ss_step].
  - destruct (send_spec _ _ _ _ d atomic I) as (s' & r & -> & I' & _). eexists _, _, _, _. splits; [reflexivity|exact I'|intros []].
  - eexists _, _, _, _. splits; [reflexivity|apply close_spec; exact I|intros []].
  - pose proof (commit_spec _ _ _ _ I) as X. destruct (ss_commit s) as [s' r]. eexists _, _, _, _. splits; [reflexivity|apply X|intros []].
  - eexists _, _, _, _. splits; [reflexivity|apply reset_spec; auto|intros []].
  - eexists _, _, _, _. splits; [reflexivity|apply drop_spec; auto|intros []].
  - pose proof (maxstream_spec _ _ _ _ l I Ho) as X. destruct (ss_max_stream_data l s) as [s' e] eqn:E. eexists _, _, _, _. splits; [reflexivity|exact X|].
    intros Y. exfalso. revert Y. unfold ss_max_stream_data in E.
    destruct (ss_st s); try (inv E; intros []); destruct (sfc_update l fc) as [? [?|]]; inv E; try apply writable_no_complete; intros [].
  - pose proof (conn_spec _ _ _ _ o I) as X. destruct (ss_conn_op o s) as [s' e] eqn:E. eexists _, _, _, _. splits; [reflexivity|exact X|].
    intros Y. exfalso. revert Y. unfold ss_conn_op in E. destruct o; try (destruct (sstep _ _) as [[? ?]|]; inv E; intros []).
    destruct (sfc_update l (ss_conn s)) as [? [?|]]; inv E; [apply writable_no_complete|intros []].
  - eexists _, _, _, _. splits; [reflexivity|apply prio_spec; auto|intros []].
  - eexists _, _, _, _. splits; [reflexivity|apply low_spec; auto|intros []].
  - pose proof (has_spec _ _ _ _ p I) as X. destruct (ss_has_data_at p s) as [s' x]. eexists _, _, _, _. splits; [reflexivity|apply X|intros []].
  - destruct (write_spec _ _ _ _ p rem sp I) as (s' & fs & more & -> & I' & _). eexists _, _, _, _. splits; [reflexivity|exact I'|intros []].
  - destruct (nth_error toks (N.to_nat i)) as [[off len fin| |l]|] eqn:En; try apply nth_error_In in En.
    + destruct (ack_stream_spec _ _ _ _ i off len fin I En) as (s' & evs & -> & I' & C & _). eexists _, _, _, _. splits; [reflexivity|exact I'|exact C].
    + eexists _, _, _, _. splits; [reflexivity|apply ack_reset_spec; auto|intros []].
    + eexists _, _, _, _. splits; [reflexivity| |intros []]. eapply still_tok with (s := s) (t := TkBlocked l); eauto; try (left; eauto; fail); try (cbn; tauto); try discriminate. rewrite sum1_quiet; auto.
    + eexists _, _, _, _. splits; [reflexivity| |intros []]. assert (I' := I). destruct I' as (I1 & I2 & I3 & I4 & I5 & I6 & I7 & _). eapply step_still; eauto; try reflexivity; [apply NT|apply sum_same; auto].
  - destruct (nth_error toks (N.to_nat i)) as [[off len fin| |l]|] eqn:En; try apply nth_error_In in En.
    + destruct (lose_stream_spec _ _ _ _ i off len fin I En) as (s' & -> & I' & _). eexists _, _, _, _. splits; [reflexivity|exact I'|intros []].
    + destruct (lose_reset_spec _ _ _ _ i I En) as (s' & -> & I' & _). eexists _, _, _, _. splits; [reflexivity|exact I'|intros []].
    + eexists _, _, _, _. splits; [reflexivity| |intros []].
      assert (F : ss_id (ss_blocked_lost l s) = ss_id s /\ ss_low (ss_blocked_lost l s) = ss_low s /\ ss_conn (ss_blocked_lost l s) = ss_conn s /\ ss_bytes (ss_blocked_lost l s) = ss_bytes s /\ ss_retx (ss_blocked_lost l s) = ss_retx s).
      { unfold ss_blocked_lost. destruct (ss_st s); auto. }
      destruct F as (F1 & F2 & F3 & F4 & F5).
      eapply still_tok with (s := s) (t := TkBlocked l); eauto; try (right; eauto; fail); try (cbn; tauto); try discriminate.
      * rewrite sum1_quiet; auto.
      * unfold ss_blocked_lost. destruct (ss_st s) eqn:Es; cbn [with_st ss_st]; rewrite ?Es; auto; cbn [st_ok]; intros X; decompose [and] X; splits; auto using fc_lost_ok.
    + eexists _, _, _, _. splits; [reflexivity| |intros []]. assert (I' := I). destruct I' as (I1 & I2 & I3 & I4 & I5 & I6 & I7 & _). eapply step_still; eauto; try reflexivity; [apply NT|apply sum_same; auto].
Qed.

(** ** Histories *)
Lemma new_inv id max conn : id < 2 ^ 62 -> max < 2 ^ 62 -> conn_ok conn -> inv max (fst (ss_new id max conn)) [] [].
Proof.
  intros Hi Hm Hc. unfold inv, ss_new, conn_ok in *. cbn. splits; auto; try lia.
  - intros P (e & [] & _).
  - intros x (e & [] & _).
  - unfold fc_ok. cbn. auto.
Qed.
Lemma runs_snoc ops : forall w o, ss_runs w (ops ++ [o]) =
  match ss_runs w ops with
  | None => None
  | Some (w', h) => match ss_step w' o with None => None | Some (w'', x, e) => Some (w'', h ++ [(o, x, e)]) end
  end.
Proof.
  induction ops as [|a ops IH]; intros w o; cbn [app ss_runs].
  - destruct (ss_step w o) as [[[? ?] ?]|]; reflexivity.
  - destruct (ss_step w a) as [[[w1 x] e]|]; [|reflexivity]. rewrite IH. destruct (ss_runs w1 ops) as [[w2 h]|]; [|reflexivity].
    destruct (ss_step w2 o) as [[[? ?] ?]|]; reflexivity.
Qed.
Lemma runs_app a : forall w b, ss_runs w (a ++ b) =
  match ss_runs w a with
  | None => None
  | Some (w', h) => match ss_runs w' b with None => None | Some (w'', h') => Some (w'', h ++ h') end
  end.
Proof.
  induction a as [|x a IH]; intros w b; cbn [app ss_runs].
  - destruct (ss_runs w b) as [[? ?]|]; reflexivity.
  - destruct (ss_step w x) as [[[w1 y] e]|]; [|reflexivity]. rewrite IH. destruct (ss_runs w1 a) as [[w2 h]|]; [|reflexivity].
    destruct (ss_runs w2 b) as [[? ?]|]; reflexivity.
Qed.
Lemma runs_inv id max conn ops : id < 2 ^ 62 -> max < 2 ^ 62 -> conn_ok conn -> Forall op_ok ops ->
  exists s toks h, ss_runs (fst (ss_new id max conn), []) ops = Some ((s, toks), h) /\ inv max s toks h.
Proof.
  intros Hi Hm Hc. induction ops as [|o ops IH] using rev_ind; intros Ho.
  - eexists _, _, _. split; [reflexivity|]. apply new_inv; auto.
  - apply Forall_app in Ho as [Ho1 Ho2]. inversion Ho2. subst. destruct (IH Ho1) as (s & toks & h & E & I).
    destruct (step_inv _ _ _ _ o I H1) as (s' & toks' & r & evs & E' & I' & _).
    exists s', toks', (h ++ [(o, r, evs)]). split; [|exact I']. rewrite runs_snoc, E, E'. reflexivity.
Qed.
