(** Server push: what every call does to where each push stands. *)
From Verif Require Import Base Lib HpModel HpSpec.
From Coq Require Import Sorted.
Open Scope N_scope.
Open Scope list_scope.
Import ListNotations.

Definition vw (first : N) (q : list pst) (x : N) : pst := if x <? first then PClosed else nth (N.to_nat (x - first)) q PInit.
Lemma nth_resize q n i : nth i (resize q n) PInit = nth i q PInit.
Proof.
  unfold resize. destruct (Nat.lt_ge_cases i (length q)); [apply app_nth1; auto|]. rewrite app_nth2 by lia. rewrite (nth_overflow q) by lia.
  generalize (n - length q)%nat. generalize (i - length q)%nat. intros a b. revert a. induction b; intros [|a]; cbn; auto.
Qed.
Lemma view_touch c id x : view (touch c id) x = view c x.
Proof. unfold view, touch. destruct (id <? c_first c); [reflexivity|]. cbn [with_q c_first c_q]. rewrite nth_resize. reflexivity. Qed.
Lemma filter_repeat n : filter is_closed (repeat PInit n) = [].
Proof. induction n; cbn; auto. Qed.
Lemma done_touch c id : number_done (touch c id) = number_done c.
Proof. unfold number_done, touch. destruct (id <? c_first c); [reflexivity|]. cbn [with_q c_first c_q]. unfold resize. rewrite filter_app, filter_repeat, app_nil_r. reflexivity. Qed.
Lemma get_view c id : p_get c id = match view c id with PClosed => None | v => Some v end.
Proof. unfold p_get, view, inx. destruct (id <? c_first c); [reflexivity|]. destruct (nth _ _ _); reflexivity. Qed.
Definition touched (c : ctl) (id : N) : Prop := c_first c <= id -> (inx c id < length (c_q c))%nat.
Lemma touch_touched c id : touched (touch c id) id.
Proof.
  unfold touched, touch. destruct (N.ltb_spec id (c_first c)); [lia|]. intros _. unfold inx. cbn [with_q c_first c_q]. unfold resize. rewrite app_length, repeat_length. lia.
Qed.
Lemma touch_same c id : c_max (touch c id) = c_max c /\ c_cur (touch c id) = c_cur c /\ c_frames (touch c id) = c_frames c /\ c_posted (touch c id) = c_posted c /\ c_events (touch c id) = c_events c.
Proof. unfold touch. destruct (id <? c_first c); cbn; auto. Qed.
Lemma open_first c id : view c id <> PClosed -> c_first c <= id.
Proof. unfold view. destruct (N.ltb_spec id (c_first c)); [congruence|lia]. Qed.
Lemma nth_set q : forall i j v, (i < length q)%nat -> nth j (set_nth q i v) PInit = if (j =? i)%nat then v else nth j q PInit.
Proof.
  induction q as [|x q IH]; intros i j v L; cbn [length] in L; [lia|]. destruct i as [|i]; destruct j as [|j]; cbn; auto. apply IH. lia.
Qed.
Lemma view_set c id v x : touched c id -> view c id <> PClosed -> view (p_set c id v) x = if x =? id then v else view c x.
Proof.
  intros T O. apply open_first in O. specialize (T O). unfold view, p_set. cbn [with_q c_first c_q]. unfold inx in *.
  destruct (N.ltb_spec x (c_first c)); destruct (N.eqb_spec x id); try lia; auto.
  - subst. rewrite nth_set by lia. rewrite Nat.eqb_refl. reflexivity.
  - rewrite nth_set by lia. destruct (Nat.eqb_spec (N.to_nat (x - c_first c)) (N.to_nat (id - c_first c))); [lia|reflexivity].
Qed.
Lemma vw_pop q : forall f x, vw (fst (pop f q)) (snd (pop f q)) x = vw f q x.
Proof.
  induction q as [|v q IH]; intros f x; [reflexivity|]. destruct v; try reflexivity. cbn [pop]. rewrite IH. unfold vw.
  destruct (N.ltb_spec x (f + 1)); destruct (N.ltb_spec x f); try lia; auto.
  - assert (x = f) by lia. subst. replace (N.to_nat (f - f)) with 0%nat by lia. reflexivity.
  - replace (N.to_nat (x - f)) with (S (N.to_nat (x - (f + 1)))) by lia. reflexivity.
Qed.
Lemma done_pop q : forall f, fst (pop f q) + lenN (filter is_closed (snd (pop f q))) = f + lenN (filter is_closed q).
Proof.
  induction q as [|v q IH]; intros f; [reflexivity|]. destruct v; try reflexivity. cbn [pop filter is_closed]. rewrite IH, lenN_cons. lia.
Qed.
Lemma close_eq c id : p_close c id = with_q c (fst (pop (c_first c) (set_nth (c_q c) (inx c id) PClosed))) (snd (pop (c_first c) (set_nth (c_q c) (inx c id) PClosed))).
Proof. unfold p_close, p_set. cbn [with_q c_first c_q]. destruct (pop _ _); reflexivity. Qed.
Lemma view_close c id x : touched c id -> view c id <> PClosed -> view (p_close c id) x = if x =? id then PClosed else view c x.
Proof.
  intros T O. rewrite <- (view_set c id PClosed x T O). rewrite close_eq. unfold p_set. unfold view at 1. cbn [with_q c_first c_q].
  apply (vw_pop (set_nth (c_q c) (inx c id) PClosed) (c_first c) x).
Qed.
Lemma set_done q : forall i v, (i < length q)%nat -> is_closed (nth i q PInit) = false ->
  lenN (filter is_closed (set_nth q i v)) = lenN (filter is_closed q) + (if is_closed v then 1 else 0).
Proof.
  induction q as [|x q IH]; intros i v L H; cbn [length] in L; [lia|]. destruct i as [|i]; cbn [set_nth filter nth] in *.
  - rewrite H. destruct (is_closed v); [rewrite lenN_cons|]; lia.
  - destruct (is_closed x); rewrite ?lenN_cons, IH by (auto; lia); lia.
Qed.
Lemma view_nth c id : view c id <> PClosed -> is_closed (nth (inx c id) (c_q c) PInit) = false.
Proof. unfold view, inx. destruct (id <? c_first c); [congruence|]. destruct (nth _ _ _); cbn; congruence. Qed.
Lemma done_set c id v : touched c id -> view c id <> PClosed -> is_closed v = false -> number_done (p_set c id v) = number_done c.
Proof.
  intros T O H. unfold number_done, p_set. cbn [with_q c_first c_q]. rewrite set_done; [rewrite H; lia|apply T, open_first, O|apply view_nth, O].
Qed.
Lemma done_close c id : touched c id -> view c id <> PClosed -> number_done (p_close c id) = number_done c + 1.
Proof.
  intros T O. rewrite close_eq. unfold number_done. cbn [with_q c_first c_q]. rewrite done_pop, set_done; [cbn [is_closed]; lia|apply T, open_first, O|apply view_nth, O].
Qed.
Lemma post_all c evs : fold_left post evs c = mkC (c_max c) (c_cur c) (c_first c) (c_q c) (c_events c ++ evs) (c_posted c ++ evs) (c_frames c).
Proof.
  revert c. induction evs as [|e evs IH]; intros c; cbn [fold_left]; [rewrite !app_nil_r; destruct c; reflexivity|]. rewrite IH. unfold post. cbn. rewrite <- !app_assoc. reflexivity.
Qed.

(** The calls, by what they do. *)
Definition keeps (c c' : ctl) : Prop := c_max c' = c_max c /\ c_cur c' = c_cur c /\ number_done c' = number_done c /\ c_frames c' = c_frames c.
Definition same (c c' : ctl) : Prop := forall x, view c' x = view c x.
Definition sets (c c' : ctl) (id : N) (v : pst) : Prop := forall x, view c' x = if x =? id then v else view c x.
Definition adds (c c' : ctl) (P : list pev) : Prop := c_posted c' = c_posted c ++ P /\ c_events c' = c_events c ++ P.
Definition kept (id : N) (es : list pev) : list pev := filter (fun e => negb (ev_removed id e)) es.
Definition quiet (o : pop_) : Prop := match o with OHeaders _ _ _ _ | OData _ => False | _ => True end.
Inductive tr (c : ctl) : pop_ -> ctl -> pout -> Prop :=
| t_idle o c' r : keeps c c' -> same c c' -> adds c c' [] -> quiet o -> r <> PStream true -> (forall id, o = OAppCancel id -> r <> POk) -> tr c o c' r
| t_promise id req hs c' : keeps c c' -> id <= c_cur c -> view c id = PInit -> sets c c' id (PPromise hs) -> adds c c' [EvPromise id req hs] -> tr c (OPromise id req hs) c' POk
| t_again id req hs c' : keeps c c' -> id <= c_cur c -> ((view c id = PPromise hs) \/ (exists sid, view c id = PActive sid hs)) -> same c c' -> adds c c' [EvPromise id req hs] ->
    tr c (OPromise id req hs) c' POk
| t_late id req hs sid evs c' : keeps c c' -> id <= c_cur c -> view c id = POnly sid evs -> sets c c' id (PActive sid hs) -> adds c c' (EvPromise id req hs :: evs) ->
    tr c (OPromise id req hs) c' POk
| t_stream id sid c' : keeps c c' -> c_max c <> 0 -> id <= c_cur c -> view c id = PInit -> sets c c' id (POnly sid []) -> adds c c' [] -> tr c (OStream id sid) c' (PStream true)
| t_second id sid hs c' : keeps c c' -> c_max c <> 0 -> id <= c_cur c -> view c id = PPromise hs -> sets c c' id (PActive sid hs) -> adds c c' [] -> tr c (OStream id sid) c' (PStream true)
| t_close o id v c' P E : c_max c' = c_max c -> c_cur c' = c_cur c -> number_done c' = number_done c + 1 -> max_ids (c_frames c') = max_ids (c_frames c) ->
    (id <= c_cur c \/ v <> PInit) -> view c id = v -> v <> PClosed -> sets c c' id PClosed -> c_posted c' = c_posted c ++ P -> c_events c' = E ++ P ->
    (P = [] /\ E = c_events c \/ P = [] /\ E = kept id (c_events c) \/ (P = [EvCanceled id] \/ exists e, P = [EvReset id e]) /\ E = kept id (c_events c)) -> quiet o ->
    (forall x, o = OAppCancel x -> x = id /\ P = [] /\ E = kept id (c_events c)) -> tr c o c' POk
| t_forget id c' : keeps c c' -> same c c' -> view c id = PClosed -> has_push c id = true -> c_posted c' = c_posted c -> c_events c' = kept id (c_events c) -> tr c (OAppCancel id) c' POk
| t_max c' : c_max c' = c_max c -> number_done c' = number_done c -> number_done c <= c_cur c + 1 -> c_max c <> 0 -> c_cur c + 1 - number_done c <= c_max c / 2 ->
    c_cur c' = number_done c + c_max c - 1 -> c_frames c' = c_frames c ++ [FMaxPush (c_cur c')] -> same c c' -> adds c c' [] -> tr c OMaxPush c' POk
| t_held o id e sid evs c' : keeps c c' -> from_stream id e = true -> (exists hs i f, o = OHeaders id hs i f /\ e = EvHeaders id hs i f) \/ (o = OData id /\ e = EvData id) ->
    view c id = POnly sid evs -> sets c c' id (POnly sid (evs ++ [e])) -> adds c c' [] -> tr c o c' POk
| t_event o id e sid hs c' : keeps c c' -> from_stream id e = true -> (exists hs i f, o = OHeaders id hs i f /\ e = EvHeaders id hs i f) \/ (o = OData id /\ e = EvData id) ->
    view c id = PActive sid hs -> same c c' -> adds c c' [e] -> tr c o c' POk
| t_take c' : keeps c c' -> same c c' -> c_posted c' = c_posted c -> c_events c' = tl (c_events c) -> tr c OTake c' POk.

Lemma keeps_refl c : keeps c c. Proof. unfold keeps; auto. Qed.
Lemma idle c o r : quiet o -> r <> PStream true -> (forall id, o = OAppCancel id -> r <> POk) -> tr c o c r.
Proof. intros. apply t_idle; auto; [apply keeps_refl|intros x; reflexivity|unfold adds; rewrite !app_nil_r; auto]. Qed.
Lemma idle_touch c o r id : quiet o -> r <> PStream true -> (forall id, o = OAppCancel id -> r <> POk) -> tr c o (touch c id) r.
Proof.
  intros. destruct (touch_same c id) as (A & B & D & E & F). apply t_idle; auto.
  - unfold keeps. rewrite done_touch. auto.
  - intros x. apply view_touch.
  - unfold adds. rewrite !app_nil_r. auto.
Qed.
Lemma keeps_set c id v P E : view c id <> PClosed -> is_closed v = false -> c_posted c ++ P = E ->
  let c' := p_set (mkC (c_max (touch c id)) (c_cur (touch c id)) (c_first (touch c id)) (c_q (touch c id)) (c_events (touch c id) ++ P) (c_posted (touch c id) ++ P) (c_frames (touch c id))) id v in
  keeps c c' /\ sets c c' id v /\ adds c c' P.
Proof.
  intros O H _. destruct (touch_same c id) as (A & B & D & E' & F).
  set (d := mkC _ _ _ _ _ _ _).
  assert (Vd : forall x, view d x = view c x) by (intros x; rewrite <- (view_touch c id x); reflexivity).
  assert (T : touched d id) by (exact (touch_touched c id)).
  assert (Od : view d id <> PClosed) by (rewrite Vd; exact O).
  split; [|split].
  - unfold keeps. rewrite (done_set d id v T Od H). change (number_done d) with (number_done (touch c id)). rewrite done_touch. cbn. auto.
  - intros x. rewrite (view_set d id v x T Od), Vd. reflexivity.
  - unfold adds. cbn. rewrite E', F. auto.
Qed.
Lemma mk_eta c : mkC (c_max c) (c_cur c) (c_first c) (c_q c) (c_events c ++ []) (c_posted c ++ []) (c_frames c) = c.
Proof. rewrite !app_nil_r. destruct c; reflexivity. Qed.
Lemma closes c id P E fs : view c id <> PClosed ->
  let d := mkC (c_max (touch c id)) (c_cur (touch c id)) (c_first (touch c id)) (c_q (touch c id)) E P fs in
  let c' := p_close d id in
  c_max c' = c_max c /\ c_cur c' = c_cur c /\ number_done c' = number_done c + 1 /\ c_frames c' = fs /\ sets c c' id PClosed /\ c_posted c' = P /\ c_events c' = E.
Proof.
  intros O d. destruct (touch_same c id) as (A & B & D & E' & F).
  assert (Vd : forall x, view d x = view c x) by (intros x; rewrite <- (view_touch c id x); reflexivity).
  assert (T : touched d id) by (exact (touch_touched c id)).
  assert (Od : view d id <> PClosed) by (rewrite Vd; exact O).
  cbn zeta. rewrite (done_close d id T Od). change (number_done d) with (number_done (touch c id)). rewrite done_touch.
  assert (S : sets c (p_close d id) id PClosed) by (intros x; rewrite (view_close d id x T Od), Vd; reflexivity).
  splits; auto; rewrite close_eq; cbn; auto.
Qed.
Lemma kept_kept id es : kept id (kept id es) = kept id es.
Proof. unfold kept. induction es as [|e es IH]; cbn; [reflexivity|]. destruct (ev_removed id e) eqn:E; cbn; rewrite ?E; cbn; rewrite IH; auto. Qed.
Lemma touch_eta c id : touch c id = mkC (c_max (touch c id)) (c_cur (touch c id)) (c_first (touch c id)) (c_q (touch c id)) (c_events c) (c_posted c) (c_frames c).
Proof. destruct (touch_same c id) as (_ & _ & D & E & F). rewrite <- D, <- E, <- F. destruct (touch c id); reflexivity. Qed.

Ltac side := first [exact I|discriminate|intros; discriminate|congruence].
Lemma step_tr c o c' r : p_step c o = Some (c', r) -> tr c o c' r.
Proof.
  destruct o as [id req hs|id sid|id|id|id|id own|id| |id hs i f|id|]; cbn [p_step].
  - intros H. apply some_inj in H. unfold new_push_promise in H. destruct (N.ltb_spec (c_cur c) id) as [L|L]; [injection H as <- <-; apply idle; side|].
    rewrite get_view, view_touch in H. destruct (touch_same c id) as (A & B & D & E & F). destruct (view c id) as [|h|sid evs|sid h|] eqn:V.
    + injection H as <- <-. destruct (keeps_set c id (PPromise hs) [EvPromise id req hs] _ ltac:(congruence) eq_refl eq_refl) as (K1 & K2 & K3). eapply t_promise; eauto.
    + destruct (N.eqb_spec hs h) as [->|]; cbn [negb] in H; injection H as <- <-; [|apply idle_touch; side].
      apply t_again; auto; [unfold keeps; cbn; rewrite A, B, D; splits; auto; exact (done_touch c id)|intros x; exact (view_touch c id x)|unfold adds; cbn; rewrite E, F; auto].
    + injection H as <- <-. rewrite post_all. cbn [post c_max c_cur c_first c_q c_events c_posted c_frames]. rewrite <- !app_assoc. cbn [app].
      destruct (keeps_set c id (PActive sid hs) (EvPromise id req hs :: evs) _ ltac:(congruence) eq_refl eq_refl) as (K1 & K2 & K3). eapply t_late; eauto.
    + destruct (N.eqb_spec hs h) as [->|]; cbn [negb] in H; injection H as <- <-; [|apply idle_touch; side].
      apply t_again; eauto; [unfold keeps; cbn; rewrite A, B, D; splits; auto; exact (done_touch c id)|intros x; exact (view_touch c id x)|unfold adds; cbn; rewrite E, F; auto].
    + injection H as <- <-. apply idle_touch; side.
  - intros H. apply some_inj in H. unfold add_stream in H. destruct (N.eqb_spec (c_max c) 0) as [Z|Z]; [injection H as <- <-; apply idle; side|].
    destruct (N.ltb_spec (c_cur c) id) as [L|L]; [injection H as <- <-; apply idle; side|].
    rewrite get_view, view_touch in H. destruct (view c id) as [|h|sid' evs|sid' h|] eqn:V; injection H as <- <-; try (apply idle_touch; side).
    + destruct (keeps_set c id (POnly sid []) [] _ ltac:(congruence) eq_refl eq_refl) as (K1 & K2 & K3). rewrite mk_eta in *. eapply t_stream; eauto.
    + destruct (keeps_set c id (PActive sid h) [] _ ltac:(congruence) eq_refl eq_refl) as (K1 & K2 & K3). rewrite mk_eta in *. eapply t_second; eauto.
  - intros H. apply some_inj in H. unfold cancel_frame in H. destruct (N.ltb_spec (c_cur c) id) as [L|L]; [injection H as <- <-; apply idle; side|].
    rewrite get_view, view_touch in H.
    assert (G : view c id <> PClosed -> tr c (OCancelFrame id) (push_canceled (remove_events (p_close (touch c id) id) id) id) POk).
    { intros O. destruct (closes c id (c_posted c) (c_events c) (c_frames c) O) as (A & B & D & E & F & G & I). rewrite <- touch_eta in *.
      eapply (t_close c _ id (view c id) _ [EvCanceled id] (kept id (c_events c))); cbn; auto; try congruence.
      f_equal. rewrite I. apply kept_kept. }
    destruct (view c id) as [|h|sid' evs|sid' h|] eqn:V; injection H as <- <-; try (apply G; discriminate).
    + destruct (closes c id (c_posted c) (c_events c) (c_frames c) ltac:(congruence)) as (A & B & D & E & F & G' & I). rewrite <- touch_eta in *.
      eapply (t_close c _ id PInit _ [] (c_events c)); rewrite ?app_nil_r; cbn; auto; try congruence.
    + apply idle_touch; side.
  - unfold stream_done. rewrite get_view, view_touch. destruct (view c id) as [|h|sid' evs|sid' h|] eqn:V; try discriminate. intros H; injection H as <- <-.
    destruct (closes c id (c_posted c) (c_events c) (c_frames c) ltac:(congruence)) as (A & B & D & E & F & G' & I). rewrite <- touch_eta in *.
    eapply (t_close c _ id (PActive sid' h) _ [] (c_events c)); rewrite ?app_nil_r; cbn; auto; try congruence. right. congruence.
  - intros H. apply some_inj in H. unfold app_cancel in H. destruct (N.ltb_spec (c_cur c) id) as [L|L]; [injection H as <- <-; apply idle; side|].
    rewrite get_view, view_touch in H. destruct (touch_same c id) as (A & B & D & E & F). destruct (view c id) as [|h|sid' evs|sid' h|] eqn:V.
    + injection H as <- <-; apply idle_touch; side.
    + injection H as <- <-. destruct (closes c id (c_posted c) (kept id (c_events c)) (c_frames c ++ [FCancel id]) ltac:(congruence)) as (A1 & B1 & D1 & E1 & F1 & G1 & I1).
      assert (Eq : send_frame (remove_events (touch c id) id) (FCancel id) = mkC (c_max (touch c id)) (c_cur (touch c id)) (c_first (touch c id)) (c_q (touch c id)) (kept id (c_events c)) (c_posted c) (c_frames c ++ [FCancel id])).
      { unfold send_frame, remove_events, with_events, kept. cbn. rewrite D, E, F. reflexivity. }
      rewrite Eq. eapply (t_close c _ id (PPromise h) _ [] (kept id (c_events c))); rewrite ?app_nil_r; auto; try congruence; try discriminate; try exact I.
      * rewrite E1. clear. induction (c_frames c) as [|[n|n] fs IH]; cbn; congruence.
      * intros x Hx. injection Hx as <-. auto.
    + injection H as <- <-; apply idle_touch; side.
    + injection H as <- <-. destruct (closes c id (c_posted c) (kept id (c_events c)) (c_frames c) ltac:(congruence)) as (A1 & B1 & D1 & E1 & F1 & G1 & I1).
      assert (Eq : remove_events (touch c id) id = mkC (c_max (touch c id)) (c_cur (touch c id)) (c_first (touch c id)) (c_q (touch c id)) (kept id (c_events c)) (c_posted c) (c_frames c)).
      { unfold remove_events, with_events, kept. cbn. rewrite D, E, F. reflexivity. }
      rewrite Eq. eapply (t_close c _ id (PActive sid' h) _ [] (kept id (c_events c))); rewrite ?app_nil_r; auto; try congruence; try discriminate; try exact I.
      intros x Hx. injection Hx as <-. auto.
    + assert (Hp : has_push (touch c id) id = has_push c id) by (unfold has_push; rewrite F; reflexivity). rewrite Hp in H.
      destruct (has_push c id) eqn:Hh; injection H as <- <-; [|apply idle_touch; side].
      apply t_forget; auto; [unfold keeps; cbn; splits; auto; exact (done_touch c id)|intros x; exact (view_touch c id x)|cbn; rewrite F; reflexivity].
  - unfold stream_reset. rewrite get_view, view_touch. destruct (view c id) as [|h|sid' evs|sid' h|] eqn:V; try discriminate; intros H; apply some_inj in H.
    + injection H as <- <-. destruct (closes c id (c_posted c) (c_events c) (c_frames c) ltac:(congruence)) as (A & B & D & E & F & G' & I). rewrite <- touch_eta in *.
      eapply (t_close c _ id (POnly sid' evs) _ [] (c_events c)); rewrite ?app_nil_r; cbn; auto; try congruence. right; congruence.
    + destruct (closes c id (c_posted c) (c_events c) (c_frames c) ltac:(congruence)) as (A & B & D & E & F & G' & I). rewrite <- touch_eta in *.
      destruct own as [e|]; injection H as <- <-.
      * eapply (t_close c _ id (PActive sid' h) _ [EvReset id e] (kept id (c_events c))); cbn; auto; try congruence; [right; congruence|f_equal; rewrite I; apply kept_kept|].
        right. right. split; [right; eauto|auto].
      * eapply (t_close c _ id (PActive sid' h) _ [EvCanceled id] (kept id (c_events c))); cbn; auto; try congruence; [right; congruence|f_equal; rewrite I; apply kept_kept].
    + injection H as <- <-. apply idle_touch; side.
  - intros H; injection H as <- <-. apply idle_touch; side.
  - unfold maybe_max_push. destruct (N.eqb_spec (c_max c) 0); [intros H; injection H as <- <-; apply idle; side|].
    destruct (N.ltb_spec (c_cur c + 1) (number_done c)); [discriminate|]. destruct (N.leb_spec (c_cur c + 1 - number_done c) (c_max c / 2)); [|intros H1; injection H1 as <- <-; apply idle; side].
    destruct (2 ^ 62 <=? _); [discriminate|]. intros H1; injection H1 as <- <-.
    apply t_max; auto; [intros x; reflexivity|unfold adds; cbn; rewrite !app_nil_r; auto].
  - unfold stream_event. rewrite get_view, view_touch. destruct (touch_same c id) as (A & B & D & E & F). destruct (view c id) as [|h|sid' evs|sid' h|] eqn:V; try discriminate; intros H; apply some_inj in H; injection H as <- <-.
    + destruct (keeps_set c id (POnly sid' (evs ++ [EvHeaders id hs i f])) [] _ ltac:(congruence) eq_refl eq_refl) as (K1 & K2 & K3). rewrite mk_eta in *.
      eapply (t_held c _ id (EvHeaders id hs i f)); eauto; [cbn; apply N.eqb_refl|left; eauto].
    + eapply (t_event c _ id (EvHeaders id hs i f)); eauto; [unfold keeps; cbn; splits; auto; exact (done_touch c id)|cbn; apply N.eqb_refl|left; eauto|intros x; exact (view_touch c id x)|unfold adds; cbn; rewrite E, F; auto].
  - unfold stream_event. rewrite get_view, view_touch. destruct (touch_same c id) as (A & B & D & E & F). destruct (view c id) as [|h|sid' evs|sid' h|] eqn:V; try discriminate; intros H; apply some_inj in H; injection H as <- <-.
    + destruct (keeps_set c id (POnly sid' (evs ++ [EvData id])) [] _ ltac:(congruence) eq_refl eq_refl) as (K1 & K2 & K3). rewrite mk_eta in *.
      eapply (t_held c _ id (EvData id)); eauto; cbn; apply N.eqb_refl.
    + eapply (t_event c _ id (EvData id)); eauto; [unfold keeps; cbn; splits; auto; exact (done_touch c id)|cbn; apply N.eqb_refl|intros x; exact (view_touch c id x)|unfold adds; cbn; rewrite E, F; auto].
  - intros H; injection H as <- <-. apply t_take; auto; [unfold keeps; cbn; auto|intros x; reflexivity].
Qed.
