From Coq Require Import NArith List Bool Lia.
From Verif Require Import Base Lib XsModel XsSpec.
Import ListNotations.
Open Scope N_scope.

(** *** Histories, from the end. *)
Inductive reach (server : bool) (k : xkind) : list xlog -> xconn -> Prop :=
| reach_init : reach server k [] (x_init server k)
| reach_step log c o c' ev a : reach server k log c -> x_step c o = (c', ev, a) -> reach server k (log ++ [mkXL o ev a]) c'.
Lemma run_reach server k os : forall log0 c0 c log, reach server k log0 c0 -> x_run c0 os = (c, log) -> reach server k (log0 ++ log) c.
Proof.
  induction os as [|o os IH]; intros log0 c0 c log R E; cbn [x_run] in E.
  - injection E as <- <-. rewrite app_nil_r. exact R.
  - destruct (x_step c0 o) as [[c1 ev] a] eqn:S. destruct (x_run c1 os) as [c2 l2] eqn:E2. injection E as <- <-.
    change (mkXL o ev a :: l2) with ([mkXL o ev a] ++ l2). rewrite app_assoc. eapply IH; [|exact E2]. econstructor; eauto.
Qed.
Lemma run_asked os : forall c0 c log, x_run c0 os = (c, log) -> asked log = os.
Proof.
  induction os as [|o os IH]; intros c0 c log E; cbn [x_run] in E; [injection E as <- <-; reflexivity|].
  destruct (x_step c0 o) as [[c1 ev] a]. destruct (x_run c1 os) as [c2 l2] eqn:E2. injection E as <- <-. cbn. f_equal. exact (IH _ _ _ E2).
Qed.
Lemma told_app a b : told (a ++ b) = told a ++ told b.
Proof. unfold told. rewrite map_app, concat_app. reflexivity. Qed.
Lemma told_one o ev a : told [mkXL o ev a] = ev.
Proof. cbn. apply app_nil_r. Qed.
Lemma asked_app a b : asked (a ++ b) = asked a ++ asked b.
Proof. apply map_app. Qed.
(** A point inside a history is itself the end of a history. *)
Lemma reach_split server k log c : reach server k log c -> forall l1 x l2, log = l1 ++ x :: l2 ->
  exists c1 c2, reach server k l1 c1 /\ x_step c1 (l_op x) = (c2, l_events x, l_out x).
Proof.
  induction 1 as [|log c o c' ev a R IH S]; intros l1 x l2 E; [destruct l1; discriminate|].
  destruct l2 as [|y l2] using rev_ind.
  - apply app_inj_tail in E as [-> <-]. exists c, c'. split; [exact R|exact S].
  - clear IHl2. rewrite app_comm_cons, app_assoc in E. apply app_inj_tail in E as [E _]. exact (IH _ _ _ E).
Qed.
Lemma xmem_In x l : xmem x l = true <-> In x l.
Proof. unfold xmem. rewrite existsb_exists. split; [intros (y & H & E); apply N.eqb_eq in E; subst; exact H|intros H; exists x; split; [exact H|apply N.eqb_refl]]. Qed.
Lemma xadd_In x y l : In y (xadd x l) <-> y = x \/ In y l.
Proof.
  unfold xadd. destruct (xmem x l) eqn:E; [apply xmem_In in E; split; [auto|intros [->|H]; auto]|].
  rewrite in_app_iff. cbn. intuition.
Qed.
Lemma xdel_In x y l : In y (xdel x l) <-> y <> x /\ In y l.
Proof. unfold xdel. rewrite filter_In. destruct (N.eqb_spec y x); cbn; intuition congruence. Qed.

(** *** What one step does to the phase and which events it raises. *)
Inductive quiet : xevent -> Prop := q_recv id : quiet (XRecvClosed id) | q_send id : quiet (XSendClosed id).
Inductive late : xevent -> Prop := la_quiet e : quiet e -> late e | la_end r : late (XEnd r).
Inductive lateu : xevent -> Prop := lu_late e : late e -> lateu e | lu_dg d : lateu (XDatagram d).
Definition dgrams (evs : list xevent) : Prop := Forall (fun e => exists d, e = XDatagram d) evs.

Lemma cancel_quiet c s : Forall quiet (snd (x_cancel c s)).
Proof.
  unfold x_cancel. cbn [snd]. apply Forall_app. split; apply Forall_forall; intros e H; apply in_map_iff in H as (i & <- & _); constructor.
Qed.
Lemma cancel_none c s : k_sess (fst (x_cancel c s)) = None /\ k_kind (fst (x_cancel c s)) = k_kind c /\ k_server (fst (x_cancel c s)) = k_server c.
Proof. repeat split. Qed.
Lemma late_of_quiet l : Forall quiet l -> Forall late l.
Proof. intros H. eapply Forall_impl; [|exact H]. intros; constructor; assumption. Qed.
Lemma deliver_dgrams d : dgrams (x_deliver d).
Proof. unfold x_deliver. destruct (x_context d); repeat constructor. eauto. Qed.

(** The phase of what a read returns is the one it was given. *)
Lemma read_phase k its : forall s, match x_read k s its with
  | DFrame i f s' => x_phase s' = x_phase s /\ x_send s' = x_send s /\ x_recv s' = x_recv s /\ x_pending s' = x_pending s /\ x_groups s' = x_groups s /\ x_draining s' = x_draining s
  | DNothing f s' => x_phase s' = x_phase s /\ x_send s' = x_send s /\ x_recv s' = x_recv s /\ x_pending s' = x_pending s /\ x_groups s' = x_groups s /\ x_draining s' = x_draining s
  | DError _ => True end.
Proof.
  induction its as [|i r IH]; intros s; cbn [x_read]; [repeat split|].
  destruct i, k; try exact I; try (repeat split; fail); destruct (x_fin s && x_none r); try (repeat split; fail); apply IH.
Qed.
Definition same_sets (s s' : xsess) : Prop :=
  x_send s' = x_send s /\ x_recv s' = x_recv s /\ x_pending s' = x_pending s /\ x_groups s' = x_groups s /\ x_draining s' = x_draining s.
Lemma same_refl s : same_sets s s.
Proof. repeat split. Qed.
Lemma same_trans a b c : same_sets a b -> same_sets b c -> same_sets a c.
Proof. unfold same_sets. intros (A1 & A2 & A3 & A4 & A5) (B1 & B2 & B3 & B4 & B5). repeat split; congruence. Qed.

Lemma read_udp_spec fuel : forall s o ev, x_read_udp fuel s = (o, ev) ->
  match o with
  | None => dgrams ev
  | Some s' => same_sets s s' /\ ((x_phase s' = x_phase s /\ dgrams ev) \/ (x_phase s' = PDone /\ exists d r, ev = d ++ [XEnd r] /\ dgrams d))
  end.
Proof.
  induction fuel as [|fuel IH]; intros s o ev E; cbn [x_read_udp] in E.
  - injection E as <- <-. split; [apply same_refl|]. left. split; [reflexivity|constructor].
  - pose proof (read_phase XConnectUdp (x_items s) s) as P. destruct (x_read XConnectUdp s (x_items s)) as [i f s'|f s'|s'].
    + destruct P as (P & P2). destruct i as [e m|d| |].
      all: try (destruct f; [injection E as <- <-; split; [exact P2|]; right; split; [reflexivity|]; exists [], (RClean 0 []); split; [reflexivity|constructor]|];
        specialize (IH _ _ _ E); destruct o as [s2|]; [destruct IH as [I1 IH]; split; [exact (same_trans _ _ _ P2 I1)|]; rewrite P in IH; exact IH|exact IH]).
      destruct f.
      * injection E as <- <-. split; [exact P2|]. right. split; [reflexivity|]. exists (x_deliver d), (RClean 0 []). split; [reflexivity|apply deliver_dgrams].
      * destruct (x_read_udp fuel s') as [o' ev'] eqn:E'. injection E as <- <-. specialize (IH _ _ _ E'). pose proof (deliver_dgrams d) as D. destruct o' as [s2|].
        -- destruct IH as [I1 IH]. split; [exact (same_trans _ _ _ P2 I1)|]. destruct IH as [[I2 I3]|(I2 & dd & r & -> & I3)].
           ++ left. split; [congruence|]. apply Forall_app; auto.
           ++ right. split; [exact I2|]. exists (x_deliver d ++ dd), r. split; [apply app_assoc|]. apply Forall_app; auto.
        -- apply Forall_app; auto.
    + destruct P as (P & P2). destruct f; injection E as <- <-; (split; [exact P2|]).
      * right. split; [reflexivity|]. exists [], (RClean 0 []). split; [reflexivity|constructor].
      * left. split; [exact P|constructor].
    + injection E as <- <-. constructor.
Qed.
Lemma read_wt_spec s o ev : x_read_wt s = (o, ev) ->
  match o with
  | None => ev = []
  | Some s' => same_sets s s' /\ ((x_phase s' = x_phase s /\ ev = []) \/ (x_closing (x_phase s') = true /\ exists r, ev = [XEnd r]))
  end.
Proof.
  unfold x_read_wt. pose proof (read_phase XWebTransport (x_items s) s) as P. destruct (x_read XWebTransport s (x_items s)) as [i f s'|f s'|s']; intros E.
  - destruct P as (P & P2). destruct i; try (destruct f; injection E as <- <-; (split; [exact P2|]); [right|left]; (split; [reflexivity || exact P|eauto]); fail).
    injection E as <- <-. split; [destruct f; exact P2|]. right. split; [destruct f; reflexivity|eauto].
  - destruct P as (P & P2). destruct f; injection E as <- <-; (split; [exact P2|]); [right; split; [reflexivity|eauto]|left; split; [exact P|reflexivity]].
  - injection E as <- <-. reflexivity.
Qed.
Lemma read_control_spec k s o ev : x_read_control k s = (o, ev) ->
  match o with
  | None => match k with XWebTransport => ev = [] | XConnectUdp => dgrams ev end
  | Some s' => same_sets s s' /\
      ((x_phase s' = x_phase s /\ match k with XWebTransport => ev = [] | XConnectUdp => dgrams ev end) \/
       (x_closing (x_phase s') = true /\ exists d r, ev = d ++ [XEnd r] /\ match k with XWebTransport => d = [] | XConnectUdp => dgrams d end))
  end.
Proof.
  destruct k; cbn [x_read_control]; intros E.
  - apply read_wt_spec in E. destruct o; [|exact E]. destruct E as [E1 [E2|[E2 (r & ->)]]]; (split; [exact E1|]); [left; exact E2|]. right. split; [exact E2|]. exists [], r. auto.
  - apply read_udp_spec in E. destruct o; [|exact E]. destruct E as [E1 [E2|(E2 & d & r & -> & D)]]; (split; [exact E1|]); [left; exact E2|]. right. rewrite E2. split; [reflexivity|]. eauto.
Qed.
Lemma headers_spec s h s' ev fatal : x_headers s h = (s', ev, fatal) ->
  (s' = s /\ ev = []) \/
  (x_phase s = PNegotiating /\ exists h0, h = Some h0 /\
     ((s' = x_set s PDone /\ exists r, ev = [XEnd r]) \/
      (exists st, h_interim h0 = false /\ h_status h0 = Some st /\ 200 <= st < 300 /\ s' = x_set (x_sets s (x_send s) (x_recv s) []) PActive /\
         ev = XStart st :: map (fun id => XNewStream id true) (x_pending s)))).
Proof.
  unfold x_headers. destruct (x_phase s) eqn:P; [|intros E; injection E as <- <- _; auto..].
  destruct h as [h|]; [|intros E; injection E as <- <- _; auto]. destruct (h_interim h) eqn:Hi.
  - destruct (h_fin h); intros E; injection E as <- <- _; [|auto]. right. split; [reflexivity|]. exists h. split; [reflexivity|]. left. eauto.
  - destruct (h_status h) as [st|] eqn:Hs; [|intros E; injection E as <- <- _; auto].
    destruct ((200 <=? st) && (st <? 300)) eqn:B.
    + apply andb_true_iff in B as [B1%N.leb_le B2%N.ltb_lt]. destruct (h_fin h).
      * intros E; injection E as <- <- _. right. split; [reflexivity|]. exists h. split; [reflexivity|]. left. eauto.
      * cbn [x_announce]. intros E; injection E as <- <- _. right. split; [reflexivity|]. exists h. split; [reflexivity|]. right. exists st. auto.
    + intros E; injection E as <- <- _. right. split; [reflexivity|]. exists h. split; [reflexivity|]. left. eauto.
Qed.
Lemma close_spec s t : x_close s t = [] \/ (x_closing (x_phase s) = false /\ exists r, x_close s t = [XEnd r]).
Proof. unfold x_close. destruct (x_closing (x_phase s)); [auto|]. destruct t; eauto. Qed.

(** *** The order of events: who may come when. *)
Definition mark (st : bool * bool) (e : xevent) : bool * bool := (fst st || is_start e, snd st || is_end e).
(** [strict] asks the rule of datagrams too. *)
Definition fine (strict : bool) (st : bool * bool) (e : xevent) : Prop :=
  match e with
  | XStart _ => fst st = false /\ snd st = false
  | XNewStream _ _ => fst st = true /\ snd st = false
  | XDatagram _ => strict = true -> fst st = true /\ snd st = false
  | _ => True
  end.
Fixpoint fines (strict : bool) (st : bool * bool) (evs : list xevent) : Prop :=
  match evs with [] => True | e :: r => fine strict st e /\ fines strict (mark st e) r end.
Definition marks (st : bool * bool) (evs : list xevent) : bool * bool := fold_left mark evs st.
Lemma fines_app strict a : forall st b, fines strict st (a ++ b) <-> fines strict st a /\ fines strict (marks st a) b.
Proof. induction a as [|e a IH]; intros st b; cbn [fines app marks fold_left]; [tauto|]. rewrite IH. unfold marks. tauto. Qed.
Lemma marks_app st a b : marks st (a ++ b) = marks (marks st a) b.
Proof. apply fold_left_app. Qed.
Lemma marks_spec a : forall st, marks st a = (fst st || existsb is_start a, snd st || existsb is_end a).
Proof.
  induction a as [|e a IH]; intros [x y]; cbn [marks fold_left existsb fst snd]; [rewrite !orb_false_r; reflexivity|].
  change (fold_left mark a (mark (x, y) e)) with (marks (mark (x, y) e) a). rewrite IH. unfold mark. cbn [fst snd]. rewrite !orb_assoc. reflexivity.
Qed.
(** What the phase says about the events so far. *)
Definition ap (p : xphase) (st : bool * bool) : Prop := match p with PNegotiating => st = (false, false) | PActive => st = (true, false) | _ => True end.
Definition agree (strict : bool) (c : xconn) (st : bool * bool) : Prop :=
  match k_sess c with Some s => ap (x_phase s) st | None => True end /\ (strict = true -> k_kind c = XWebTransport).
Definition strict_late (strict : bool) (e : xevent) : Prop := if strict then late e else lateu e.
Lemma late_fines strict evs : Forall (strict_late strict) evs -> forall st, fines strict st evs.
Proof.
  induction 1 as [|e evs H _ IH]; intros st; cbn [fines]; [exact I|]. split; [|apply IH].
  unfold strict_late in H. destruct strict; [destruct H as [e Q|r]; [destruct Q|]; exact I|].
  destruct H as [e L|d]; [destruct L as [e Q|r]; [destruct Q|]; exact I|]. cbn. discriminate.
Qed.
Lemma dgrams_marks st evs : dgrams evs -> marks st evs = st.
Proof. intros H. revert st. induction H as [|e evs (d & ->) _ IH]; intros [x y]; [reflexivity|]. cbn. unfold mark. cbn. rewrite !orb_false_r. apply IH. Qed.
Lemma dgrams_fines evs : dgrams evs -> forall st, fines false st evs.
Proof. induction 1 as [|e evs (d & ->) _ IH]; intros st; cbn; [exact I|]. split; [discriminate|apply IH]. Qed.
Lemma news_fines strict l : fines strict (true, false) (map (fun id => XNewStream id true) l).
Proof. induction l as [|i l IH]; cbn [map fines]; [exact I|]. split; [split; reflexivity|]. exact IH. Qed.
Lemma news_marks l : marks (true, false) (map (fun id => XNewStream id true) l) = (true, false).
Proof. induction l as [|i l IH]; cbn; [reflexivity|]. exact IH. Qed.

Lemma ap_closing p st : x_closing p = true -> ap p st.
Proof. destruct p; cbn; intros; try discriminate; exact I. Qed.
Lemma headers_order strict s h s' ev fatal st : x_headers s h = (s', ev, fatal) -> ap (x_phase s) st -> fines strict st ev /\ ap (x_phase s') (marks st ev).
Proof.
  intros E A. apply headers_spec in E as [[-> ->]|(P & h0 & -> & [(-> & r & ->)|(code & _ & _ & _ & -> & ->)])].
  - split; [exact I|exact A].
  - split; [cbn; auto|exact I].
  - rewrite P in A. cbn in A. subst st. split; [cbn [fines]; split; [cbn; auto|]; apply news_fines|]. cbn [x_set x_phase ap]. cbn [marks fold_left]. exact (news_marks _).
Qed.
Lemma read_order strict k s o ev st : (strict = true -> k = XWebTransport) -> x_read_control k s = (o, ev) -> ap (x_phase s) st ->
  fines strict st ev /\ match o with Some s' => ap (x_phase s') (marks st ev) | None => True end.
Proof.
  intros K E A. apply read_control_spec in E.
  assert (D : forall d, match k with XWebTransport => d = [] | XConnectUdp => dgrams d end -> fines strict st d /\ marks st d = st).
  { intros d H. destruct k; [subst d; split; [exact I|reflexivity]|]. destruct strict; [discriminate (K eq_refl)|]. split; [apply dgrams_fines; exact H|apply dgrams_marks; exact H]. }
  destruct o as [s'|].
  - destruct E as [_ [[P H]|(P & d & r & -> & H)]]; destruct (D _ H) as [D1 D2].
    + split; [exact D1|]. rewrite D2, P. exact A.
    + split; [apply fines_app; split; [exact D1|cbn; auto]|]. apply ap_closing. exact P.
  - split; [apply D; exact E|exact I].
Qed.
Lemma drop_none c s t c' ev : x_drop c s t = (c', ev) -> k_sess c' = None /\ k_kind c' = k_kind c /\ k_server c' = k_server c /\ Forall late ev.
Proof.
  unfold x_drop. pose proof (cancel_none c s) as (A & B & D). pose proof (cancel_quiet c s) as Q. destruct (x_cancel c s) as [c1 ev1]. cbn [fst snd] in *. intros E. injection E as <- <-.
  repeat split; auto. apply Forall_app. split; [apply late_of_quiet; exact Q|]. destruct (close_spec s t) as [->|(_ & r & ->)]; [constructor|]. constructor; [apply la_end|constructor].
Qed.
Lemma late_strict strict l : Forall late l -> Forall (strict_late strict) l.
Proof. intros H. eapply Forall_impl; [|exact H]. intros e L. destruct strict; [exact L|constructor; exact L]. Qed.
Lemma k_put_get c s : k_sess (k_put c s) = Some s /\ k_kind (k_put c s) = k_kind c /\ k_server (k_put c s) = k_server c /\ k_recv (k_put c s) = k_recv c /\ k_send (k_put c s) = k_send c.
Proof. repeat split. Qed.
(** What the session holds before it looks at headers and body: only the stream changes. *)
Definition x_fed (s : xsess) (h : option xheaders) (its : list xitem) (fin : bool) : xsess :=
  let hf := match x_phase s, h with PNegotiating, Some h => h_fin h | _, _ => false end in
  let body := match x_phase s, h with PNegotiating, None => false | PNegotiating, Some h => negb (h_interim h) | _, _ => true end in
  if x_fin s then s else x_src s (if hf || negb body then x_items s else x_items s ++ its) (fin || hf) hf.
Lemma fed_same s h its fin : x_phase (x_fed s h its fin) = x_phase s /\ same_sets s (x_fed s h its fin).
Proof. unfold x_fed. destruct (x_fin s); repeat split. Qed.
Lemma receive_cases c s h its fin c' ev a : x_receive c s h its fin = (c', ev, a) ->
  (exists t, x_phase s = PNegotiating /\ x_drop c s (CLocalError t) = (c', ev)) \/
  exists s1 ev1 fatal, x_headers (x_fed s h its fin) (if x_fin s then None else h) = (s1, ev1, fatal) /\
    ((fatal = true /\ c' = k_put c s1 /\ ev = ev1 /\ a = AFatal) \/
     (exists ev2, x_read_control (k_kind c) s1 = (None, ev2) /\ exists t ev3, x_drop c s1 (CLocalError t) = (c', ev3) /\ ev = ev1 ++ ev2 ++ ev3) \/
     (exists s2 ev2, x_read_control (k_kind c) s1 = (Some s2, ev2) /\
        ((x_phase s2 = PDone /\ c' = fst (x_cancel c s2) /\ ev = ev1 ++ ev2 ++ snd (x_cancel c s2)) \/
         (x_phase s2 <> PDone /\ c' = k_put c s2 /\ ev = ev1 ++ ev2)))).
Proof.
  unfold x_receive, x_fed.
  set (hf := match x_phase s, h with PNegotiating, Some h => h_fin h | _, _ => false end).
  set (body := match x_phase s, h with PNegotiating, None => false | PNegotiating, Some h => negb (h_interim h) | _, _ => true end).
  destruct (x_headers _ _) as [[s1 ev1] fatal] eqn:H.
  destruct (negb body && fin && negb hf) eqn:B.
  - destruct (x_drop c s _) as [c1 e1] eqn:D. intros E. injection E as <- <- _. left. exists GENERAL_PROTOCOL_ERROR. split; [|exact D].
    unfold body in B. destruct (x_phase s); [reflexivity|discriminate B..].
  - intros E. right. exists s1, ev1, fatal. split; [reflexivity|]. destruct fatal; [injection E as <- <- <-; left; auto|].
    destruct (x_read_control (k_kind c) s1) as [[s2|] ev2] eqn:R.
    + right; right. exists s2, ev2. split; [reflexivity|]. destruct (x_phase s2) eqn:P; cbn [x_is_done] in E.
      1-3: injection E as <- <- _; right; split; [discriminate|auto].
      destruct (x_cancel c s2) as [c3 ev3]. injection E as <- <- _. left. auto.
    + right; left. exists ev2. split; [reflexivity|]. destruct (x_drop c s1 _) as [c3 ev3] eqn:D. injection E as <- <- _. eauto.
Qed.
Lemma step_kind c o c' ev a : x_step c o = (c', ev, a) -> k_kind c' = k_kind c /\ k_server c' = k_server c.
Proof.
  unfold x_step. destruct (k_sess c) as [s|].
  - destruct o; intros E.
    + apply receive_cases in E as [(t & _ & D)|(s1 & ev1 & fatal & _ & [(_ & -> & _)|[(ev2 & _ & t & ev3 & D & _)|(s2 & ev2 & _ & [(_ & -> & _)|(_ & -> & _)])]])];
        try (apply drop_none in D; tauto); repeat split.
    + destruct (x_drop c s _) as [c1 e1] eqn:D. injection E as <- _ _. apply drop_none in D. tauto.
    + destruct (x_drop c s _) as [c1 e1] eqn:D. injection E as <- _ _. apply drop_none in D. tauto.
    + destruct (x_drop c s _) as [c1 e1] eqn:D. injection E as <- _ _. apply drop_none in D. tauto.
    + unfold x_close_session in E. destruct ok, done; cbn in E; injection E as <- _ _; split; reflexivity.
    + destruct (_ || _); [|injection E as <- _ _; auto]. unfold x_cancel in E. injection E as <- _ _. split; reflexivity.
    + destruct (x_is_active _); injection E as <- _ _; auto.
    + injection E as <- _ _; auto.
    + destruct (k_kind c) eqn:K; [|injection E as <- _ _; auto]. destruct (x_add_stream _ _ _). injection E as <- _ _. split; auto.
    + destruct (negb _); [injection E as <- _ _; auto|]. destruct (k_kind c) eqn:K; [|injection E as <- _ _; auto]. destruct (x_add_stream _ _ _). injection E as <- _ _. split; auto.
    + injection E as <- _ _; split; reflexivity.
    + injection E as <- _ _; split; reflexivity.
    + destruct (k_kind c) eqn:K; injection E as <- _ _; auto.
    + destruct (k_kind c) eqn:K; [|injection E as <- _ _; auto]. destruct (xmem _ _); injection E as <- _ _; auto.
    + injection E as <- _ _; auto.
  - destruct o; intros E; injection E as <- _ _; auto.
Qed.
Lemma add_phase server s id s' ev : x_add_stream server s id = (s', ev) -> x_phase s' = x_phase s /\
  (ev = [] \/ (x_phase s = PActive /\ id_mine server id = false /\ ev = [XNewStream id false])).
Proof.
  unfold x_add_stream. destruct (x_phase s) eqn:P; cbn [x_closing]; intros E; injection E as <- <-; cbn [x_sets x_phase]; split; auto.
  destruct (id_mine server id); auto.
Qed.
Lemma step_order strict c o c' ev a st : agree strict c st -> x_step c o = (c', ev, a) -> fines strict st ev /\ agree strict c' (marks st ev).
Proof.
  intros [A K] E. pose proof (step_kind _ _ _ _ _ E) as [Kk _].
  assert (G : fines strict st ev /\ match k_sess c' with Some s => ap (x_phase s) (marks st ev) | None => True end).
  2: { destruct G as [G1 G2]. split; [exact G1|]. split; [exact G2|]. rewrite Kk. exact K. }
  clear Kk. unfold x_step in E. destruct (k_sess c) as [s|] eqn:S.
  2: { destruct o; injection E as <- <- _; cbn [fines k_sess]; rewrite ?S; auto. }
  assert (Dr : forall t c1 ev1, x_drop c s t = (c1, ev1) -> fines strict st ev1 /\ match k_sess c1 with Some s => ap (x_phase s) (marks st ev1) | None => True end).
  { intros t c1 ev1 D. apply drop_none in D as (D1 & _ & _ & D2). rewrite D1. split; [|exact I]. apply late_fines. apply late_strict. exact D2. }
  destruct o.
  - apply receive_cases in E as [(t & _ & D)|(s1 & ev1 & fatal & H & E)]; [exact (Dr _ _ _ D)|].
    destruct (fed_same s h its fin) as [F _]. destruct (headers_order strict _ _ _ _ _ st H) as [H1 H2]; [rewrite F; exact A|].
    destruct E as [(_ & -> & -> & _)|[(ev2 & R & t & ev3 & D & ->)|(s2 & ev2 & R & E)]].
    + split; [exact H1|exact H2].
    + destruct (read_order strict _ _ _ _ _ K R H2) as [R1 _]. apply drop_none in D as (D1 & _ & _ & D2). rewrite D1. split; [|exact I].
      rewrite !fines_app. split; [exact H1|]. split; [exact R1|]. apply late_fines, late_strict. exact D2.
    + destruct (read_order strict _ _ _ _ _ K R H2) as [R1 R2]. destruct E as [(_ & -> & ->)|(_ & -> & ->)].
      * split; [|exact I]. rewrite !fines_app. split; [exact H1|]. split; [exact R1|]. apply late_fines, late_strict, late_of_quiet, cancel_quiet.
      * split; [rewrite fines_app; auto|]. rewrite marks_app. exact R2.
  - destruct (x_drop c s _) as [c1 e1] eqn:D. injection E as <- <- _. exact (Dr _ _ _ D).
  - destruct (x_drop c s _) as [c1 e1] eqn:D. injection E as <- <- _. exact (Dr _ _ _ D).
  - destruct (x_drop c s _) as [c1 e1] eqn:D. injection E as <- <- _. exact (Dr _ _ _ D).
  - unfold x_close_session in E. destruct ok; cbn [negb andb] in E; [destruct done|].
    + match type of E with context [x_cancel ?x ?y] => pose proof (cancel_quiet x y) as Q; destruct (x_cancel x y) as [c1 e1] eqn:D end.
      injection E as <- <- _. unfold x_cancel in D. injection D as <- D. cbn [snd] in Q. split; [|exact I]. apply late_fines, late_strict, late_of_quiet. exact Q.
    + injection E as <- <- _. cbn [fines]. split; exact I.
    + injection E as <- <- _. cbn [fines]. split; exact I.
  - destruct (_ || _).
    + pose proof (cancel_quiet c s) as Q. destruct (x_cancel c s) as [c1 e1] eqn:D. injection E as <- <- _. unfold x_cancel in D. injection D as <- D. split; [|exact I]. apply late_fines, late_strict, late_of_quiet. exact Q.
    + injection E as <- <- _. rewrite S. split; [exact I|exact A].
  - destruct (x_phase s) eqn:P; cbn [x_is_active] in E; try (injection E as <- <- _; rewrite S, ?P; split; [exact I|rewrite ?P; exact A]).
    cbn [ap] in A. subst st. injection E as <- <- _. rewrite S, P. cbn [ap]. destruct (k_kind c); [cbn; auto|].
    split; [|apply dgrams_marks, deliver_dgrams]. destruct strict; [discriminate (K eq_refl)|]. apply dgrams_fines, deliver_dgrams.
  - injection E as <- <- _. rewrite S. split; [exact I|exact A].
  - destruct (k_kind c); [|injection E as <- <- _; rewrite S; split; [exact I|exact A]].
    destruct (x_add_stream _ _ _) as [s' ev'] eqn:Ad. apply add_phase in Ad as [P Ad]. injection E as <- <- _. cbn [k_sess]. rewrite P.
    destruct Ad as [->|(P1 & _ & ->)]; [split; [exact I|exact A]|]. rewrite P1 in *. cbn [ap] in *. subst st. cbn. auto.
  - destruct (negb _); [injection E as <- <- _; rewrite S; split; [exact I|exact A]|]. destruct (k_kind c); [|injection E as <- <- _; rewrite S; split; [exact I|exact A]].
    destruct (x_add_stream _ _ _) as [s' ev'] eqn:Ad. apply add_phase in Ad as [P Ad]. injection E as <- <- _. cbn [k_sess]. rewrite P.
    destruct Ad as [->|(P1 & _ & ->)]; [split; [exact I|exact A]|]. rewrite P1 in *. cbn [ap] in *. subst st. cbn. auto.
  - injection E as <- <- _. split; [exact I|exact A].
  - injection E as <- <- _. split; [exact I|exact A].
  - destruct (k_kind c); injection E as <- <- _; [|rewrite S]; (split; [exact I|exact A]).
  - destruct (k_kind c); [|injection E as <- <- _; rewrite S; split; [exact I|exact A]]. destruct (xmem _ _); injection E as <- <- _; [rewrite S|]; (split; [exact I|exact A]).
  - injection E as <- <- _. rewrite S. split; [exact I|exact A].
Qed.
Lemma reach_kind server k log c : reach server k log c -> k_kind c = k /\ k_server c = server.
Proof. induction 1 as [|log c o c' ev a R [I1 I2] S]; [destruct server; auto|]. apply step_kind in S as [-> ->]. auto. Qed.
Lemma reach_order strict server k log c : (strict = true -> k = XWebTransport) -> reach server k log c ->
  fines strict (server, false) (told log) /\ agree strict c (marks (server, false) (told log)).
Proof.
  intros K. induction 1 as [|log c o c' ev a R [I1 I2] S].
  - split; [exact I|]. destruct server; (split; [reflexivity|exact K]).
  - rewrite told_app, told_one. destruct (step_order _ _ _ _ _ _ _ I2 S) as [S1 S2]. rewrite fines_app, marks_app. auto.
Qed.
Lemma existsb_start evs : existsb is_start evs = true <-> exists st, In (XStart st) evs.
Proof. rewrite existsb_exists. split; [intros (e & H & E); destruct e; try discriminate; eauto|intros (st & H); exists (XStart st); auto]. Qed.
Lemma existsb_end evs : existsb is_end evs = true <-> exists r, In (XEnd r) evs.
Proof. rewrite existsb_exists. split; [intros (e & H & E); destruct e; try discriminate; eauto|intros (st & H); exists (XEnd st); auto]. Qed.
Lemma fines_at strict server evs : fines strict (server, false) evs -> forall a e b, evs = a ++ e :: b ->
  match e with
  | XStart _ => ~ open_since server a /\ ~ exists r, In (XEnd r) a
  | XNewStream _ _ => open_since server a /\ ~ exists r, In (XEnd r) a
  | XDatagram _ => strict = true -> open_since server a /\ ~ exists r, In (XEnd r) a
  | _ => True
  end.
Proof.
  intros F a e b ->. apply fines_app in F as [_ F]. cbn [fines] in F. destruct F as [F _]. rewrite marks_spec in F. cbn [fst snd orb] in F. unfold open_since.
  assert (N : existsb is_end a = false -> ~ exists r, In (XEnd r) a) by (intros H; rewrite <- existsb_end, H; discriminate).
  assert (O : server || existsb is_start a = true -> server = true \/ exists st, In (XStart st) a) by (rewrite orb_true_iff, existsb_start; auto).
  destruct e; cbn [fine fst snd] in F; try exact I.
  - destruct F as [F1 F2]. split; [|auto]. apply orb_false_iff in F1 as [-> F1]. rewrite <- existsb_start, F1. intros [H|H]; discriminate.
  - destruct F as [F1 F2]. auto.
  - intros Hs. destruct (F Hs) as [F1 F2]. auto.
Qed.

(** *** Once over, over. *)
Lemma add_over_told log o ev a r : In (XEnd r) (told (log ++ [mkXL o ev a])) <-> In (XEnd r) (told log) \/ In (XEnd r) ev.
Proof. rewrite told_app, told_one, in_app_iff. tauto. Qed.
(** A step leaves a closing session closing or gone; a step that reports the end, or closes, makes it so; a session in the tables
    that is closing was reported over or closed. *)
Lemma step_closing c o c' ev a : x_step c o = (c', ev, a) ->
  (forall s', k_sess c' = Some s' -> x_closing (x_phase s') = false ->
     exists s, k_sess c = Some s /\ x_closing (x_phase s) = false /\ (forall r, ~ In (XEnd r) ev) /\ forall e m ok d, o <> OClose e m ok d) /\
  (forall s', k_sess c' = Some s' -> x_closing (x_phase s') = true ->
     (exists s, k_sess c = Some s /\ x_closing (x_phase s) = true) \/ (exists r, In (XEnd r) ev) \/ exists e m ok d, o = OClose e m ok d).
Proof.
  unfold x_step. destruct (k_sess c) as [s|] eqn:S.
  2: { destruct o; intros E; injection E as <- <- _; cbn [k_sess]; rewrite ?S; split; intros s' H; discriminate H. }
  assert (Same : forall c1, k_sess c1 = k_sess c -> forall ev1, (forall r, ~ In (XEnd r) ev1) -> (forall e m ok d, o <> OClose e m ok d) ->
    (forall s', k_sess c1 = Some s' -> x_closing (x_phase s') = false -> exists s0, Some s = Some s0 /\ x_closing (x_phase s0) = false /\ (forall r, ~ In (XEnd r) ev1) /\ forall e m ok d, o <> OClose e m ok d) /\
    (forall s', k_sess c1 = Some s' -> x_closing (x_phase s') = true -> (exists s0, Some s = Some s0 /\ x_closing (x_phase s0) = true) \/ (exists r, In (XEnd r) ev1) \/ exists e m ok d, o = OClose e m ok d)).
  { intros c1 Hc ev1 He Ho. rewrite Hc, S. split; intros s' H; injection H as <-; intros P; [exists s; auto|left; exists s; auto]. }
  assert (Phase : forall c1 s1, k_sess c1 = Some s1 -> x_phase s1 = x_phase s -> forall ev1, (forall r, ~ In (XEnd r) ev1) -> (forall e m ok d, o <> OClose e m ok d) ->
    (forall s', k_sess c1 = Some s' -> x_closing (x_phase s') = false -> exists s0, Some s = Some s0 /\ x_closing (x_phase s0) = false /\ (forall r, ~ In (XEnd r) ev1) /\ forall e m ok d, o <> OClose e m ok d) /\
    (forall s', k_sess c1 = Some s' -> x_closing (x_phase s') = true -> (exists s0, Some s = Some s0 /\ x_closing (x_phase s0) = true) \/ (exists r, In (XEnd r) ev1) \/ exists e m ok d, o = OClose e m ok d)).
  { intros c1 s1 Hc Hp ev1 He Ho. rewrite Hc. split; intros s' H; injection H as <-; rewrite Hp; intros P; [exists s; auto|left; exists s; auto]. }
  assert (Gone : forall c1 ev1, k_sess c1 = None ->
    (forall s', k_sess c1 = Some s' -> x_closing (x_phase s') = false -> exists s0, Some s = Some s0 /\ x_closing (x_phase s0) = false /\ (forall r, ~ In (XEnd r) ev1) /\ forall e m ok d, o <> OClose e m ok d) /\
    (forall s', k_sess c1 = Some s' -> x_closing (x_phase s') = true -> (exists s0, Some s = Some s0 /\ x_closing (x_phase s0) = true) \/ (exists r, In (XEnd r) ev1) \/ exists e m ok d, o = OClose e m ok d)).
  { intros c1 ev1 Hc. rewrite Hc. split; intros s' H; discriminate H. }
  assert (Nil : forall r, ~ In (XEnd r) []) by (intros r []).
  destruct o; intros E.
  - apply receive_cases in E as [(t & _ & D)|(s1 & ev1 & fatal & H & E)]; [apply Gone; apply drop_none in D; tauto|].
    destruct (fed_same s h its fin) as [F _]. apply headers_spec in H.
    assert (H' : (x_phase s1 = x_phase s /\ ev1 = []) \/ (x_phase s1 = PDone /\ exists r, ev1 = [XEnd r]) \/ (x_phase s = PNegotiating /\ x_phase s1 = PActive /\ forall r, ~ In (XEnd r) ev1)).
    { destruct H as [[-> ->]|(P & h0 & _ & [(-> & r & ->)|(st & _ & _ & _ & -> & ->)])]; [left; auto|right; left; eauto|right; right]. rewrite F in P. split; [exact P|]. split; [reflexivity|].
      intros r [H|H]; [discriminate|]. apply in_map_iff in H as (i & H & _). discriminate. }
    clear H. destruct E as [(_ & -> & -> & _)|[(ev2 & R & t & ev3 & D & ->)|(s2 & ev2 & R & [(_ & -> & ->)|(_ & -> & ->)])]].
    + cbn [k_put k_sess]. destruct H' as [(P & ->)|[(P & r & ->)|(P1 & P & N)]].
      * apply (Phase (k_put c s1) s1 eq_refl P []); [exact Nil|discriminate].
      * split; intros s' Q; injection Q as <-; rewrite P; intros Q; [discriminate|]. right; left. exists r. left. reflexivity.
      * split; intros s' Q; injection Q as <-; rewrite P; intros Q; [|discriminate]. exists s. rewrite P1. split; [reflexivity|]. split; [reflexivity|]. split; [exact N|discriminate].
    + apply Gone. apply drop_none in D. tauto.
    + apply Gone. reflexivity.
    + cbn [k_put k_sess]. apply read_control_spec in R as [_ R].
      assert (Dg : forall d, match k_kind c with XWebTransport => d = [] | XConnectUdp => dgrams d end -> forall r, ~ In (XEnd r) d).
      { intros d Hd r Hi. destruct (k_kind c); [subst d; destruct Hi|]. apply Forall_forall with (x := XEnd r) in Hd; [|exact Hi]. destruct Hd; discriminate. }
      destruct R as [[P2 D2]|(P2 & d & r & -> & D2)].
      * pose proof (Dg _ D2) as N2. destruct H' as [(P & ->)|[(P & r & ->)|(P1 & P & N)]].
        -- apply (Phase (k_put c s2) s2 eq_refl (eq_trans P2 P) ([] ++ ev2)); [exact N2|discriminate].
        -- split; intros s' Q; injection Q as <-; rewrite P2, P; intros Q; [discriminate|]. right; left. exists r. left. reflexivity.
        -- split; intros s' Q; injection Q as <-; rewrite P2, P; intros Q; [|discriminate]. exists s. rewrite P1. split; [reflexivity|]. split; [reflexivity|]. split; [|discriminate].
           intros r Hi. apply in_app_or in Hi as [Hi|Hi]; [exact (N _ Hi)|exact (N2 _ Hi)].
      * split; intros s' Q; injection Q as <-; rewrite P2; intros Q; [discriminate|]. right; left. exists r. apply in_or_app; right. apply in_or_app; right. left. reflexivity.
  - destruct (x_drop c s _) as [c1 e1] eqn:D. injection E as <- <- _. apply Gone. apply drop_none in D. tauto.
  - destruct (x_drop c s _) as [c1 e1] eqn:D. injection E as <- <- _. apply Gone. apply drop_none in D. tauto.
  - destruct (x_drop c s _) as [c1 e1] eqn:D. injection E as <- <- _. apply Gone. apply drop_none in D. tauto.
  - unfold x_close_session in E. destruct ok; cbn [negb andb] in E; [destruct done|].
    + unfold x_cancel in E. injection E as <- <- _. apply Gone. reflexivity.
    + injection E as <- <- _. cbn [k_put k_sess]. split; intros s' Q; injection Q as <-; cbn; intros Q; [discriminate|]. right; right. eauto.
    + injection E as <- <- _. cbn [k_put k_sess]. split; intros s' Q; injection Q as <-; cbn; intros Q; [discriminate|]. right; right. eauto.
  - destruct (_ || _); [unfold x_cancel in E; injection E as <- <- _; apply Gone; reflexivity|]. injection E as <- <- _. apply Same; [reflexivity|exact Nil|discriminate].
  - assert (Hd : forall e, In e ev -> exists d0, e = XDatagram d0).
    { destruct (x_is_active _); injection E as <- <- _; [|intros e []]. destruct (k_kind c); [intros e [<-|[]]; eauto|]. apply Forall_forall. apply deliver_dgrams. }
    destruct (x_is_active _); injection E as <- <- _; apply Same; try reflexivity; try discriminate; intros r Hi; destruct (Hd _ Hi); discriminate.
  - injection E as <- <- _. apply Same; [reflexivity|exact Nil|discriminate].
  - destruct (k_kind c); [|injection E as <- <- _; apply Same; [reflexivity|exact Nil|discriminate]].
    destruct (x_add_stream _ _ _) as [s' ev'] eqn:Ad. apply add_phase in Ad as [P Ad]. injection E as <- <- _. eapply Phase; [reflexivity|exact P| |discriminate].
    destruct Ad as [->|(_ & _ & ->)]; [exact Nil|]. intros r [H|[]]. discriminate.
  - destruct (negb _); [injection E as <- <- _; apply Same; [reflexivity|exact Nil|discriminate]|]. destruct (k_kind c); [|injection E as <- <- _; apply Same; [reflexivity|exact Nil|discriminate]].
    destruct (x_add_stream _ _ _) as [s' ev'] eqn:Ad. apply add_phase in Ad as [P Ad]. injection E as <- <- _. eapply Phase; [reflexivity|exact P| |discriminate].
    destruct Ad as [->|(_ & _ & ->)]; [exact Nil|]. intros r [H|[]]. discriminate.
  - injection E as <- <- _. eapply Phase; [reflexivity|reflexivity|exact Nil|discriminate].
  - injection E as <- <- _. eapply Phase; [reflexivity|reflexivity|exact Nil|discriminate].
  - destruct (k_kind c); injection E as <- <- _; [eapply Phase; [reflexivity|reflexivity|exact Nil|discriminate]|apply Same; [reflexivity|exact Nil|discriminate]].
  - destruct (k_kind c); [|injection E as <- <- _; apply Same; [reflexivity|exact Nil|discriminate]].
    destruct (xmem _ _); injection E as <- <- _; [apply Same; [reflexivity|exact Nil|discriminate]|eapply Phase; [reflexivity|reflexivity|exact Nil|discriminate]].
  - injection E as <- <- _. apply Same; [reflexivity|exact Nil|discriminate].
Qed.
Lemma over_snoc log o ev a : over (log ++ [mkXL o ev a]) <-> over log \/ (exists r, In (XEnd r) ev) \/ exists e m ok d, o = OClose e m ok d.
Proof.
  unfold over. setoid_rewrite add_over_told. setoid_rewrite asked_app. setoid_rewrite in_app_iff. cbn [asked map l_op In]. split.
  - intros [(r & [H|H])|(e & m & ok & d & [H|[H|[]]])]; [left; left; eauto|right; left; eauto|left; right; eauto 6|right; right; subst; eauto 6].
  - intros [[(r & H)|(e & m & ok & d & H)]|[(r & H)|(e & m & ok & d & ->)]]; [left; eauto|right; exists e, m, ok, d; auto|left; eauto|right; exists e, m, ok, d; auto].
Qed.
Lemma reach_over server k log c : reach server k log c -> forall s, k_sess c = Some s -> (x_closing (x_phase s) = true <-> over log).
Proof.
  induction 1 as [|log c o c' ev a R IH S]; intros s E.
  - split; [destruct server; injection E as <-; discriminate|]. intros [(r & [])|(e & m & ok & d & [])].
  - apply step_closing in S as [S1 S2]. rewrite over_snoc. split.
    + intros P. destruct (S2 _ E P) as [(s0 & E0 & P0)|H]; [left; apply (IH _ E0); exact P0|right; exact H].
    + intros H. destruct (x_closing (x_phase s)) eqn:P; [reflexivity|]. destruct (S1 _ E P) as (s0 & E0 & P0 & N & O). exfalso.
      destruct H as [H|[(r & H)|(e & m & ok & d & H)]]; [apply (IH _ E0) in H; congruence|exact (N _ H)|exact (O _ _ _ _ H)].
Qed.
