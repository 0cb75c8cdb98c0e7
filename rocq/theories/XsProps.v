(** Extended CONNECT sessions (C102): what the application is told, and when. *)
From Coq Require Import NArith List Bool Lia.
From Verif Require Import Base Lib XsModel XsSpec XsProofs XsProofs2 XsProofs3 XsProofs4.
Import ListNotations.
Open Scope N_scope.

Lemma reach_of server k os c log : x_run (x_init server k) os = (c, log) -> reach server k log c.
Proof. intros E. exact (run_reach server k os [] _ _ _ (ltac:(constructor)) E). Qed.

(** *** The order of events.  At any place of any history of a WebTransport session: the start is reported once, not by
    a server (which accepted itself), and not after an end; streams and datagrams only between the start and the end. *)
Theorem session_events_in_order : forall server os c log before e after, x_run (x_init server XWebTransport) os = (c, log) ->
  told log = before ++ e :: after ->
  match e with
  | XStart _ => ~ open_since server before /\ ~ exists r, In (XEnd r) before
  | XNewStream _ _ | XDatagram _ => open_since server before /\ ~ exists r, In (XEnd r) before
  | _ => True
  end.
Proof.
  intros server os c log b e a E T. destruct (reach_order true server XWebTransport log c (fun _ => eq_refl) (reach_of _ _ _ _ _ E)) as [F _].
  pose proof (fines_at _ _ _ F _ _ _ T) as H. destruct e; auto.
Qed.
(** Of a CONNECT-UDP session the same for its start; the datagrams are missing. *)
Theorem connect_udp_events_in_order_partial : forall server os c log before e after, x_run (x_init server XConnectUdp) os = (c, log) ->
  told log = before ++ e :: after ->
  match e with
  | XStart _ => ~ open_since server before /\ ~ exists r, In (XEnd r) before
  | XNewStream _ _ => False
  | _ => True
  end.
Proof.
  intros server os c log b e a E T. pose proof (reach_of _ _ _ _ _ E) as R. destruct (reach_order false server XConnectUdp log c ltac:(discriminate) R) as [F _].
  pose proof (fines_at _ _ _ F _ _ _ T) as H. destruct e; auto. exact (udp_no_streams _ _ _ R id readable ltac:(rewrite T; apply in_or_app; right; left; reflexivity)).
Qed.
(** DATAGRAM capsules in the body of a refusal are delivered, to a session that never started and whose end was reported. *)
Theorem connect_udp_events_in_order_refuted : forall st p, st < 200 \/ 300 <= st ->
  told (snd (x_run (x_init false XConnectUdp) [OReceive (Some (mkXH false false (Some st))) [IDatagram (0 :: p)] false])) = [XEnd (RStatus st); XDatagram p].
Proof.
  intros st p H. assert (B : (200 <=? st) && (st <? 300) = false) by (destruct H; [assert (200 <=? st = false) as -> by (apply N.leb_gt; lia); reflexivity|assert (st <? 300 = false) as -> by (apply N.ltb_ge; lia); apply andb_false_r]).
  unfold x_init, x_client, x_run, x_step, x_receive, x_headers. cbn [k_sess x_phase h_fin h_interim h_status x_fin x_items negb orb andb app x_src]. rewrite B. reflexivity.
Qed.

(** *** The end.  If the peer ends a session in one piece and the application leaves it to the peer, then the end is
    reported exactly once, exactly when the session is gone. *)
Theorem session_ends_once_partial : forall server k os c log, x_run (x_init server k) os = (c, log) -> Forall tidy os ->
  (k_sess c <> None /\ ends (told log) = 0%nat) \/ (k_sess c = None /\ ends (told log) = 1%nat).
Proof.
  intros server k os c log E T. rewrite <- (run_asked _ _ _ _ E) in T. pose proof (reach_tidy _ _ _ _ (reach_of _ _ _ _ _ E) T) as G.
  unfold going in G. destruct (k_sess c); [left; split; [discriminate|tauto]|right; auto].
Qed.
Definition x_ok := OReceive (Some (mkXH false false (Some 200))) [] false.
(** In general not: CLOSE_SESSION without the end of the stream can be repeated, and each is reported; *)
Theorem session_ends_once_refuted : forall n, ends (told (snd (x_run (x_init false XWebTransport) (x_ok :: repeat (OReceive None [IClose 0 []] false) n)))) = n.
Proof.
  intros n. set (o := OReceive None [IClose 0 []] false).
  set (c1 := mkXC XWebTransport false (Some (mkXS PActive [] false false false [] [] [] [] false)) [] []).
  set (c2 := mkXC XWebTransport false (Some (mkXS PFinPending [] false false false [] [] [] [] false)) [] []).
  assert (S0 : x_step (x_init false XWebTransport) x_ok = (c1, [XStart 200], ANone)) by reflexivity.
  assert (S1 : x_step c1 o = (c2, [XEnd (RClean 0 [])], ANone)) by reflexivity. assert (S2 : x_step c2 o = (c2, [XEnd (RClean 0 [])], ANone)) by reflexivity.
  assert (L : forall m, ends (told (snd (x_run c2 (repeat o m)))) = m).
  { induction m as [|m IH]; [reflexivity|]. cbn [repeat x_run]. rewrite S2. destruct (x_run c2 (repeat o m)) as [c l]. cbn [snd] in *.
    change (mkXL o [XEnd (RClean 0 [])] ANone :: l) with ([mkXL o [XEnd (RClean 0 [])] ANone] ++ l). rewrite told_app, ends_app, IH. reflexivity. }
  cbn [x_run]. rewrite S0. destruct n as [|n]; [reflexivity|]. cbn [repeat x_run]. rewrite S1. specialize (L n). destruct (x_run c2 (repeat o n)) as [c l]. cbn [snd] in *.
  change (mkXL x_ok [XStart 200] ANone :: mkXL o [XEnd (RClean 0 [])] ANone :: l) with ([mkXL x_ok [XStart 200] ANone; mkXL o [XEnd (RClean 0 [])] ANone] ++ l). rewrite told_app, ends_app, L. reflexivity.
Qed.
(** a refusal that ends the stream in the same step is reported twice; *)
Theorem session_refused_twice_refuted : forall k st, st < 200 \/ 300 <= st ->
  told (snd (x_run (x_init false k) [OReceive (Some (mkXH false false (Some st))) [] true])) = [XEnd (RStatus st); XEnd (RClean 0 [])].
Proof.
  intros k st H. assert (B : (200 <=? st) && (st <? 300) = false) by (destruct H; [assert (200 <=? st = false) as -> by (apply N.leb_gt; lia); reflexivity|assert (st <? 300 = false) as -> by (apply N.ltb_ge; lia); apply andb_false_r]).
  destruct k; unfold x_init, x_client, x_run, x_step, x_receive, x_headers; cbn [k_sess x_phase h_fin h_interim h_status x_fin x_items negb orb andb app x_src]; rewrite B; reflexivity.
Qed.
(** an application that closed the session itself is told of an end that is not the one it gave; *)
Theorem session_end_after_close_refuted : forall k e m,
  told (snd (x_run (x_init false k) [x_ok; OClose e m true false; OReceive None [] true])) = [XStart 200; XEnd (RClean 0 [])].
Proof. intros k e m. destruct k; reflexivity. Qed.
(** and anything after CLOSE_SESSION in the same bytes, even with the end of the stream, leaves the session in place: it is
    over for the application, and the peer's new streams are accepted for it and neither announced nor ever reported closed. *)
Theorem session_never_goes_refuted : forall e m n id, N.testbit id 0 = true ->
  let r := x_run (x_init false XWebTransport) (x_ok :: OReceive None [IClose e m; IOther] true :: ORemote id :: repeat (OSent true) n) in
  k_sess (fst r) <> None /\ In id (k_recv (fst r)) /\ told (snd r) = [XStart 200; XEnd (RClean e m)].
Proof.
  intros e m n id B r. set (c3 := mkXC XWebTransport false (Some (mkXS PFinPending [IOther] true false false [] [] [] [] false)) [id] (if id_bidi id then [id] else [])).
  set (c1 := mkXC XWebTransport false (Some (mkXS PActive [] false false false [] [] [] [] false)) [] []).
  set (c2 := mkXC XWebTransport false (Some (mkXS PFinPending [IOther] true false false [] [] [] [] false)) [] []).
  assert (S1 : x_step (x_init false XWebTransport) x_ok = (c1, [XStart 200], ANone)) by reflexivity.
  assert (S2 : x_step c1 (OReceive None [IClose e m; IOther] true) = (c2, [XEnd (RClean e m)], ANone)) by reflexivity.
  assert (S3 : x_step c2 (ORemote id) = (c3, [], AFlag true)) by reflexivity.
  assert (L : exists l, x_run c3 (repeat (OSent true) n) = (c3, l) /\ told l = []).
  { clear r. induction n as [|n (l & IH1 & IH2)]; [exists []; auto|]. cbn [repeat x_run]. assert (x_step c3 (OSent true) = (c3, [], ANone)) as -> by reflexivity. rewrite IH1. eexists. split; [reflexivity|exact IH2]. }
  destruct L as (l & L1 & L2). assert (Er : r = (c3, [mkXL x_ok [XStart 200] ANone; mkXL (OReceive None [IClose e m; IOther] true) [XEnd (RClean e m)] ANone; mkXL (ORemote id) [] (AFlag true)] ++ l)).
  { unfold r. cbn [x_run]. rewrite S1, S2, S3, L1. reflexivity. }
  rewrite Er. cbn [fst snd]. split; [discriminate|]. split; [left; reflexivity|]. rewrite told_app, L2. reflexivity.
Qed.

(** *** Using it.  Once the application knows that a session is over, what it asks of it is refused; *)
Theorem session_over_is_refused : forall server k os c log l1 o ev a l2, x_run (x_init server k) os = (c, log) -> log = l1 ++ mkXL o ev a :: l2 ->
  over l1 -> o = OSendDatagram \/ (exists id, o = OLocal id) -> a = AInvalidStream /\ ev = [].
Proof.
  intros server k os c log l1 o ev a l2 E T O Ho. destruct (reach_split _ _ _ _ (reach_of _ _ _ _ _ E) _ _ _ T) as (c1 & c2 & R & S). cbn [l_op l_events l_out] in S. unfold x_step in S.
  destruct (k_sess c1) as [s|] eqn:K.
  - apply (reach_over _ _ _ _ R _ K) in O. destruct (x_phase s); try discriminate O; destruct Ho as [->|(id & ->)]; cbn [x_is_active negb] in S; injection S as _ <- <-; auto.
  - destruct Ho as [->|(id & ->)]; injection S as _ <- <-; auto.
Qed.
(** so it is before it is told the start; *)
Theorem session_before_start_is_refused : forall server k os c log l1 o ev a l2, x_run (x_init server k) os = (c, log) -> log = l1 ++ mkXL o ev a :: l2 ->
  ~ open_since server (told l1) -> o = OSendDatagram \/ (exists id, o = OLocal id) -> a = AInvalidStream /\ ev = [].
Proof.
  intros server k os c log l1 o ev a l2 E T O Ho. destruct (reach_split _ _ _ _ (reach_of _ _ _ _ _ E) _ _ _ T) as (c1 & c2 & R & S). cbn [l_op l_events l_out] in S. unfold x_step in S.
  destruct (k_sess c1) as [s|] eqn:K; [|destruct Ho as [->|(id & ->)]; injection S as _ <- <-; auto].
  assert (P : x_is_active (x_phase s) = false).
  { destruct (reach_order false server k l1 c1 ltac:(discriminate) R) as [_ [A _]]. rewrite K, marks_spec in A. cbn [fst snd orb] in A. destruct (x_phase s); try reflexivity. cbn [ap] in A. injection A as A _. destruct O. apply orb_prop in A. destruct A as [A|A]; [left; exact A|right; apply existsb_start; exact A]. }
  destruct Ho as [->|(id & ->)]; rewrite P in S; injection S as _ <- <-; auto.
Qed.
(** and from its start until then, unless the application gave it up, it is granted; a WebTransport session takes streams. *)
Theorem session_open_is_granted : forall server k os c log l1 o ev a l2, x_run (x_init server k) os = (c, log) -> log = l1 ++ mkXL o ev a :: l2 ->
  open_since server (told l1) -> ~ over l1 -> (forall e, ~ In (OCancel e) (asked l1)) ->
  (o = OSendDatagram -> a = AOk) /\ (forall id, o = OLocal id -> k = XWebTransport -> a = AOk) /\
  (forall d, o = ODatagramIn d -> k = XWebTransport -> ev = [XDatagram d]).
Proof.
  intros server k os c log l1 o ev a l2 E T O NO NC. destruct (reach_split _ _ _ _ (reach_of _ _ _ _ _ E) _ _ _ T) as (c1 & c2 & R & S). cbn [l_op l_events l_out] in S. unfold x_step in S.
  destruct (reach_active _ _ _ _ R O NO NC) as (s & K & P). destruct (reach_kind _ _ _ _ R) as [Kk _]. rewrite K in S. splits.
  - intros ->. rewrite P in S. injection S as _ _ <-. reflexivity.
  - intros id -> ->. rewrite P, Kk in S. cbn [x_is_active negb] in S. destruct (x_add_stream _ _ _). injection S as _ _ <-. reflexivity.
  - intros d -> ->. rewrite P, Kk in S. injection S as _ <- _. reflexivity.
Qed.

(** *** The peer's streams.  Each is announced at most once, only if the peer opened it, and all of them while the session
    is open. *)
Theorem session_streams_announced : forall server os c log, x_run (x_init server XWebTransport) os = (c, log) -> Forall (named server) os -> NoDup (opened os) ->
  NoDup (announced (told log)) /\ incl (announced (told log)) (opened os) /\
  (open_since server (told log) -> ~ over log -> (forall e, ~ In (OCancel e) os) -> incl (opened os) (announced (told log))).
Proof.
  intros server os c log E Nm ND. pose proof (reach_of _ _ _ _ _ E) as R. pose proof (run_asked _ _ _ _ E) as A. rewrite <- A in *. destruct (reach_ann _ _ _ R Nm ND) as (I1 & I2 & I3).
  split; [exact I1|]. split; [exact I2|]. intros O NO NC. destruct (reach_active _ _ _ _ R O NO NC) as (s & K & P). rewrite K, P in I3. exact I3.
Qed.
(** A stream that came and went before the session started is announced when it starts, though nothing can be read from it. *)
Theorem session_announces_gone_stream_refuted : forall id, N.testbit id 0 = true ->
  let r := x_run (x_init false XWebTransport) [ORemote id; ORecvGone id; OSendGone id; x_ok] in
  In (XNewStream id true) (told (snd r)) /\ k_recv (fst r) = [] /\ k_send (fst r) = [].
Proof.
  intros id B r. assert (Q : xdel id [id] = []) by (cbn; rewrite N.eqb_refl; reflexivity).
  set (c1 := mkXC XWebTransport false (Some (mkXS PNegotiating [] false false false (if id_bidi id then [id] else []) [id] [id] [] false)) [id] (if id_bidi id then [id] else [])).
  set (c3 := mkXC XWebTransport false (Some (mkXS PNegotiating [] false false false [] [] [id] [] false)) [] []).
  assert (M : id_mine false id = false) by (unfold id_mine; rewrite B; reflexivity).
  assert (S1 : x_step (x_init false XWebTransport) (ORemote id) = (c1, [], AFlag true)).
  { unfold x_step, x_init, x_client, x_add_stream. cbn [k_sess k_kind k_server x_phase x_closing x_send x_recv x_pending]. rewrite M, orb_false_r, orb_true_r. reflexivity. }
  assert (S2 : exists c2, x_step c1 (ORecvGone id) = (c2, [], ANone) /\ x_step c2 (OSendGone id) = (c3, [], ANone)).
  { eexists. split; [reflexivity|]. unfold x_step, x_sets. cbn [k_sess k_kind k_server k_recv k_send x_phase x_items x_fin x_over x_closed x_send x_recv x_pending x_groups x_draining c1]. rewrite Q. destruct (id_bidi id); rewrite ?Q; reflexivity. }
  destruct S2 as (c2 & S2 & S3). assert (S4 : x_step c3 x_ok = (mkXC XWebTransport false (Some (mkXS PActive [] false false false [] [] [] [] false)) [] [], [XStart 200; XNewStream id true], ANone)) by reflexivity.
  unfold r. cbn [x_run]. rewrite S1, S2, S3, S4. cbn. auto.
Qed.
(** *** The end of its streams.  If no stream arrives for a session that is over, then nothing of the session is left
    once it is gone, and each stream it had ended by itself or was reported closed: each part for itself. *)
Theorem session_streams_end_with_it_partial : forall server k os c log, x_run (x_init server k) os = (c, log) -> Forall (named server) os -> no_late log -> k_sess c = None ->
  k_recv c = [] /\ k_send c = [] /\
  (forall id, has_recv log id -> In (ORecvGone id) os \/ In (XRecvClosed id) (told log)) /\
  (forall id, has_send log id -> In (OSendGone id) os \/ In (XSendClosed id) (told log)).
Proof.
  intros server k os c log E Nm NL N. pose proof (reach_of _ _ _ _ _ E) as R. pose proof (run_asked _ _ _ _ E) as A. rewrite <- A in *.
  pose proof (reach_tab _ _ _ _ R Nm NL) as T. unfold tab_ok in T. rewrite N in T. destruct T as [T1 T2]. split; [exact T1|]. split; [exact T2|]. split; intros id H.
  - destruct (proj1 (reach_told _ _ _ _ R id) H) as [F|F]; [rewrite T1 in F; destruct F|exact F].
  - destruct (proj2 (reach_told _ _ _ _ R id) H) as [F|F]; [rewrite T2 in F; destruct F|exact F].
Qed.
(** Otherwise not: a stream that arrives between CLOSE_SESSION and the end of the CONNECT stream stays when the session goes. *)
Theorem session_streams_end_with_it_refuted : forall id e m, N.testbit id 0 = true ->
  let r := x_run (x_init false XWebTransport) [x_ok; OReceive None [IClose e m] false; ORemote id; OReceive None [] true] in
  k_sess (fst r) = None /\ In id (k_recv (fst r)) /\ ~ In (XRecvClosed id) (told (snd r)) /\ ~ In (XNewStream id false) (told (snd r)).
Proof.
  intros id e m B r. assert (Er : k_sess (fst r) = None /\ k_recv (fst r) = [id] /\ told (snd r) = [XStart 200; XEnd (RClean e m); XEnd (RClean 0 [])]) by (splits; reflexivity).
  destruct Er as (-> & -> & ->). split; [reflexivity|]. split; [left; reflexivity|]. split; intros [H|[H|[H|[]]]]; discriminate H.
Qed.
(** *** Draining and groups of streams.  GOAWAY is passed on to an open session the first time only; a group can be
    registered once and used from then on. *)
Theorem session_drains_once : forall server k os c log l1 ev b l2, x_run (x_init server k) os = (c, log) -> log = l1 ++ mkXL ODrain ev (AFlag b) :: l2 ->
  (b = true <-> forall ev' b', ~ In (mkXL ODrain ev' (AFlag b')) l1).
Proof.
  intros server k os c log l1 ev b l2 E T. destruct (reach_split _ _ _ _ (reach_of _ _ _ _ _ E) _ _ _ T) as (c1 & c2 & R & S). cbn [l_op l_events l_out] in S. unfold x_step in S.
  destruct (k_sess c1) as [s|] eqn:K; [|discriminate S]. destruct (k_kind c1); [|discriminate S]. injection S as _ _ <-. destruct (reach_flags _ _ _ _ R _ K) as [D _].
  destruct (x_draining s); cbn [negb]; split.
  - discriminate.
  - intros H. destruct (proj1 D eq_refl) as (e' & b' & H'). destruct (H e' b' H').
  - intros _ e' b' H. discriminate (proj2 D (ex_intro _ e' (ex_intro _ b' H))).
  - auto.
Qed.
Theorem session_groups : forall server k os c log l1 g o ev a l2, x_run (x_init server k) os = (c, log) -> log = l1 ++ mkXL o ev a :: l2 ->
  (o = OUseGroup g -> a = AFlag true -> exists ev', In (mkXL (OGroup g) ev' AOk) l1) /\
  (o = OUseGroup g -> a = AFlag false -> forall ev', ~ In (mkXL (OGroup g) ev' AOk) l1) /\
  (o = OGroup g -> a = AOk -> forall ev', ~ In (mkXL (OGroup g) ev' AOk) l1) /\
  (o = OGroup g -> a = AInvalid -> exists ev', In (mkXL (OGroup g) ev' AOk) l1).
Proof.
  intros server k os c log l1 g o ev a l2 E T. destruct (reach_split _ _ _ _ (reach_of _ _ _ _ _ E) _ _ _ T) as (c1 & c2 & R & S). cbn [l_op l_events l_out] in S. unfold x_step in S.
  destruct (k_sess c1) as [s|] eqn:K; [|splits; intros ->; injection S as _ _ <-; discriminate].
  destruct (reach_flags _ _ _ _ R _ K) as [_ G]. specialize (G g). destruct (reach_kind _ _ _ _ R) as [Kk _].
  assert (UG : k = XConnectUdp -> forall ev', ~ In (mkXL (OGroup g) ev' AOk) l1) by (intros -> ev' H; exact (udp_no_groups _ _ _ R _ _ H)). rewrite Kk in S.
  splits; intros ->.
  - injection S as _ _ <-. intros H. injection H as H. destruct k; [|discriminate H]. apply G, xmem_In. exact H.
  - injection S as _ _ <-. intros H. injection H as H. destruct k; [|apply UG; reflexivity]. intros ev' Hi. assert (xmem g (x_groups s) = true) by (apply xmem_In, G; eauto). congruence.
  - destruct k; [|injection S as _ _ <-; discriminate]. destruct (xmem g (x_groups s)) eqn:M; injection S as _ _ <-; [discriminate|]. intros _ ev' Hi. assert (xmem g (x_groups s) = true) by (apply xmem_In, G; eauto). congruence.
  - destruct k; [|injection S as _ _ <-; discriminate]. destruct (xmem g (x_groups s)) eqn:M; injection S as _ _ <-; [|discriminate]. intros _. apply G, xmem_In. exact M.
Qed.

(** *** A session from its request to its end: two streams of the peer, one before the answer, one of the application, a
    datagram, GOAWAY, and CLOSE_SESSION with the end of the stream. *)
Definition ex_session : list xop :=
  [ORemote 3; OSendDatagram; x_ok; ORemote 1; OLocal 4; ODatagramIn [7; 8]; OSendDatagram; OGroup 5; OGroup 5; OUseGroup 5; OUseGroup 6; ODrain; ODrain; ORecvGone 3;
   OReceive None [IOther; IClose 42 [104; 105]] true; OSendDatagram; ORemote 5].
Example session_hypotheses_met :
  Forall tidy ex_session /\ Forall (named false) ex_session /\ NoDup (opened ex_session) /\ no_late (snd (x_run (x_init false XWebTransport) (removelast ex_session))) /\
  map l_out (snd (x_run (x_init false XWebTransport) ex_session)) =
    [AFlag true; AInvalidStream; ANone; AFlag true; AOk; ANone; AOk; AOk; AInvalid; AFlag true; AFlag false; AFlag true; AFlag false; ANone; ANone; AInvalidStream; AFlag false] /\
  told (snd (x_run (x_init false XWebTransport) ex_session)) =
    [XStart 200; XNewStream 3 true; XNewStream 1 false; XDatagram [7; 8]; XEnd (RClean 42 [104; 105]);
     XRecvClosed 1; XRecvClosed 4; XSendClosed 1; XSendClosed 4] /\
  k_sess (fst (x_run (x_init false XWebTransport) ex_session)) = None.
Proof.
  split; [|split; [|split; [|split; [|split; [|split]]]]].
  - unfold ex_session, x_ok. repeat (apply Forall_cons; [|]); try exact I; cbn [tidy].
    + split; [left; intros e m []|split; [intros (b & st & H & L); injection H as <- <-; lia|intros h' H; injection H as <-; discriminate]].
    + split; [right; exists [IOther], 42, [104; 105]; split; [reflexivity|split; [intros e m [H|[]]; discriminate H|reflexivity]]|split; [intros (b & st & H & _); discriminate H|discriminate]].
    + constructor.
  - repeat constructor.
  - repeat constructor; cbn; intuition discriminate.
  - intros l1 id ev a l2 E. assert (Et : forall x, In x l1 -> (forall r, ~ In (XEnd r) (l_events x)) /\ forall e m ok d, l_op x <> OClose e m ok d).
    { vm_compute in E. repeat (destruct l1 as [|? l1]; cbn [app] in E; [try discriminate E; clear E; intros x Hx; repeat (destruct Hx as [<-|Hx]; [cbn; split; [intuition discriminate|discriminate]|]); destruct Hx|injection E as <- E]). destruct l1; discriminate E. }
    intros [(r & H)|(e & m & ok & d & H)].
    + unfold told in H. apply in_concat in H as (x & Hx & Hr). apply in_map_iff in Hx as (y & <- & Hy). exact (proj1 (Et _ Hy) r Hr).
    + apply in_map_iff in H as (y & Hy & Hi). exact (proj2 (Et _ Hi) _ _ _ _ Hy).
  - vm_compute. reflexivity.
  - vm_compute. reflexivity.
  - vm_compute. reflexivity.
Qed.
Print Assumptions session_events_in_order.
Print Assumptions connect_udp_events_in_order_partial.
Print Assumptions connect_udp_events_in_order_refuted.
Print Assumptions session_ends_once_partial.
Print Assumptions session_ends_once_refuted.
Print Assumptions session_refused_twice_refuted.
Print Assumptions session_end_after_close_refuted.
Print Assumptions session_never_goes_refuted.
Print Assumptions session_over_is_refused.
Print Assumptions session_before_start_is_refused.
Print Assumptions session_open_is_granted.
Print Assumptions session_streams_announced.
Print Assumptions session_announces_gone_stream_refuted.
Print Assumptions session_streams_end_with_it_partial.
Print Assumptions session_streams_end_with_it_refuted.
Print Assumptions session_drains_once.
Print Assumptions session_groups.
