(** Agreeing on WebTransport and CONNECT-UDP (C106). *)
From Coq Require Import NArith List Bool Lia.
From Verif Require Import Base Lib CodecModel HfModel HfSpec HfProofs2 HfProps NgModel NgSpec.
Import ListNotations.
Open Scope N_scope.

(** *** Parameters.  However they are built, WebTransport comes with extended CONNECT, and asking does not panic. *)
Definition h_ok (p : hparams) : Prop := (h_webtransport p = true -> h_connect p = true) /\ h_table p < 2 ^ 30 /\ h_blocked p < 2 ^ 16.
Lemma build_ok : forall os p q, h_ok p -> build p os = Some q -> h_ok q.
Proof.
  induction os as [|o os IH]; intros p q I E; cbn [build] in E; [injection E as <-; exact I|]. destruct (b_step p o) as [p'|] eqn:S; [|discriminate]. apply (IH p'); [|exact E]. clear IH E. destruct I as (I1 & I2 & I3).
  destruct o; cbn [b_step] in S; try (injection S as <-; unfold h_ok; cbn [h_webtransport h_connect h_table h_blocked]).
  - auto.
  - destruct (N.leb_spec n (2 ^ 30 - 1)); [|discriminate]. injection S as <-. unfold h_ok; cbn [h_webtransport h_connect h_table h_blocked]. splits; auto. lia.
  - splits; auto. apply N.mod_lt. discriminate.
  - splits; auto. intros ->. apply orb_true_r.
  - splits; auto. intros H. apply andb_prop in H. tauto.
  - auto.
Qed.
Lemma default_ok : h_ok h_default.
Proof. unfold h_ok. cbn. splits; auto; try discriminate; reflexivity. Qed.
Lemma wt_enabled_ok p : h_ok p -> wt_enabled p = Some (h_webtransport p && (h_datagram p && negb (h_size p =? 0) && h_reliable p)).
Proof. intros [H _]. unfold wt_enabled. destruct (h_webtransport p); [|reflexivity]. rewrite (H eq_refl). reflexivity. Qed.
Lemma wants_spec p : h_ok p -> (wt_enabled p = Some true <-> wants_wt p).
Proof.
  intros H. rewrite (wt_enabled_ok _ H). destruct H as [H _]. unfold wants_wt. split.
  - intros E. injection E as E. apply andb_prop in E as [E1 E]. apply andb_prop in E as [E E2]. apply andb_prop in E as [E3 E4]. apply negb_true_iff, N.eqb_neq in E4. splits; auto. lia.
  - intros (-> & _ & -> & L & ->). destruct (N.eqb_spec (h_size p) 0); [lia|reflexivity].
Qed.
Theorem parameters_sound : forall os p, build h_default os = Some p -> exists b, wt_enabled p = Some b /\ (b = true <-> wants_wt p).
Proof.
  intros os p E. pose proof (build_ok _ _ _ default_ok E) as H. pose proof (wants_spec _ H) as W. rewrite (wt_enabled_ok _ H) in *. eexists. split; [reflexivity|]. rewrite <- W. split; [intros ->; reflexivity|intros X; injection X; auto].
Qed.
(** The last calls decide: switching WebTransport on switches it and CONNECT on, switching CONNECT off switches both off. *)
Theorem parameters_coupled : forall os p, build h_default os = Some p ->
  (forall q, b_step p (BWebTransport true) = Some q -> h_webtransport q = true /\ wants_udp q) /\ (forall q, b_step p (BConnect false) = Some q -> ~ wants_wt q /\ ~ wants_udp q) /\
  (forall q b, b_step p (BWebTransport false) = Some q -> h_connect p = b -> h_connect q = b).
Proof.
  intros os p _. splits; intros q; cbn [b_step].
  - intros E; injection E as <-. unfold wants_udp. cbn. split; [reflexivity|apply orb_true_r].
  - intros E; injection E as <-. unfold wants_wt, wants_udp. cbn. split; [intros (_ & X & _); discriminate X|discriminate].
  - intros b E <-; injection E as <-. cbn. apply orb_false_r.
Qed.

(** *** Two sides, each told what the other put into its SETTINGS frame and transport parameters. *)
Definition sees (me : bool) (mine peer : hparams) (c : nconn) (out : nout) : Prop :=
  exists c0 s w r, n_init me mine = Some c0 /\ h_settings peer = Some s /\ s_encode s = Some w /\ read_settings w = inl r /\ n_step c0 (NSettings r (h_size peer) (h_reliable peer) true) = (c, out).
Lemma sees_spec me mine peer c out : h_ok mine -> h_ok peer -> sees me mine peer c out ->
  (n_enabled (n_wt c) = true <-> wants_wt mine /\ 0 < h_size peer /\ h_reliable peer = true /\ h_datagram peer = true /\ (me = true \/ wants_wt peer)) /\
  (n_enabled (n_udp c) = true <-> wants_udp mine /\ (me = true \/ wants_udp peer)) /\
  out = OutEvents (if me then [] else (if match wt_enabled mine with Some true => true | _ => false end then [Told WebTransport (n_enabled (n_wt c))] else []) ++ (if h_connect mine then [Told ConnectUdp (n_enabled (n_udp c))] else [])).
Proof.
  intros Hm Hp (c0 & s & w & r & I & S & W & R & E). unfold h_settings in S. pose proof (wants_spec _ Hm) as Wm. pose proof (wants_spec _ Hp) as Wp. rewrite (wt_enabled_ok _ Hp) in S, Wp. cbn [obind] in S. injection S as <-.
  destruct (settings_sent _ _ W) as (r' & R' & _ & _ & G1 & G2 & G3 & _). rewrite R in R'. injection R' as <-. cbn [p_wt p_datagram p_connect] in G1, G2, G3.
  unfold n_init in I. rewrite (wt_enabled_ok _ Hm) in I, Wm |- *. cbn [obind] in I. injection I as <-. cbn [n_step n_state n_wt n_udp n_server] in E. unfold wt_met, udp_met in E. rewrite G1, G2, G3 in E. clear G1 G2 G3 R W.
  set (wm := h_webtransport mine && (h_datagram mine && negb (h_size mine =? 0) && h_reliable mine)) in *. set (wp := h_webtransport peer && (h_datagram peer && negb (h_size peer =? 0) && h_reliable peer)) in *. clearbody wm wp.
  assert (Wm' : wm = true <-> wants_wt mine) by (rewrite <- Wm; split; [intros ->; reflexivity|intros X; injection X; auto]). assert (Wp' : wp = true <-> wants_wt peer) by (rewrite <- Wp; split; [intros ->; reflexivity|intros X; injection X; auto]). clear Wm Wp.
  assert (Z : (0 <? h_size peer) = true <-> 0 < h_size peer) by apply N.ltb_lt. destruct (0 <? h_size peer).
  2: { assert (NZ : ~ 0 < h_size peer) by (intros X; apply Z in X; discriminate). unfold wants_udp. cbn [andb] in E.
    destruct me, wm, (h_connect mine), (h_connect peer); cbn in E; injection E as <- <-; cbn; (split; [split; [discriminate|tauto]|split; [|reflexivity]]); intuition congruence. }
  assert (PZ : 0 < h_size peer) by (apply Z; reflexivity). assert (Cp : wants_wt peer -> h_connect peer = true) by (unfold wants_wt; tauto). unfold wants_udp.
  destruct me, wm, wp, (h_connect mine), (h_connect peer), (h_reliable peer), (h_datagram peer); cbn in E; injection E as <- <-; cbn; (split; [|split; [|reflexivity]]); intuition congruence.
Qed.
(** A client has WebTransport exactly when both sides want it, and is told so once; then the server has it too as soon as it
    has the client's SETTINGS. *)
Theorem webtransport_agreed : forall a b client server cc co sc so, build h_default a = Some client -> build h_default b = Some server ->
  sees false client server cc co -> sees true server client sc so ->
  (n_enabled (n_wt cc) = true <-> wants_wt client /\ wants_wt server) /\ (n_enabled (n_wt cc) = true -> n_enabled (n_wt sc) = true).
Proof.
  intros a b client server cc co sc so Ea Eb Sc Ss. pose proof (build_ok _ _ _ default_ok Ea) as Hc. pose proof (build_ok _ _ _ default_ok Eb) as Hs.
  destruct (sees_spec _ _ _ _ _ Hc Hs Sc) as (C1 & _ & _). destruct (sees_spec _ _ _ _ _ Hs Hc Ss) as (S1 & _ & _). rewrite C1, S1. clear C1 S1 Sc Ss. split; [|unfold wants_wt; intuition discriminate]. split; [intuition discriminate|]. intros [W1 W2]. pose proof W2 as (W3 & W4 & W5 & W6 & W7). splits; auto.
Qed.
(** The same for CONNECT-UDP. *)
Theorem connect_udp_agreed : forall a b client server cc co sc so, build h_default a = Some client -> build h_default b = Some server ->
  sees false client server cc co -> sees true server client sc so ->
  (n_enabled (n_udp cc) = true <-> wants_udp client /\ wants_udp server) /\ (n_enabled (n_udp cc) = true -> n_enabled (n_udp sc) = true).
Proof.
  intros a b client server cc co sc so Ea Eb Sc Ss. pose proof (build_ok _ _ _ default_ok Ea) as Hc. pose proof (build_ok _ _ _ default_ok Eb) as Hs.
  destruct (sees_spec _ _ _ _ _ Hc Hs Sc) as (_ & C1 & _). destruct (sees_spec _ _ _ _ _ Hs Hc Ss) as (_ & S1 & _). rewrite C1, S1. intuition discriminate.
Qed.
(** Each side's SETTINGS can be sent and are understood. *)
Lemma varint_some v : v < 2 ^ 62 -> exists b, varint_bytes v = Some b.
Proof. intros L. unfold varint_bytes. repeat match goal with |- exists b, (if ?x then _ else _) = _ => let H := fresh in destruct x eqn:H; [eauto|] end. exfalso. match goal with H : (v <? 2 ^ 62) = false |- _ => apply N.ltb_ge in H; lia | H : (v <=? _) = false |- _ => apply N.leb_gt in H; lia | _ => idtac end. Qed.
Lemma varints_some l : Forall (fun v => v < 2 ^ 62) l -> exists b, varints l = Some b.
Proof. induction 1 as [|v l H _ (b & IH)]; [exists []; reflexivity|]. cbn [varints]. destruct (varint_some _ H) as (a & ->). rewrite IH. eauto. Qed.
Theorem settings_exchanged : forall me a b mine peer, build h_default a = Some mine -> build h_default b = Some peer -> exists c out, sees me mine peer c out.
Proof.
  intros me a b mine peer Ea Eb. pose proof (build_ok _ _ _ default_ok Ea) as Hm. pose proof (build_ok _ _ _ default_ok Eb) as Hp. unfold sees, n_init, h_settings. rewrite (wt_enabled_ok _ Hm), (wt_enabled_ok _ Hp). cbn [obind].
  match goal with |- context [settings_of_params ?p] => assert (W : exists w, s_encode (settings_of_params p) = Some w) end.
  { unfold s_encode. apply varints_some. destruct Hp as (_ & H2 & H3). assert (L : 2 ^ 30 < 2 ^ 62) by reflexivity. assert (L2 : 2 ^ 16 < 2 ^ 62) by reflexivity.
    set (wt := h_webtransport peer && _). clearbody wt. unfold settings_of_params, b2n. cbn [p_table p_blocked p_wt p_datagram p_connect]. destruct wt, (h_datagram peer), (h_connect peer); cbn [map concat s_ids app N.eqb Pos.eqb]; repeat constructor; lia. }
  destruct W as (w & W). destruct (settings_sent _ _ W) as (r & R & _).
  match goal with |- exists c out, exists c0 s w r, Some ?x = _ /\ _ => destruct (n_step x (NSettings r (h_size peer) (h_reliable peer) true)) as [c out] eqn:E; exists c, out, x end. do 3 eexists. splits; eauto.
Qed.

(** With any peer: a client has WebTransport only if the peer's SETTINGS and transport parameters offered all it needs. *)
Theorem feature_conditions : forall bs p me c0 s size rel c out, build h_default bs = Some p -> n_init me p = Some c0 -> n_step c0 (NSettings s size rel true) = (c, out) ->
  (n_enabled (n_wt c) = true <-> wants_wt p /\ 0 < size /\ rel = true /\ s_get s EnableH3Datagram = 1 /\ (me = true \/ s_get s EnableConnect = 1 /\ s_get s EnableWebTransport = 1)) /\
  (n_enabled (n_udp c) = true <-> wants_udp p /\ (me = true \/ s_get s EnableConnect = 1)).
Proof.
  intros bs p me c0 s size rel c out Eb I E. pose proof (build_ok _ _ _ default_ok Eb) as Hp. pose proof (wants_spec _ Hp) as W. unfold n_init in I. rewrite (wt_enabled_ok _ Hp) in I, W. cbn [obind] in I. injection I as <-.
  set (w := h_webtransport p && _) in *. clearbody w. assert (W' : w = true <-> wants_wt p) by (rewrite <- W; split; [intros ->; reflexivity|intros X; injection X; auto]). clear W.
  cbn [n_step n_state n_wt n_udp n_server] in E. unfold wt_met, udp_met in E. unfold wants_udp.
  assert (Z : (0 <? size) = true <-> 0 < size) by apply N.ltb_lt. assert (Z1 : (s_get s EnableH3Datagram =? 1) = true <-> s_get s EnableH3Datagram = 1) by apply N.eqb_eq.
  assert (Z2 : (s_get s EnableConnect =? 1) = true <-> s_get s EnableConnect = 1) by apply N.eqb_eq. assert (Z3 : (s_get s EnableWebTransport =? 1) = true <-> s_get s EnableWebTransport = 1) by apply N.eqb_eq.
  rewrite <- W', <- Z, <- Z1, <- Z2, <- Z3. clear - E. revert E. generalize (0 <? size) (s_get s EnableH3Datagram =? 1) (s_get s EnableConnect =? 1) (s_get s EnableWebTransport =? 1) (h_connect p). intros z z1 z2 z3 k E.
  destruct me, w, k, z, rel, z1, z2, z3; cbn in E; injection E as <- _; cbn; intuition congruence.
Qed.

(** *** Histories, whatever the peer's SETTINGS say and whenever they come. *)
Lemma n_run_app_step c os : forall o, n_run c (o :: os) = let '(c1, x) := n_step c o in match x with OutError => (c1, [(o, x)]) | _ => let '(c2, l) := n_run c1 os in (c2, (o, x) :: l) end.
Proof. reflexivity. Qed.
Definition told_of (f : feature) (l : list nevent) : list bool := flat_map (fun e => match e, f with Told WebTransport b, WebTransport | Told ConnectUdp b, ConnectUdp => [b] | _, _ => [] end) l.
Definition get (f : feature) (c : nconn) : neg := match f with WebTransport => n_wt c | ConnectUdp => n_udp c end.
(** How far a feature is, from what was told. *)
Definition stage (f : feature) (server : bool) (local : bool) (t : list bool) (c : nconn) : Prop :=
  if local then
    (t = [] /\ get f c = NNegotiating (negb server)) \/ (exists b, (t = if server then [] else [b]) /\ get f c = (if b then NNegotiated else NFailed) /\ n_state c = Received)
  else t = [] /\ get f c = NDisabled.
Lemma told_app f a b : told_of f (a ++ b) = told_of f a ++ told_of f b.
Proof. unfold told_of. apply flat_map_app. Qed.
Lemma n_step_stage f server local t c o c' x : n_server c = server -> stage f server local t c -> n_step c o = (c', x) -> x <> OutError ->
  n_server c' = server /\ stage f server local (t ++ told_of f (match x with OutEvents e => e | _ => [] end)) c'.
Proof.
  intros Es S E X. destruct o as [s size rel ok| | |g]; cbn [n_step] in E.
  - destruct (n_state c) eqn:N; [| |injection E as <- <-; congruence].
    + destruct ok; cbn [negb] in E; [|injection E as <- <-; congruence].
      unfold stage in *. destruct local.
      * destruct S as [(-> & G)|(b & _ & _ & N')]; [|congruence].
        destruct (n_negotiate WebTransport (n_wt c) _) as [w e1] eqn:E1. destruct (n_negotiate ConnectUdp (n_udp c) _) as [u e2] eqn:E2. injection E as <- <-. cbn [n_server]. split; [exact Es|]. right. cbn [n_state]. rewrite told_app.
        destruct f; cbn [get n_wt n_udp] in *; rewrite G in *; cbn [n_negotiate] in *.
        { injection E1 as <- <-. assert (T : told_of WebTransport e2 = []) by (destruct (n_udp c) as [|[]| |]; injection E2 as _ <-; reflexivity). rewrite T, app_nil_r. exists (wt_met (n_server c) s size rel). split; [destruct server; reflexivity|auto]. }
        { injection E2 as <- <-. assert (T : told_of ConnectUdp e1 = []) by (destruct (n_wt c) as [|[]| |]; injection E1 as _ <-; reflexivity). rewrite T. exists (udp_met (n_server c) s). split; [destruct server; reflexivity|auto]. }
      * destruct S as (-> & G). destruct (n_negotiate WebTransport (n_wt c) _) as [w e1] eqn:E1. destruct (n_negotiate ConnectUdp (n_udp c) _) as [u e2] eqn:E2. injection E as <- <-. cbn [n_server]. split; [exact Es|]. rewrite told_app.
        destruct f; cbn [get n_wt n_udp] in *; rewrite G in *; cbn [n_negotiate] in *.
        { injection E1 as <- <-. assert (T : told_of WebTransport e2 = []) by (destruct (n_udp c) as [|[]| |]; injection E2 as _ <-; reflexivity). rewrite T. auto. }
        { injection E2 as <- <-. assert (T : told_of ConnectUdp e1 = []) by (destruct (n_wt c) as [|[]| |]; injection E1 as _ <-; reflexivity). rewrite T. auto. }
    + unfold stage in *. destruct local.
      * destruct S as [(-> & G)|(b & _ & _ & N')]; [|congruence].
        destruct (n_negotiate WebTransport (n_wt c) _) as [w e1] eqn:E1. destruct (n_negotiate ConnectUdp (n_udp c) _) as [u e2] eqn:E2. destruct ok; [|injection E as <- <-; congruence]. injection E as <- <-. cbn [n_server]. split; [exact Es|]. right. cbn [n_state]. rewrite told_app.
        destruct f; cbn [get n_wt n_udp] in *; rewrite G in *; cbn [n_negotiate] in *.
        { injection E1 as <- <-. assert (T : told_of WebTransport e2 = []) by (destruct (n_udp c) as [|[]| |]; injection E2 as _ <-; reflexivity). rewrite T, app_nil_r. exists (wt_met (n_server c) s size rel). split; [destruct server; reflexivity|auto]. }
        { injection E2 as <- <-. assert (T : told_of ConnectUdp e1 = []) by (destruct (n_wt c) as [|[]| |]; injection E1 as _ <-; reflexivity). rewrite T. exists (udp_met (n_server c) s). split; [destruct server; reflexivity|auto]. }
      * destruct S as (-> & G). destruct (n_negotiate WebTransport (n_wt c) _) as [w e1] eqn:E1. destruct (n_negotiate ConnectUdp (n_udp c) _) as [u e2] eqn:E2. destruct ok; [|injection E as <- <-; congruence]. injection E as <- <-. cbn [n_server]. split; [exact Es|]. rewrite told_app.
        destruct f; cbn [get n_wt n_udp] in *; rewrite G in *; cbn [n_negotiate] in *.
        { injection E1 as <- <-. assert (T : told_of WebTransport e2 = []) by (destruct (n_udp c) as [|[]| |]; injection E2 as _ <-; reflexivity). rewrite T. auto. }
        { injection E2 as <- <-. assert (T : told_of ConnectUdp e1 = []) by (destruct (n_wt c) as [|[]| |]; injection E1 as _ <-; reflexivity). rewrite T. auto. }
  - injection E as <- <-. cbn [told_of flat_map]. rewrite app_nil_r. split; [exact Es|]. unfold stage in *. destruct local, f; cbn [get n_wt n_udp n_state] in *; auto; (destruct S as [S|(b & S1 & S2 & S3)]; [auto|right; exists b; rewrite S3; auto]).
  - injection E as <- <-. cbn [told_of flat_map]. rewrite app_nil_r. split; [exact Es|]. unfold stage in *. destruct local, f; cbn [get n_wt n_udp n_state] in *; auto; (destruct S as [S|(b & S1 & S2 & S3)]; [auto|right; exists b; rewrite S3; auto]).
  - assert (Ec : c' = c) by congruence. assert (Ex : (match x with OutEvents e => e | _ => [] end) = []) by (destruct (n_enabled _) in E; injection E as _ <-; reflexivity). rewrite Ex, Ec. cbn [told_of flat_map]. rewrite app_nil_r. auto.
Qed.
(** The application of a client is told of each feature it switched on at most once, and of no other; a session of a kind is
    granted exactly if the application was told that it is there. *)
Definition n_wants (f : feature) (p : hparams) : Prop := match f with WebTransport => wants_wt p | ConnectUdp => wants_udp p end.
Theorem features_told : forall bs p os c0 c log f, build h_default bs = Some p -> n_init false p = Some c0 -> n_run c0 os = (c, log) ->
  (length (told_of f (n_told log)) <= 1)%nat /\ (told_of f (n_told log) <> [] -> n_wants f p) /\
  forall l1 x l2, log = l1 ++ (NSession f, x) :: l2 -> x = (if existsb (fun b => b) (told_of f (n_told l1)) then OutGranted else OutUnavailable).
Proof.
  intros bs p os c0 c log f Eb I R. pose proof (build_ok _ _ _ default_ok Eb) as Hp.
  assert (L : exists local, (local = true -> n_wants f p) /\ stage f false local [] c0 /\ n_server c0 = false).
  { unfold n_init in I. pose proof (wants_spec _ Hp) as W. rewrite (wt_enabled_ok _ Hp) in I, W. cbn [obind] in I. injection I as <-. destruct f; cbn [n_wants].
    - exists (h_webtransport p && (h_datagram p && negb (h_size p =? 0) && h_reliable p)). split; [intros X; apply W; rewrite X; reflexivity|]. split; [|reflexivity]. unfold stage. destruct (_ && _); cbn; auto.
    - exists (h_connect p). split; [auto|]. split; [|reflexivity]. unfold stage. destruct (h_connect p); cbn; auto. }
  destruct L as (local & Lw & S & Es).
  assert (G : forall os t c0 c log, n_run c0 os = (c, log) -> n_server c0 = false -> stage f false local t c0 ->
    (length (t ++ told_of f (n_told log)) <= 1)%nat /\ (t ++ told_of f (n_told log) <> [] -> local = true) /\
    forall l1 x l2, log = l1 ++ (NSession f, x) :: l2 -> x = (if existsb (fun b => b) (t ++ told_of f (n_told l1)) then OutGranted else OutUnavailable)).
  { clear. induction os as [|o os IH]; intros t c0 c log R Es S.
    - injection R as <- <-. cbn [n_told flat_map told_of]. rewrite app_nil_r. unfold stage in S. splits.
      + destruct local; [destruct S as [(-> & _)|(b & -> & _)]|destruct S as [-> _]]; cbn; lia.
      + intros H. destruct local; [reflexivity|]. destruct S as [-> _]. congruence.
      + intros l1 x l2 H. destruct l1; discriminate.
    - rewrite n_run_app_step in R. destruct (n_step c0 o) as [c1 x] eqn:E.
      assert (First : forall x0, (NSession f, x0) = (o, x) -> x0 = (if existsb (fun b => b) t then OutGranted else OutUnavailable)).
      { intros x0 H. injection H as <- ->. cbn [n_step] in E. injection E as _ <-. change (match f with WebTransport => n_wt c0 | ConnectUdp => n_udp c0 end) with (get f c0). unfold stage in S. destruct local; [destruct S as [(-> & ->)|(b & -> & -> & _)]; [reflexivity|destruct b; reflexivity]|destruct S as [-> ->]; reflexivity]. }
      assert (Base : (length t <= 1)%nat /\ (t <> [] -> local = true)).
      { unfold stage in S. split; [destruct local; [destruct S as [(-> & _)|(b & -> & _)]|destruct S as [-> _]]; cbn; lia|]. intros H. destruct local; [reflexivity|]. destruct S as [-> _]. congruence. }
      assert (Xc : x = OutError \/ x <> OutError) by (destruct x; [right; discriminate|left; reflexivity|right; discriminate|right; discriminate]). destruct Xc as [->|X].
      + injection R as <- <-. cbn [n_told flat_map snd app told_of]. rewrite app_nil_r. split; [tauto|]. split; [tauto|]. intros l1 x0 l2 H. destruct l1 as [|y l1]; [|injection H as _ H; destruct l1; discriminate].
        cbn [app] in H. injection H as H1 H2 H3. cbn [n_told flat_map told_of]. rewrite app_nil_r. apply First. congruence.
      + destruct (n_step_stage _ _ _ _ _ _ _ _ Es S E X) as [Es1 S1].
        assert (Rr : exists c2 l, n_run c1 os = (c2, l) /\ c = c2 /\ log = (o, x) :: l) by (destruct (n_run c1 os) as [c2 l]; exists c2, l; destruct x; try congruence; injection R as <- <-; auto). destruct Rr as (c2 & l & Rr & -> & ->).
        destruct (IH _ _ _ _ Rr Es1 S1) as (A & B & D). assert (Tc : forall m, t ++ told_of f (n_told ((o, x) :: m)) = (t ++ told_of f (match x with OutEvents e => e | _ => [] end)) ++ told_of f (n_told m)) by (intros m; unfold n_told; cbn [flat_map snd]; rewrite told_app, app_assoc; reflexivity).
        rewrite Tc. split; [exact A|]. split; [exact B|]. intros l1 x0 l2 H. destruct l1 as [|y l1].
        * cbn [app] in H. injection H as H1 H2 H3. cbn [n_told flat_map told_of]. rewrite app_nil_r. apply First. congruence.
        * cbn [app] in H. injection H as <- H. rewrite Tc. exact (D _ _ _ H). }
  destruct (G _ [] _ _ _ R Es S) as (A & B & D). cbn [app] in *. split; [exact A|]. split; [intros H; apply Lw, B, H|exact D].
Qed.
(** After SETTINGS that can be used, each feature switched on was told. *)
Theorem features_told_with_settings : forall bs p os c0 c log f, build h_default bs = Some p -> n_init false p = Some c0 -> n_run c0 os = (c, log) -> n_wants f p ->
  (exists s size rel ok e, In (NSettings s size rel ok, OutEvents e) log) -> length (told_of f (n_told log)) = 1%nat.
Proof.
  intros bs p os c0 c log f Eb I R Wf (s & size & rel & ok & e & H). pose proof (build_ok _ _ _ default_ok Eb) as Hp.
  assert (S : stage f false true [] c0 /\ n_server c0 = false).
  { unfold n_init in I. pose proof (wants_spec _ Hp) as W. rewrite (wt_enabled_ok _ Hp) in I, W. cbn [obind] in I. injection I as <-. split; [|reflexivity]. left. split; [reflexivity|]. destruct f; cbn [n_wants get n_wt n_udp] in *; [apply W in Wf; injection Wf as ->; reflexivity|unfold wants_udp in Wf; rewrite Wf; reflexivity]. }
  destruct S as [S Es].
  assert (G : forall os t c0 c log, n_run c0 os = (c, log) -> n_server c0 = false -> stage f false true t c0 -> In (NSettings s size rel ok, OutEvents e) log \/ n_state c0 = Received /\ length t = 1%nat -> length (t ++ told_of f (n_told log)) = 1%nat).
  { clear. induction os as [|o os IH]; intros t c0 c log R Es S H.
    - injection R as <- <-. cbn [n_told flat_map told_of]. rewrite app_nil_r. destruct H as [[]|H]; tauto.
    - rewrite n_run_app_step in R. destruct (n_step c0 o) as [c1 x] eqn:E.
      assert (Xc : x = OutError \/ x <> OutError) by (destruct x; [right; discriminate|left; reflexivity|right; discriminate|right; discriminate]). destruct Xc as [->|X].
      + injection R as <- <-. cbn [n_told flat_map snd app told_of]. rewrite app_nil_r. destruct H as [[H|[]]|H]; [discriminate H|tauto].
      + destruct (n_step_stage _ _ _ _ _ _ _ _ Es S E X) as [Es1 S1].
        assert (Rr : exists c2 l, n_run c1 os = (c2, l) /\ log = (o, x) :: l) by (destruct (n_run c1 os) as [c2 l]; exists c2, l; destruct x; try congruence; injection R as <- <-; auto). destruct Rr as (c2 & l & Rr & ->).
        replace (t ++ told_of f (n_told ((o, x) :: l))) with ((t ++ told_of f (match x with OutEvents e => e | _ => [] end)) ++ told_of f (n_told l)) by (unfold n_told; cbn [flat_map snd]; rewrite told_app, app_assoc; reflexivity).
        apply (IH _ _ _ _ Rr Es1 S1). assert (Rc : n_state c1 = Received -> length (t ++ told_of f (match x with OutEvents e0 => e0 | _ => [] end)) = 1%nat \/ n_state c1 <> Received \/ exists g, get f c1 = NNegotiating g) by (intros _; unfold stage in S1; destruct S1 as [(-> & G)|(b & -> & _)]; [right; right; eauto|left; reflexivity]).
        assert (Keep : n_state c0 = Received /\ length t = 1%nat -> n_state c1 = Received /\ length (t ++ told_of f (match x with OutEvents e0 => e0 | _ => [] end)) = 1%nat).
        { intros [N Lt]. assert (N1 : n_state c1 = Received) by (destruct o; cbn [n_step] in E; rewrite ?N in E; injection E as <- _; cbn [n_state]; auto). split; [exact N1|]. unfold stage in S1. destruct S1 as [(T & _)|(b & -> & _)]; [|reflexivity]. destruct t; [discriminate Lt|discriminate T]. }
        destruct H as [[H|H]|H]; [|auto|right; apply Keep, H]. injection H as -> ->. right. cbn [n_step] in E.
        assert (N1 : n_state c1 = Received) by (destruct (n_state c0); [destruct (negb ok); [discriminate E|]| |discriminate E]; destruct (n_negotiate _ _ _) as [w e1]; destruct (n_negotiate _ _ _) as [u e2]; destruct ok; try discriminate E; injection E as <- _; reflexivity).
        split; [exact N1|]. destruct (Rc N1) as [L|[L|(g & L)]]; [exact L|congruence|]. exfalso. unfold stage in S. destruct S as [(_ & S)|(b & _ & S & _)].
        * destruct (n_state c0); [destruct (negb ok); [discriminate E|]| |discriminate E]; destruct (n_negotiate WebTransport _ _) as [w e1] eqn:E1; destruct (n_negotiate ConnectUdp _ _) as [u e2] eqn:E2; destruct ok; try discriminate E; injection E as <- _; destruct f; cbn [get n_wt n_udp] in *; rewrite S in *; cbn [n_negotiate] in *; [injection E1 as <- _|injection E2 as <- _|injection E1 as <- _|injection E2 as <- _]; destruct (_ _) in L; discriminate L.
        * destruct (n_state c0); [destruct (negb ok); [discriminate E|]| |discriminate E]; destruct (n_negotiate WebTransport _ _) as [w e1] eqn:E1; destruct (n_negotiate ConnectUdp _ _) as [u e2] eqn:E2; destruct ok; try discriminate E; injection E as <- _; destruct f, b; cbn [get n_wt n_udp] in *; rewrite S in *; cbn [n_negotiate] in *; first [injection E1 as <- _; discriminate L|injection E2 as <- _; discriminate L]. }
  exact (G _ [] _ _ _ R Es S (or_introl H)).
Qed.
(** *** Refuted: "the server grants the session a client that has WebTransport asks for".  The request can arrive before the
    client's SETTINGS (they travel on different streams); the server's application is then refused, whatever it answers. *)
Definition ex_wt : hparams := mkHP 65536 20 true true true 65535 true.
Example ex_built : build h_default [BWebTransport true] = Some ex_wt /\ wants_wt ex_wt.
Proof. unfold wants_wt. cbn. splits; auto; reflexivity. Qed.
Theorem session_granted_refuted : exists c0 s sc, n_init true ex_wt = Some c0 /\ h_settings ex_wt = Some s /\ wants_wt ex_wt /\
  n_run c0 [NSession WebTransport; NSession ConnectUdp; NSettings s 65535 true true; NSession WebTransport; NSession ConnectUdp] =
    (sc, [(NSession WebTransport, OutUnavailable); (NSession ConnectUdp, OutUnavailable); (NSettings s 65535 true true, OutEvents []); (NSession WebTransport, OutGranted); (NSession ConnectUdp, OutGranted)]).
Proof. do 3 eexists. split; [reflexivity|]. split; [reflexivity|]. split; [unfold wants_wt; cbn; splits; auto; reflexivity|]. vm_compute. reflexivity. Qed.
(** *** Refuted: "what a server thinks agreed, the client has too": the server does not look whether the client wants it. *)
Theorem server_agrees_refuted : exists client sc so, build h_default [] = Some client /\ ~ wants_wt client /\ ~ wants_udp client /\ sees true ex_wt client sc so /\ n_enabled (n_wt sc) = true /\ n_enabled (n_udp sc) = true.
Proof.
  exists h_default. do 2 eexists. split; [reflexivity|]. split; [intros (X & _); discriminate X|]. split; [discriminate|]. split; [|split].
  - do 4 eexists. split; [reflexivity|]. split; [reflexivity|]. split; [vm_compute; reflexivity|]. split; [vm_compute; reflexivity|]. vm_compute. reflexivity.
  - reflexivity.
  - reflexivity.
Qed.
Example ex_agreed : exists c, sees false ex_wt ex_wt c (OutEvents [Told WebTransport true; Told ConnectUdp true]) /\ n_enabled (n_wt c) = true.
Proof. eexists. split; [|shelve]. do 4 eexists. split; [reflexivity|]. split; [reflexivity|]. split; [vm_compute; reflexivity|]. split; [vm_compute; reflexivity|]. vm_compute. reflexivity. Unshelve. reflexivity. Qed.
Print Assumptions parameters_sound.
Print Assumptions parameters_coupled.
Print Assumptions webtransport_agreed.
Print Assumptions connect_udp_agreed.
Print Assumptions settings_exchanged.
Print Assumptions feature_conditions.
Print Assumptions features_told.
Print Assumptions features_told_with_settings.
Print Assumptions session_granted_refuted.
Print Assumptions server_agrees_refuted.
