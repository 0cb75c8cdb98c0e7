(** C108: the events of an HTTP/3 server's connection, and requests that stop the server. *)
From Coq Require Import String NArith List Bool Lia.
From Verif Require Import Base Lib HhModel HhSpec HhProofs HhProps HeModel HeSpec HvModel HvSpec.
Import ListNotations.
Open Scope N_scope.
Open Scope list_scope.

Lemma sinfo_eq a b : sinfo_eqb a b = true <-> a = b.
Proof.
  destruct a as [a x], b as [b y]. unfold sinfo_eqb. cbn. rewrite Bool.andb_true_iff, N.eqb_eq. destruct x, y; rewrite ?N.eqb_eq; split; intros; intuition congruence.
Qed.
(** The first header of a name, in a well-formed list, is the only one. *)
Lemma protocol_one hs p p' : wellformed Request hs -> In (str ":protocol", p) hs -> In (str ":protocol", p') hs -> p = p'.
Proof.
  intros [(ps & rs & -> & K & ND & FN) _ _ _ _] A B.
  assert (G : forall v, In (str ":protocol", v) (ps ++ rs) -> In (str ":protocol", v) ps).
  { intros v I. apply in_app_or in I. destruct I as [I|I]; auto. exfalso. destruct (FN _ I 0x3a) as [_ X]; [left; reflexivity|]. apply X. cbn. auto 10. }
  apply G in A, B. clear -A B ND. induction ps as [|[n v] ps IH]; [destruct A|]. cbn in ND. inversion ND; subst.
  destruct A as [A|A], B as [B|B]; try (inversion A; subst); try (inversion B; subst); auto.
  - exfalso. apply H1. apply in_map_iff. exists (str ":protocol", p'). auto.
  - exfalso. apply H1. apply in_map_iff. exists (str ":protocol", p). auto.
Qed.
Lemma find_protocol hs : match find_header hs ":protocol" with Some p => In (str ":protocol", p) hs | None => ~ has hs ":protocol" end.
Proof.
  unfold find_header. destruct (find (fun h : list N * list N => is (fst h) ":protocol") hs) as [[n v]|] eqn:F; cbn [option_map snd].
  - apply find_some in F. destruct F as [I E]. cbn [fst] in E. apply is_eq in E. subst. exact I.
  - intros [v I]. pose proof (find_none _ _ F _ I) as E. vm_compute in E. discriminate.
Qed.
Lemma asks_dec hs : wellformed Request hs -> (exists p, asks p hs) \/ (forall p, ~ asks p hs).
Proof.
  intros W. pose proof (find_protocol hs) as F. destruct (find_header hs ":protocol") as [p|].
  - destruct (contains hs ":method" "CONNECT") eqn:C.
    + left. exists p. split; auto. apply existsb_exists in C. destruct C as ([n v] & I & E). apply andb_true_iff in E. destruct E as [E1 E2]. apply is_eq in E1, E2. cbn in *. subst. exact I.
    + right. intros p' [A _]. assert (contains hs ":method" "CONNECT" = true); [|congruence]. apply existsb_exists. exists (str ":method", str "CONNECT"). auto.
  - right. intros p [_ A]. apply F. exists p. exact A.
Qed.
(** What the program does with a request, in terms of the specification. *)
Lemma request_cases id hs fin q :
  (~ wellformed Request hs /\ request id hs fin q = Some q) \/
  (wellformed Request hs /\ (forall p, ~ asks p hs) /\ request id hs fin q = Some (q ++ [VHeaders (id, None) hs fin])) \/
  (wellformed Request hs /\ asks (str "webtransport") hs /\ request id hs fin q = Some (q ++ [VSession Wt id hs])) \/
  (wellformed Request hs /\ asks (str "connect-udp") hs /\ request id hs fin q = Some (q ++ [VSession Udp id hs])) \/
  (wellformed Request hs /\ (exists p, asks p hs /\ p <> str "webtransport" /\ p <> str "connect-udp") /\ request id hs fin q = None).
Proof.
  unfold request. destruct (accept Request hs) as [[[hs' i] s]|] eqn:A.
  - destruct (headers_handed_on _ _ _ _ _ A) as (W & _ & _ & _ & R). destruct (R eq_refl) as (_ & -> & S). destruct s.
    + destruct (proj1 S eq_refl) as [M P]. unfold new_session. pose proof (find_protocol hs) as F. destruct (find_header hs ":protocol") as [p|]; [|contradiction].
      destruct (is p "webtransport") eqn:E1; [apply is_eq in E1; subst; right; right; left; split; [exact W|split; [split; assumption|reflexivity]]|].
      destruct (is p "connect-udp") eqn:E2; [apply is_eq in E2; subst; right; right; right; left; split; [exact W|split; [split; assumption|reflexivity]]|].
      right; right; right; right. split; [exact W|]. split; [|reflexivity]. exists p. split; [split; assumption|].
      split; intros ->; [assert (X : is (str "webtransport") "webtransport" = true) by (apply is_eq; reflexivity) | assert (X : is (str "connect-udp") "connect-udp" = true) by (apply is_eq; reflexivity)]; congruence.
    + right; left. split; [exact W|]. split; [|reflexivity]. intros p [M P]. assert (X : false = true); [|discriminate]. apply S. split; [exact M|]. exists p. exact P.
  - left. split; [|reflexivity]. intro W. unfold accept in A. apply headers_checked in W. rewrite W in A. discriminate.
Qed.

(** Each well-formed request is told as what it is, and no other. *)
Theorem server_request_told id hs fin q q' : v_step q (JRequest id hs fin) = Some (None, q') ->
  (~ wellformed Request hs /\ q' = q) \/
  (wellformed Request hs /\ (forall p, ~ asks p hs) /\ q' = q ++ [VHeaders (id, None) hs fin]) \/
  (wellformed Request hs /\ asks (str "webtransport") hs /\ q' = q ++ [VSession Wt id hs]) \/
  (wellformed Request hs /\ asks (str "connect-udp") hs /\ q' = q ++ [VSession Udp id hs]).
Proof.
  cbn [v_step]. destruct (request_cases id hs fin q) as [(A & E)|[(A & B & E)|[(A & B & E)|[(A & B & E)|(A & B & E)]]]]; rewrite E; cbn [option_map]; intro H; inversion H; subst; auto 10.
Qed.
Print Assumptions server_request_told.

(** A server stops exactly at a well-formed request for a session of a protocol that is neither WebTransport nor CONNECT-UDP. *)
Theorem server_stops_exactly q o : v_step q o = None <->
  exists id hs fin p, o = JRequest id hs fin /\ wellformed Request hs /\ asks p hs /\ p <> str "webtransport" /\ p <> str "connect-udp".
Proof.
  split.
  - destruct o; cbn [v_step]; try discriminate. destruct (request_cases id hs fin q) as [(A & E)|[(A & B & E)|[(A & B & E)|[(A & B & E)|(A & (p & B & C & D) & E)]]]]; rewrite E; cbn [option_map]; try discriminate.
    intros _. exists id, hs, fin, p. auto.
  - intros (id & hs & fin & p & -> & W & P & N1 & N2). cbn [v_step]. destruct P as [PM PP].
    destruct (request_cases id hs fin q) as [(A & E)|[(A & B & E)|[(A & [_ B] & E)|[(A & [_ B] & E)|(A & B & E)]]]]; rewrite E; try reflexivity; exfalso.
    + exact (A W). + exact (B p (conj PM PP)). + apply N1. exact (protocol_one hs _ _ W PP B). + apply N2. exact (protocol_one hs _ _ W PP B).
Qed.
Print Assumptions server_stops_exactly.

(** So any client can stop a server, whatever went before: one request for a session of another protocol. *)
Definition other_session : list header :=
  [(str ":method", str "CONNECT"); (str ":protocol", str "websocket"); (str ":scheme", str "https"); (str ":authority", str "a"); (str ":path", str "/")].
Theorem server_survives_refuted : wellformed Request other_session /\ forall q id fin, v_step q (JRequest id other_session fin) = None.
Proof. split; [apply headers_checked; vm_compute; reflexivity|]. intros. vm_compute. reflexivity. Qed.
Print Assumptions server_survives_refuted.

Definition vdrops (o : sop) (e : sevent) : bool :=
  match o, e with
  | JRecvClosed si ct, VHeaders x _ _ => match ct with DoneWith => false | _ => sinfo_eqb x si end
  | JRecvClosed si ct, VReadable x => match ct with DoneWith => false | _ => sinfo_eqb x si end
  | _, _ => false
  end.
Lemma vdrops_spec o e : vdrops o e = true <-> vstale o e.
Proof.
  split.
  - destruct o; try discriminate; destruct e; cbn; try discriminate; destruct ct; try discriminate; intro H; apply sinfo_eq in H; subst; constructor; discriminate.
  - intros [si ct hs fin C|si ct C]; cbn; destruct ct; try congruence; apply sinfo_eq; reflexivity.
Qed.
Lemma vfilter_all {A} (l : list A) : filter (fun _ => true) l = l.
Proof. induction l; cbn; congruence. Qed.
Lemma vstep_shape q o x q' : v_step q o = Some (x, q') ->
  exists n, brings o n /\ ((o = JPoll /\ n = [] /\ ((q = [] /\ x = None /\ q' = []) \/ (exists e, x = Some e /\ q = e :: q'))) \/
    (o <> JPoll /\ x = None /\ q' = filter (fun e => negb (vdrops o e)) q ++ n)).
Proof.
  intro H. destruct o; cbn [v_step] in H;
    try (inversion H; subst; eexists; split; [constructor|]; right; split; [congruence|]; split; [reflexivity|]; unfold v_insert; cbn; rewrite vfilter_all, ?app_nil_r; reflexivity).
  - destruct (request_cases id hs fin q) as [(A & E)|[(A & B & E)|[(A & B & E)|[(A & B & E)|(A & B & E)]]]]; rewrite E in H; cbn [option_map] in H; inversion H; subst;
      eexists; (split; [first [apply br_malformed; exact A | apply br_request; assumption | apply br_webtransport; assumption | apply br_udp; assumption]|]);
      right; (split; [congruence|]); (split; [reflexivity|]); cbn; rewrite vfilter_all, ?app_nil_r; reflexivity.
  - assert (F : forall ct, ct <> DoneWith -> filter (fun e => negb (vdrops (JRecvClosed si ct) e)) q = remove_stream si q).
    { intros c C. unfold remove_stream, v_remove. apply filter_ext. intros []; try reflexivity; destruct c; try reflexivity; congruence. }
    destruct ct as [e|e|e|]; inversion H; subst; [exists [VReset si e]|exists [VReset si e]|exists [VReset si e]|exists []]; (split; [constructor|]); right; (split; [congruence|]); (split; [reflexivity|]);
      try (rewrite F by congruence; reflexivity). rewrite app_nil_r. transitivity (filter (fun _ => true) q'); [symmetry; apply vfilter_all|]. apply filter_ext. intros []; reflexivity.
  - destruct ct; cbn in H; inversion H; subst; eexists; (split; [constructor|]); right; (split; [congruence|]); (split; [reflexivity|]); cbn; rewrite vfilter_all, ?app_nil_r; reflexivity.
  - exists []. split; [constructor|]. left. split; [reflexivity|]. split; [reflexivity|]. destruct q as [|e q]; inversion H; subst; [left; auto | right; eauto].
Qed.
Lemma brings_one o n m : brings o n -> brings o m -> n = m.
Proof.
  intros A B. destruct A; inversion B; subst; auto; try contradiction;
    try (exfalso; match goal with H : forall p, ~ asks p ?hs, K : asks ?p ?hs |- _ => exact (H p K) end);
    exfalso; match goal with W : wellformed Request ?hs, X : asks ?a ?hs, Y : asks ?b ?hs |- _ => pose proof (protocol_one hs a b W (proj2 X) (proj2 Y)) as Z; vm_compute in Z; discriminate end.
Qed.
Lemma vcount_filter f e l : vtimes e (filter f l) = if f e then vtimes e l else O.
Proof.
  unfold vtimes. induction l as [|x l IH]; cbn; [destruct (f e); reflexivity|]. destruct (f x) eqn:F; cbn; destruct (sevent_dec x e); subst; rewrite ?F in *; rewrite ?IH; auto; try reflexivity.
Qed.
Lemma vcount_app e a b : vtimes e (a ++ b) = (vtimes e a + vtimes e b)%nat.
Proof. unfold vtimes. apply count_occ_app. Qed.
Lemma vrun_count ops : forall q t q' l e, v_run q ops = Some (t, q') -> vsaid t l -> vnever e t -> (vtimes e q' + vtimes e (vtold t) = vtimes e q + vtimes e l)%nat.
Proof.
  induction ops as [|o ops IH]; intros q t q' l e R SD NS; cbn in R; [inversion R; subst; inversion SD; subst; cbn; reflexivity|].
  destruct (v_step q o) as [[x qa]|] eqn:S; [|discriminate]. destruct (v_run qa ops) as [[ta qb]|] eqn:Ra; [|discriminate]. inversion R; subst. inversion SD; subst.
  specialize (IH qa ta q' l0 e Ra H4 (fun o' x' I => NS o' x' (or_intror I))). pose proof (NS o x (or_introl eq_refl)) as ST.
  destruct (vstep_shape _ _ _ _ S) as (m & BM & C). rewrite (brings_one o n m H3 BM) in *. unfold vtold in *. cbn [flat_map snd]. rewrite !vcount_app.
  destruct C as [(-> & -> & [(-> & -> & ->)|(y & -> & ->)])|(P & -> & ->)].
  - change (vtimes e []) with O in *. lia.
  - change (y :: qa) with ([y] ++ qa). rewrite !vcount_app. change (vtimes e []) with O in *. lia.
  - rewrite vcount_app, vcount_filter in IH. destruct (vdrops o e) eqn:D; [apply vdrops_spec in D; contradiction|]. cbn [negb] in IH. change (vtimes e []) with O in *. lia.
Qed.
Lemma vrun_split t1 : forall q ops t q' t2, v_run q ops = Some (t, q') -> t = t1 ++ t2 -> exists ops2 qm, v_run qm ops2 = Some (t2, q') /\ (t1 = [] -> qm = q).
Proof.
  induction t1 as [|p t1 IH]; intros q ops t q' t2 R E.
  - exists ops, q. cbn in *. subst. auto.
  - destruct ops as [|o ops]; cbn in R; [inversion R; subst; discriminate|]. destruct (v_step q o) as [[x qa]|] eqn:S; [|discriminate]. destruct (v_run qa ops) as [[ta qb]|] eqn:Ra; [|discriminate].
    inversion R; subst. inversion H0; subst. destruct (IH qa ops (t1 ++ t2) q' t2 Ra eq_refl) as (o2 & qm & C & _). exists o2, qm. split; auto. discriminate.
Qed.
(** Every history that did not stop the server said something definite. *)
Lemma vrun_said ops : forall q t q', v_run q ops = Some (t, q') -> exists l, vsaid t l.
Proof.
  induction ops as [|o ops IH]; intros q t q' R; cbn in R; [inversion R; subst; exists []; constructor|].
  destruct (v_step q o) as [[x qa]|] eqn:S; [|discriminate]. destruct (v_run qa ops) as [[ta qb]|] eqn:Ra; [|discriminate]. inversion R; subst.
  destruct (IH _ _ _ Ra) as [l L]. destruct (vstep_shape _ _ _ _ S) as (m & BM & _). exists (m ++ l). constructor; auto.
Qed.

(** An event waits exactly as often as it was said, and not taken, since it was last made stale. *)
Theorem server_events_owed ops t q t1 t2 e : v_run [] ops = Some (t, q) -> t = t1 ++ t2 -> vsince e t1 t2 ->
  exists l, vsaid t2 l /\ (vtimes e q + vtimes e (vtold t2) = vtimes e l)%nat.
Proof.
  intros R E SI. destruct (vrun_split t1 _ _ _ _ _ R E) as (ops2 & qm & R2 & Q0). destruct (vrun_said _ _ _ _ R2) as [l L]. exists l. split; [exact L|].
  destruct SI as [[-> NS] | (o & x & t' & -> & ST & NS)].
  - rewrite (Q0 eq_refl) in R2. exact (vrun_count _ _ _ _ _ _ R2 L NS).
  - destruct ops2 as [|o2 ops2]; cbn in R2; [discriminate|]. destruct (v_step qm o2) as [[x2 qa]|] eqn:S; [|discriminate]. destruct (v_run qa ops2) as [[ta qb]|] eqn:Ra; [|discriminate].
    inversion R2; subst. inversion L; subst. pose proof (vrun_count _ _ _ _ _ _ Ra H4 NS) as D. destruct (vstep_shape _ _ _ _ S) as (m & BM & C). rewrite (brings_one o n m H3 BM) in *.
    apply vdrops_spec in ST. unfold vtold in *. cbn [flat_map snd]. rewrite !vcount_app.
    destruct C as [(-> & _)|(P & -> & ->)]; [discriminate|]. rewrite vcount_app, vcount_filter, ST in D. cbn [negb] in D. change (vtimes e []) with O in *. lia.
Qed.
Print Assumptions server_events_owed.

Lemma vlo_refl {A} (l : list A) : leaves_out l l.
Proof. induction l; constructor; auto. Qed.
Lemma vlo_trans {A} (a b c : list A) : leaves_out a b -> leaves_out b c -> leaves_out a c.
Proof.
  intros H K. revert a H. induction K as [|x b c K IH|x b c K IH]; intros a H; auto.
  - inversion H; subst; constructor; auto.
  - constructor. auto.
Qed.
Lemma vlo_filter {A} f (l m : list A) : leaves_out (filter f l ++ m) (l ++ m).
Proof. induction l as [|x l IH]; cbn; [apply vlo_refl|]. destruct (f x); constructor; exact IH. Qed.
(** What has been taken, followed by what waits, is what was said, in the same order, with some left out. *)
Theorem server_events_in_order ops t q : v_run [] ops = Some (t, q) -> exists l, vsaid t l /\ leaves_out (vtold t ++ q) l.
Proof.
  intro R. destruct (vrun_said _ _ _ _ R) as [l L]. exists l. split; [exact L|]. change l with ([] ++ l). revert R L. generalize (@nil sevent) as q0. revert t l.
  induction ops as [|o ops IH]; intros t l q0 R L; cbn in R; [inversion R; subst; inversion L; subst; cbn; rewrite app_nil_r; apply vlo_refl|].
  destruct (v_step q0 o) as [[x qa]|] eqn:S; [|discriminate]. destruct (v_run qa ops) as [[ta qb]|] eqn:Ra; [|discriminate]. inversion R; subst. inversion L; subst.
  specialize (IH ta l0 qa Ra H4). destruct (vstep_shape _ _ _ _ S) as (m & BM & C). rewrite (brings_one o n m H3 BM) in *. unfold vtold in *. cbn [flat_map snd].
  destruct C as [(-> & -> & [(-> & -> & ->)|(y & -> & ->)])|(P & -> & ->)]; cbn [app] in *; [exact IH | apply lo_keep; exact IH|].
  eapply vlo_trans; [exact IH|]. rewrite <- app_assoc. apply vlo_filter.
Qed.
Print Assumptions server_events_in_order.

Lemma vfilter_impl {A} (f g : A -> bool) l : (forall x, f x = true -> g x = true) -> filter f (filter g l) = filter f l.
Proof. intro H. induction l as [|x l IH]; cbn; auto. destruct (g x) eqn:G; cbn; rewrite IH; auto. destruct (f x) eqn:F; auto. rewrite (H x F) in G. discriminate. Qed.
(** All but headers and readability is told exactly once and in order, also once the connection closes. *)
Theorem server_events_lasting ops t q : v_run [] ops = Some (t, q) ->
  exists l, vsaid t l /\ filter vlasting (vtold t) ++ filter vlasting q = filter vlasting l.
Proof.
  intro R. destruct (vrun_said _ _ _ _ R) as [l L]. exists l. split; [exact L|]. change (filter vlasting l) with (filter vlasting [] ++ filter vlasting l). revert R L. generalize (@nil sevent) as q0. revert t l.
  induction ops as [|o ops IH]; intros t l q0 R L; cbn in R; [inversion R; subst; inversion L; subst; cbn; rewrite app_nil_r; reflexivity|].
  destruct (v_step q0 o) as [[x qa]|] eqn:S; [|discriminate]. destruct (v_run qa ops) as [[ta qb]|] eqn:Ra; [|discriminate]. inversion R; subst. inversion L; subst.
  specialize (IH ta l0 qa Ra H4). destruct (vstep_shape _ _ _ _ S) as (m & BM & C). rewrite (brings_one o n m H3 BM) in *. unfold vtold in *. cbn [flat_map snd]. rewrite !filter_app, <- app_assoc, IH.
  destruct C as [(-> & -> & [(-> & -> & ->)|(y & -> & ->)])|(P & -> & ->)]; cbn [app filter]; [reflexivity | destruct (vlasting y); reflexivity|].
  rewrite filter_app, <- app_assoc. f_equal. apply vfilter_impl. intros y Y. destruct o; cbn; auto; destruct y; cbn in *; auto; discriminate.
Qed.
Print Assumptions server_events_lasting.

Definition a_request : list header := [(str ":method", str "GET"); (str ":scheme", str "https"); (str ":path", str "/")].
(** Not so: that a server hears of the reset of a request only if it heard of the request. *)
Theorem server_reset_known_refuted : exists t q, wellformed Request a_request /\
  v_run [] [JRequest 0 a_request true; JRecvClosed (0, None) (ResetRemote 5); JPoll; JPoll] = Some (t, q) /\ vtold t = [VReset (0, None) 5].
Proof. eexists. eexists. split; [apply headers_checked; vm_compute; reflexivity|]. split; vm_compute; reflexivity. Qed.
Print Assumptions server_reset_known_refuted.
(** Nor that a reset told was the client's: an application that abandons a request is told that it was reset and its answer stopped. *)
Theorem server_own_reset_refuted : exists t q,
  v_run [] [JSendClosed (0, None) (ResetApp 5); JRecvClosed (0, None) (ResetApp 5); JPoll; JPoll] = Some (t, q) /\ vtold t = [VStop (0, None) 5; VReset (0, None) 5].
Proof. eexists. eexists. split; vm_compute; reflexivity. Qed.
Print Assumptions server_own_reset_refuted.
(** Nor that a stream told writable can still be written to, nor that closing is the next thing heard. *)
Theorem server_writable_refuted : exists t q,
  v_run [] [JWritable (0, None); JSendClosed (0, None) (ResetRemote 5); JState (SClosed 1); JPoll; JPoll; JPoll] = Some (t, q) /\
  vtold t = [VWritable (0, None); VStop (0, None) 5; VState (SClosed 1)].
Proof. eexists. eexists. split; vm_compute; reflexivity. Qed.
Print Assumptions server_writable_refuted.

Definition a_session : list header :=
  [(str ":method", str "CONNECT"); (str ":protocol", str "connect-udp"); (str ":scheme", str "https"); (str ":authority", str "a"); (str ":path", str "/")].
Definition demo_hv : list sop := [JState SConn; JRequest 0 a_request false; JReadable (0, None); JPoll; JRequest 4 a_session false; JRecvClosed (0, None) (ResetRemote 7); JDatagram Udp 4 [1]; JRequest 8 [] true].
Example demo_hv_runs : exists t q, v_run [] demo_hv = Some (t, q) /\ vtold t = [VState SConn] /\ q = [VSession Udp 4 a_session; VReset (0, None) 7; VDatagram Udp 4 [1]] /\
  exists t1 t2, t = t1 ++ t2 /\ t1 <> [] /\ vsince (VReadable (0, None)) t1 t2.
Proof.
  eexists. eexists. split; [vm_compute; reflexivity|]. split; [reflexivity|]. split; [reflexivity|].
  eexists [_; _; _; _; _], _. split; [reflexivity|]. split; [congruence|]. right. eexists. eexists. eexists. split; [reflexivity|]. split; [constructor; congruence|].
  intros o x I S. apply vdrops_spec in S. cbn in I. intuition (match goal with H : (_, _) = (_, _) |- _ => inversion H; subst end; discriminate).
Qed.
