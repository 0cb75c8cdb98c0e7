(** C34: datagrams; C47: saved packets. *)
From Verif Require Import Base Lib DgramModel.

(** ** Specification *)
Definition dgram_of (f : fate) : dgram := match f with Placed d _ | TooBig d | QueueFull d => d end.
(** The datagrams accepted in a history, in order. *)
Fixpoint accepted (q : dgs) (ops : list dop) : list dgram :=
  match ops with
  | [] => []
  | o :: ops' => (match o with DAdd d => match dgs_add d q with Some _ => [d] | None => [] end | _ => [] end) ++ accepted (fst (dg_step q o)) ops'
  end.
(** The bytes a frame takes (RFC 9221): type, length if any, data. *)
Definition frame_size (f : fate) : N := match f with Placed d true => 1 + vlen (dg_len d) + dg_len d | Placed d false => 1 + dg_len d | _ => 0 end.
Definition total (l : list fate) : N := fold_right N.add 0 (map frame_size l).
(** ** Proofs *)
Lemma write_fates : forall l rem empty, let '(r, f) := dg_write rem empty l in map dgram_of f ++ r = l.
Proof.
  induction l as [|d l IH]; intros rem empty; cbn; [reflexivity|]. destruct (_ <=? rem).
  - destruct (_ <=? rem).
    + specialize (IH (rem - (1 + vlen (dg_len d) + dg_len d)) false). destruct (dg_write _ _ l). cbn. now rewrite IH.
    + specialize (IH 0 false). destruct (dg_write _ _ l). cbn. now rewrite IH.
  - destruct empty; [|reflexivity]. specialize (IH rem true). destruct (dg_write _ _ l). cbn. now rewrite IH.
Qed.
(** C34: every datagram accepted has exactly one fate, or is still queued, in order of submission. *)
Theorem one_fate_in_order : forall local max ops, let '(q, fates) := dg_run (dgs_new local max) ops in
  map dgram_of fates ++ q_list q = accepted (dgs_new local max) ops.
Proof.
  intros local max ops. assert (G : forall ops q0, let '(q, fates) := dg_run q0 ops in map dgram_of fates ++ q_list q = q_list q0 ++ accepted q0 ops).
  { clear. induction ops as [|o ops IH]; intros q0; [cbn; now rewrite app_nil_r|]. cbn [dg_run accepted]. destruct (dg_step q0 o) as [q1 f] eqn:S. cbn [fst]. specialize (IH q1). destruct (dg_run q1 ops) as [q2 f'].
    rewrite map_app, <- app_assoc, IH, !app_assoc. f_equal. destruct o as [d|rem empty|v]; cbn [dg_step] in S.
    - destruct (dgs_add d q0) as [[q f0]|] eqn:A; inv S; [|cbn; now rewrite app_nil_r]. unfold dgs_add in A. destruct (_ <? _); [discriminate|]. destruct (_ =? _); [destruct (q_list q0); [discriminate|]|]; inv A; reflexivity.
    - unfold dgs_write in S. pose proof (write_fates (q_list q0) rem empty) as W. destruct (dg_write rem empty (q_list q0)) as [r f0]. inv S. cbn. now rewrite W, app_nil_r.
    - inv S. cbn. now rewrite app_nil_r. }
  specialize (G ops (dgs_new local max)). destruct (dg_run _ ops). exact G.
Qed.
Print Assumptions one_fate_in_order.
(** C34: the frames written fit in the space there is; one without a length is the last. *)
Theorem packet_not_overfilled : forall rem empty q, let '(q', f) := dgs_write rem empty q in
  total f <= rem /\ (forall a d b, f = a ++ Placed d false :: b -> b = []).
Proof.
  intros rem empty q. unfold dgs_write.
  assert (G : forall l rem empty, let '(r, f) := dg_write rem empty l in total f <= rem /\ (forall a d b, f = a ++ Placed d false :: b -> b = []) /\ (rem = 0 -> empty = false -> f = [])).
  { clear. induction l as [|d l IH]; intros rem empty; cbn; [splits; auto; [unfold total; cbn; lia|intros [|] ? ? H; discriminate]|]. destruct (N.leb_spec (dg_len d + 1) rem).
    - destruct (N.leb_spec (1 + vlen (dg_len d) + dg_len d + 2) rem).
      + specialize (IH (rem - (1 + vlen (dg_len d) + dg_len d)) false). destruct (dg_write _ _ l) as [r f]. destruct IH as (I1 & I2 & I3). splits.
        * unfold total in *. cbn. lia.
        * intros [|x a] d' b H'; [discriminate|]. cbn in H'. injection H' as _ H'. eauto.
        * intros. lia.
      + specialize (IH 0 false). destruct (dg_write _ _ l) as [r f]. destruct IH as (I1 & I2 & I3). rewrite (I3 eq_refl eq_refl). splits.
        * unfold total. cbn. lia.
        * intros [|x a] d' b H'; cbn in H'; injection H' as _ H'; [congruence|]. destruct a; discriminate.
        * intros. lia.
    - destruct empty; [|splits; [unfold total; cbn; lia|intros [|] ? ? H'; discriminate|auto]]. specialize (IH rem true). destruct (dg_write _ _ l) as [r f]. destruct IH as (I1 & I2 & I3). splits.
      + unfold total in *. cbn. lia.
      + intros [|x a] d' b H'; [discriminate|]. cbn in H'. injection H' as _ H'. eauto.
      + discriminate. }
  specialize (G (q_list q) rem empty). destruct (dg_write rem empty (q_list q)) as [r f]. destruct G as (G1 & G2 & _). auto.
Qed.
Print Assumptions packet_not_overfilled.
(** C34: a datagram is dropped for its size only if it does not fit a packet with nothing else in it (of the size given), and then nothing
    stays in its way: writing goes on until the queue is empty or the packet has something and the next does not fit. *)
Theorem drops_are_justified : forall rem q, let '(q', f) := dgs_write rem true q in
  (forall d, In (TooBig d) f -> rem < dg_len d + 1) /\
  (q_list q' <> [] -> exists d b, In (Placed d b) f) /\
  forall d, ~ In (QueueFull d) f.
Proof.
  intros rem q. unfold dgs_write.
  assert (F : forall l rem, let '(r, f) := dg_write rem false l in forall d, ~ In (TooBig d) f /\ ~ In (QueueFull d) f).
  { clear. induction l as [|d l IH]; intros rem; cbn; [auto|]. destruct (_ <=? rem); [|cbn; auto]. destruct (_ <=? rem).
    - specialize (IH (rem - (1 + vlen (dg_len d) + dg_len d))). destruct (dg_write _ _ l) as [r f]. intros x. destruct (IH x). cbn. intuition discriminate.
    - specialize (IH 0). destruct (dg_write _ _ l) as [r f]. intros x. destruct (IH x). cbn. intuition discriminate. }
  assert (G : forall l, let '(r, f) := dg_write rem true l in (forall d, In (TooBig d) f -> rem < dg_len d + 1) /\ (r <> [] -> exists d b, In (Placed d b) f) /\ forall d, ~ In (QueueFull d) f).
  { induction l as [|d l IH]; cbn; [splits; auto; try (intros ? []); intros H; congruence|]. destruct (N.leb_spec (dg_len d + 1) rem).
    - destruct (N.leb_spec (1 + vlen (dg_len d) + dg_len d + 2) rem).
      + specialize (F l (rem - (1 + vlen (dg_len d) + dg_len d))). destruct (dg_write _ false l) as [r f]. splits.
        * intros x [X|X]; [discriminate|]. now apply F in X.
        * intros _. exists d, true. now left.
        * intros x [X|X]; [discriminate|]. now apply F in X.
      + specialize (F l 0). destruct (dg_write _ false l) as [r f]. splits.
        * intros x [X|X]; [discriminate|]. now apply F in X.
        * intros _. exists d, false. now left.
        * intros x [X|X]; [discriminate|]. now apply F in X.
    - destruct (dg_write rem true l) as [r f]. destruct IH as (I1 & I2 & I3). splits.
      + intros x [X|X]; [injection X as <-; lia|auto].
      + intros R. destruct (I2 R) as (d' & b & X). exists d', b. now right.
      + intros x [X|X]; [discriminate|]. now apply (I3 x). }
  specialize (G (q_list q)). destruct (dg_write rem true (q_list q)) as [r f]. exact G.
Qed.
Print Assumptions drops_are_justified.
(** C34: the queue is bounded; when it is full the oldest makes room. *)
Theorem queue_bounded : forall local max ops, lenN (q_list (fst (dg_run (dgs_new local max) ops))) <= max.
Proof.
  intros local max ops. assert (G : forall ops q, q_max q = max -> lenN (q_list q) <= max -> lenN (q_list (fst (dg_run q ops))) <= max).
  { clear. induction ops as [|o ops IH]; intros q E L; [exact L|]. cbn [dg_run]. destruct (dg_step q o) as [q1 f] eqn:S. specialize (IH q1). destruct (dg_run q1 ops) as [q2 f']. cbn [fst] in *. apply IH; destruct o as [d|rem empty|v]; cbn [dg_step] in S.
    - unfold dgs_add in S. destruct (_ <? _); [inv S; auto|]. destruct (_ =? _); [destruct (q_list q); [inv S; auto|]|]; inv S; reflexivity.
    - unfold dgs_write in S. destruct (dg_write _ _ _). now inv S.
    - now inv S.
    - unfold dgs_add in S. destruct (_ <? _); [inv S; auto|]. destruct (N.eqb_spec (lenN (q_list q)) (q_max q)).
      + destruct (q_list q) eqn:Q; [inv S; rewrite Q; auto|]. inv S. cbn. rewrite lenN_app, lenN_cons, lenN_nil. rewrite lenN_cons in L. lia.
      + inv S. cbn. rewrite lenN_app, lenN_cons, lenN_nil. lia.
    - unfold dgs_write in S. pose proof (write_fates (q_list q) rem empty) as W. destruct (dg_write _ _ _) as [r f0]. inv S. cbn. rewrite <- W in L. rewrite lenN_app in L. lia.
    - now inv S. }
  apply G; [reflexivity|]. cbn. lia.
Qed.
Print Assumptions queue_bounded.
(** C34: an incoming datagram is delivered exactly when datagrams are allowed and its data is no longer than the size we announced. *)
Theorem incoming_checked : forall q len, dgs_handle len q = true <-> 0 < q_local q /\ len <= q_local q.
Proof. intros q len. unfold dgs_handle. destruct (N.eqb_spec (q_local q) 0), (N.ltb_spec (q_local q) len); cbn; split; intros; try discriminate; auto; lia. Qed.
Print Assumptions incoming_checked.
(** C34: what is sent can be longer than the peer allows: its limit is on frames, with the type and length (RFC 9221, section 3), and here it is
    applied to the data. *)
Theorem peer_limit_refuted : exists ops limit f, In (DRemote limit) ops /\ In f (snd (dg_run (dgs_new 0 10) ops)) /\ limit < frame_size f.
Proof. exists [DRemote 100; DAdd (mkDg 100 1); DWrite 1200 true], 100, (Placed (mkDg 100 1) true). splits; [now left|vm_compute; auto|vm_compute; reflexivity]. Qed.
Print Assumptions peer_limit_refuted.
(** C34: the data itself is always within the peer's limit of the time it was accepted. *)
Theorem accepted_within_limit : forall d q r, dgs_add d q = Some r -> dg_len d <= q_remote q.
Proof. intros d q r H. unfold dgs_add in H. destruct (N.ltb_spec (q_remote q) (dg_len d)); [discriminate|lia]. Qed.
Print Assumptions accepted_within_limit.
Example dgram_story : snd (dg_run (dgs_new 0 2) [DRemote 1000; DAdd (mkDg 10 1); DAdd (mkDg 500 2); DAdd (mkDg 20 3); DWrite 100 true; DAdd (mkDg 97 4); DWrite 100 true]) =
  [QueueFull (mkDg 10 1); TooBig (mkDg 500 2); Placed (mkDg 20 3) true; Placed (mkDg 97 4) false].
Proof. reflexivity. Qed.

(** ** Saved packets *)
(** The packets of an epoch that were kept: fewer than four were waiting. *)
Fixpoint kept (e : bool) (s : saved) (ops : list sop) : list N :=
  match ops with
  | [] => []
  | o :: ops' =>
      let s' := fst (sv_step s o) in
      (match o with SSave e' d => if Bool.eqb e e' && (lenN (sv_store e s) <? 4) then [d] else [] | _ => [] end) ++ kept e s' ops'
  end.
Definition of_epoch (e : bool) (l : list (bool * N)) : list N := map snd (filter (fun p => Bool.eqb (fst p) e) l).
Lemma of_epoch_app : forall e a b, of_epoch e (a ++ b) = of_epoch e a ++ of_epoch e b.
Proof. intros. unfold of_epoch. now rewrite filter_app, map_app. Qed.
Lemma of_epoch_map : forall e e' l, of_epoch e (map (fun d => (e', d)) l) = if Bool.eqb e' e then l else [].
Proof. intros e e' l. unfold of_epoch. induction l as [|x l IH]; cbn; [now destruct (Bool.eqb e' e)|]. destruct (Bool.eqb e' e) eqn:E; cbn; now rewrite IH. Qed.
(** C47: of each epoch, what is handed back and what is still waiting is what was kept, in order of arrival, each once; and at most four wait. *)
Theorem saved_in_order : forall ops e, let '(s, handed) := sv_run sv_new ops in
  of_epoch e handed ++ sv_store e s = kept e sv_new ops /\ lenN (sv_store e s) <= 4.
Proof.
  intros ops e. assert (G : forall ops s0, lenN (sv_store e s0) <= 4 -> let '(s, handed) := sv_run s0 ops in of_epoch e handed ++ sv_store e s = sv_store e s0 ++ kept e s0 ops /\ lenN (sv_store e s) <= 4).
  { clear. induction ops as [|o ops IH]; intros s0 L; [cbn; now rewrite app_nil_r|]. cbn [sv_run kept]. destruct (sv_step s0 o) as [s1 l] eqn:S. cbn [fst]. specialize (IH s1).
    assert (K : of_epoch e l ++ sv_store e s1 = sv_store e s0 ++ (match o with SSave e' d => if Bool.eqb e e' && (lenN (sv_store e s0) <? 4) then [d] else [] | _ => [] end) /\ lenN (sv_store e s1) <= 4).
    { destruct o as [e' d|e'|]; cbn [sv_step] in S.
      - apply pair_equal_spec in S. destruct S as [<- <-]. cbn [of_epoch map filter app]. unfold sv_save. change CAPACITY with 4. destruct (Bool.eqb_spec e e') as [<-|Ne]; cbn [andb].
        + destruct (N.ltb_spec (lenN (sv_store e s0)) 4); [|rewrite app_nil_r; auto]. assert (X : forall l, sv_store e (sv_put e l s0) = l) by (intros; destruct e; reflexivity). rewrite X. split; [reflexivity|]. rewrite lenN_app, lenN_cons, lenN_nil. lia.
        + rewrite app_nil_r. assert (X : forall l, sv_store e (sv_put e' l s0) = sv_store e s0) by (intros; destruct e, e'; try reflexivity; congruence). destruct (_ <? _); rewrite ?X; auto.
      - apply pair_equal_spec in S. destruct S as [<- <-]. cbn [of_epoch map filter app]. rewrite app_nil_r. unfold sv_make. destruct (sv_store e' s0); auto.
      - unfold sv_take in S. destruct (v_avail s0) as [e'|]; apply pair_equal_spec in S; destruct S as [<- <-]; rewrite app_nil_r; [|auto]. rewrite of_epoch_map. destruct (Bool.eqb_spec e' e) as [->|Ne].
        + assert (X : sv_store e (sv_put e [] (mkSv (v_hs s0) (v_app s0) None)) = []) by (destruct e; reflexivity). rewrite X, app_nil_r, lenN_nil. split; [reflexivity|lia].
        + assert (X : sv_store e (sv_put e' [] (mkSv (v_hs s0) (v_app s0) None)) = sv_store e s0) by (destruct e, e'; try reflexivity; congruence). rewrite X. auto. }
    destruct K as [K1 K2]. specialize (IH K2). destruct (sv_run s1 ops) as [s2 l']. destruct IH as [I1 I2]. split; [|exact I2]. rewrite of_epoch_app, <- app_assoc, I1, !app_assoc. now rewrite K1. }
  specialize (G ops sv_new). destruct (sv_run sv_new ops) as [s h]. destruct G as [G1 G2]; [destruct e; cbn; lia|]. split; [|exact G2]. rewrite G1. destruct e; reflexivity.
Qed.
Print Assumptions saved_in_order.
(** C47, partial: when keys for an epoch become available and nothing else does before the packets are taken, all packets waiting for them
    are handed back. *)
Theorem available_is_handed_partial : forall e s saves, Forall (fun o => match o with SSave _ _ => True | _ => False end) saves ->
  let '(s1, _) := sv_run (sv_make e s) saves in sv_store e s <> [] ->
  let '(s2, l) := sv_step s1 STake in l = map (fun d => (e, d)) (sv_store e s1) /\ sv_store e s2 = [] /\ sv_store (negb e) s2 = sv_store (negb e) s1.
Proof.
  intros e s saves F. destruct (sv_run (sv_make e s) saves) as [s1 l1] eqn:R. intros Ne.
  assert (A : v_avail s1 = Some e).
  { assert (G : forall saves s0, Forall (fun o => match o with SSave _ _ => True | _ => False end) saves -> v_avail s0 = Some e -> v_avail (fst (sv_run s0 saves)) = Some e).
    { clear. induction saves as [|o saves IH]; intros s0 F A; [exact A|]. inv F. cbn [sv_run]. destruct (sv_step s0 o) as [s1 l] eqn:S. specialize (IH s1 H2). destruct (sv_run s1 saves). cbn [fst] in *. apply IH. destruct o as [e' d| |]; try contradiction. cbn in S. apply pair_equal_spec in S. destruct S as [<- _]. unfold sv_save. destruct (_ <? _); [|exact A]. destruct e'; exact A. }
    specialize (G saves (sv_make e s) F). rewrite R in G. apply G. unfold sv_make. destruct (sv_store e s); [congruence|reflexivity]. }
  cbn [sv_step]. unfold sv_take. rewrite A. splits; [reflexivity| |]; destruct e; reflexivity.
Qed.
Print Assumptions available_is_handed_partial.
(** C47: but if both become available before the packets are taken, those of the first are not handed back. *)
Theorem both_available_refuted : exists ops d, In (SSave false d) ops /\ In (SMake false) ops /\
  (let '(s, handed) := sv_run sv_new (ops ++ [STake; STake; STake]) in ~ In (false, d) handed /\ In d (sv_store false s)).
Proof. exists [SSave false 1; SSave true 2; SMake false; SMake true], 1. splits; [cbn; auto|cbn; auto|]. vm_compute. intuition discriminate. Qed.
Print Assumptions both_available_refuted.
Example saved_story : sv_run sv_new [SSave false 1; SSave true 2; SSave false 3; SMake false; STake; SSave true 4; SMake true; STake] = (mkSv [] [] None, [(false, 1); (false, 3); (true, 2); (true, 4)]).
Proof. reflexivity. Qed.
