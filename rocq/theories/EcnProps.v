(** C32: ECN validation. *)
From Verif Require Import Base Lib EcnModel.

(** ** Specification *)
(** Reports of acknowledgements are about at least one packet. *)
Definition uses_ok (ops : list eop) : Prop := Forall (fun o => match o with EAcked pkts _ => pkts <> [] | _ => True end) ops.
Definition largest_of (pkts : list (N * bool)) : N := match pkts with p :: _ => fst p | [] => 0 end.
Definition marked_in (pkts : list (N * bool)) : N := lenN (filter snd pkts).
(** RFC 9000, 13.4.2.1: the counts went up by at least the number of marked packets newly acknowledged, and
    no ECT(1) is counted, as none is ever sent. *)
Definition valid_counts (base k : count) (pkts : list (N * bool)) : Prop :=
  marked_in pkts <= (k_ect0 k - k_ect0 base) + (k_ce k - k_ce base) /\ k_ect1 k <= k_ect1 base.
(** Datagrams sent with a mark on a path not (yet) validated. *)
Fixpoint marked_unvalidated (i : info) (ops : list eop) : N :=
  match ops with
  | [] => 0
  | o :: ops' =>
      (match o with ESent n => match i_state i with Capable => 0 | _ => if is_marking i then n else 0 end | _ => 0 end) +
      match ecn_step i o with Some (i', _) => marked_unvalidated i' ops' | None => 0 end
  end.

(** ** Proofs *)
(** The statistics agree with the state. *)
Definition counted (o0 : outcomes) (i : info) : Prop :=
  i_oc i = match i_state i with Capable => mkOc (oc_capable o0 + 1) (oc_black o0) (oc_bleach o0) (oc_ect1 o0) | Failed e => oc_fail e o0 | _ => o0 end.
Lemma set_ok : forall o0 s i, counted o0 i -> (forall e, i_state i <> Failed e) -> exists i', set_state s i = Some i' /\ counted o0 i' /\ i_state i' = s /\ i_largest i' = i_largest i /\ i_base i' = i_base i.
Proof.
  intros [a b c d] s i C F. unfold set_state, counted in *. destruct (i_state i) eqn:E; try (now elim (F e)); rewrite ?C; cbn [oc_capable oc_black oc_bleach oc_ect1];
    try (eexists; split; [reflexivity|]; destruct s as [| | |[]|]; cbn; auto).
  replace (a + 1 =? 0) with false by (symmetry; apply N.eqb_neq; lia). eexists. split; [reflexivity|]. replace (a + 1 - 1) with a by lia. destruct s as [| | |[]|]; cbn; auto.
Qed.
Lemma with_counted : forall o0 i s, counted o0 i -> (match i_state i, s with Testing _ _ _, Testing _ _ _ => True | _, _ => False end) -> counted o0 (with_state s i).
Proof. intros o0 i s C H. unfold counted in *. cbn. destruct (i_state i), s; try contradiction. exact C. Qed.
Lemma step_ok : forall o0 i o, counted o0 i -> (match o with EAcked pkts _ => pkts <> [] | _ => True end) ->
  exists i' b, ecn_step i o = Some (i', b) /\ counted o0 i' /\ (forall e, i_state i = Failed e -> i_state i' = Failed e /\ b = false).
Proof.
  intros o0 i o C U. destruct o as [|k|n|pkts ack| | |]; cbn [ecn_step].
  - unfold ecn_start. destruct (i_state i) eqn:E; try (exists i, false; split; [reflexivity|]; split; [exact C|]; intros; split; congruence).
    destruct (set_ok o0 (Testing 0 0 0) i C) as (i' & -> & C' & _); [congruence|]. exists i', false. splits; auto. intros; congruence.
  - eexists. exists false. splits; [reflexivity|exact C|auto].
  - unfold ecn_sent. destruct (i_state i) eqn:E; try (exists i, false; split; [reflexivity|]; split; [exact C|]; intros; split; congruence).
    assert (C1 : counted o0 (with_state (Testing (sent + n) acked lost) i)) by (apply with_counted; [exact C|rewrite E; exact Logic.I]).
    destruct (_ <=? _); [|eexists; exists false; splits; [reflexivity|exact C1|intros; congruence]].
    destruct (set_ok o0 Unknown _ C1) as (i' & -> & C' & _); [discriminate|]. exists i', false. splits; auto. intros; congruence.
  - unfold ecn_acked, ecn_validate. destruct pkts as [|[pn mk] pkts]; [now elim U|]. destruct (pn <=? i_largest i).
    { exists i. eexists. splits; [reflexivity|exact C|]. intros e E. rewrite E. auto. }
    destruct (i_state i) as [|s a l| |e|] eqn:E; try (exists i; eexists; splits; [reflexivity|exact C|intros e' E'; rewrite E; auto; congruence]).
    + destruct ack as [k|].
      * destruct (_ <? _); [|destruct (_ <? _)]; cbn [ecn_disable].
        -- destruct (set_ok o0 (Failed Bleaching) i C) as (i' & S & C' & S' & _); [congruence|]. unfold ecn_disable. rewrite S. eexists. eexists. splits; [reflexivity|exact C'|intros; congruence].
        -- destruct (set_ok o0 (Failed UnsentEct1) i C) as (i' & S & C' & S' & _); [congruence|]. unfold ecn_disable. rewrite S. eexists. eexists. splits; [reflexivity|exact C'|intros; congruence].
        -- destruct (set_ok o0 Capable i C) as (i' & S & C' & S' & _); [congruence|]. rewrite S. eexists. eexists. splits; [reflexivity|exact C'|intros; congruence].
      * unfold ecn_disable. destruct (set_ok o0 (Failed Bleaching) i C) as (i' & S & C' & S' & _); [congruence|]. rewrite S. eexists. eexists. splits; [reflexivity|exact C'|intros; congruence].
    + destruct ack as [k|].
      * destruct (_ <? _); [|destruct (_ <? _)]; cbn [ecn_disable].
        -- destruct (set_ok o0 (Failed Bleaching) i C) as (i' & S & C' & S' & _); [congruence|]. unfold ecn_disable. rewrite S. eexists. eexists. splits; [reflexivity|exact C'|intros; congruence].
        -- destruct (set_ok o0 (Failed UnsentEct1) i C) as (i' & S & C' & S' & _); [congruence|]. unfold ecn_disable. rewrite S. eexists. eexists. splits; [reflexivity|exact C'|intros; congruence].
        -- eexists. eexists. splits; [reflexivity|unfold counted in *; cbn; rewrite E in *; exact C|intros; congruence].
      * unfold ecn_disable. destruct (set_ok o0 (Failed Bleaching) i C) as (i' & S & C' & S' & _); [congruence|]. rewrite S. eexists. eexists. splits; [reflexivity|exact C'|intros; congruence].
  - eexists. exists false. split; [reflexivity|]. unfold ecn_mark_acked. destruct (i_state i) eqn:E; split; try exact C; try (intros; split; congruence). apply with_counted; [exact C|rewrite E; exact Logic.I].
  - unfold ecn_mark_lost. destruct (i_state i) eqn:E; try (exists i, false; split; [reflexivity|]; split; [exact C|]; intros; split; congruence).
    assert (C1 : counted o0 (with_state (Testing sent acked (lost + 1)) i)) by (apply with_counted; [exact C|rewrite E; exact Logic.I]).
    destruct (_ && _); [|eexists; exists false; splits; [reflexivity|exact C1|intros; congruence]].
    unfold ecn_disable. destruct (set_ok o0 (Failed BlackHole) _ C1) as (i' & -> & C' & _); [discriminate|]. exists i', false. splits; auto. intros; congruence.
  - unfold ecn_black, is_marking. destruct (i_state i) eqn:E; try (exists i, false; split; [reflexivity|]; split; [exact C|]; intros; split; congruence);
    (unfold ecn_disable; destruct (set_ok o0 (Failed BlackHole) i C) as (i' & -> & C' & _); [congruence|]; exists i', false; splits; auto; intros; congruence).
Qed.
Lemma runs_ok : forall o0 ops i, counted o0 i -> uses_ok ops -> exists i', ecn_runs i ops = Some i' /\ counted o0 i' /\ (forall e, i_state i = Failed e -> i_state i' = Failed e).
Proof.
  intros o0. induction ops as [|o ops IH]; intros i C U; [exists i; auto|]. inv U. destruct (step_ok o0 i o C H1) as (i1 & b & S & C1 & F1). cbn [ecn_runs]. rewrite S.
  destruct (IH i1 C1 H2) as (i' & R & C' & F'). exists i'. splits; auto. intros e E. apply F'. now apply F1.
Qed.

(** C32: nothing panics in any history, and the counts of outcomes are right: this path counts once if
    it is validated, once under its error if it failed, and not at all otherwise. *)
Theorem ecn_no_panic_and_counted : forall o0 ops, uses_ok ops -> exists i, ecn_runs (info_new o0) ops = Some i /\
  i_oc i = match i_state i with
           | Capable => mkOc (oc_capable o0 + 1) (oc_black o0) (oc_bleach o0) (oc_ect1 o0)
           | Failed BlackHole => mkOc (oc_capable o0) (oc_black o0 + 1) (oc_bleach o0) (oc_ect1 o0)
           | Failed Bleaching => mkOc (oc_capable o0) (oc_black o0) (oc_bleach o0 + 1) (oc_ect1 o0)
           | Failed UnsentEct1 => mkOc (oc_capable o0) (oc_black o0) (oc_bleach o0) (oc_ect1 o0 + 1)
           | _ => o0
           end.
Proof.
  intros o0 ops U. destruct (runs_ok o0 ops (info_new o0)) as (i & R & C & _); [reflexivity|exact U|]. exists i. split; [exact R|]. rewrite C. destruct (i_state i) as [| | |[]|]; reflexivity.
Qed.
Print Assumptions ecn_no_panic_and_counted.
(** C32: a path found broken stays so: after any further history it is not marked, and nothing is signalled. *)
Theorem broken_is_final : forall o0 ops1 ops2 i e, uses_ok (ops1 ++ ops2) -> ecn_runs (info_new o0) ops1 = Some i -> i_state i = Failed e ->
  exists i', ecn_runs i ops2 = Some i' /\ i_state i' = Failed e /\ is_marking i' = false /\
    forall o i'' b, ecn_step i' o = Some (i'', b) -> b = false.
Proof.
  intros o0 ops1 ops2 i e U R E. apply Forall_app in U. destruct U as [U1 U2]. destruct (runs_ok o0 ops1 (info_new o0)) as (i0 & R0 & C & _); [reflexivity|exact U1|]. assert (i0 = i) by congruence. subst i0.
  destruct (runs_ok o0 ops2 i C U2) as (i' & R' & C' & F'). exists i'. splits; auto; [unfold is_marking; now rewrite (F' e E)|].
  assert (G : forall o i'' b, (match o with EAcked pkts _ => pkts <> [] | _ => True end) -> ecn_step i' o = Some (i'', b) -> b = false).
  { intros o i'' b Uo S. destruct (step_ok o0 i' o C' Uo) as (i2 & b2 & S2 & _ & F2). rewrite S2 in S. injection S as <- <-. now apply (F2 e), F'. }
  intros o i'' b S. apply (G o i'' b); [|exact S]. destruct o as [|k|n|pkts ack| | |]; auto. intros ->. discriminate.
Qed.
Print Assumptions broken_is_final.
(** C32: fewer than ten datagrams, and the rest of a batch of at most [B], are marked on a path before it is validated. *)
Theorem marking_bounded : forall o0 ops B, uses_ok ops -> Forall (fun o => match o with ESent n => n <= B | _ => True end) ops ->
  marked_unvalidated (info_new o0) ops <= 9 + B.
Proof.
  intros o0 ops B U S. set (K := fun i => match i_state i with NotStarted => 0 | Testing s _ _ => s | _ => 0 end).
  set (J := fun i => match i_state i with Testing s _ _ => s <= 9 | _ => True end). set (Fr := fun i => match i_state i with NotStarted => True | Testing _ _ _ => True | _ => False end).
  assert (G : forall ops i, counted o0 i -> uses_ok ops -> Forall (fun o => match o with ESent n => n <= B | _ => True end) ops -> J i -> (match i_state i with NotStarted | Testing _ _ _ => K i + marked_unvalidated i ops <= 9 + B | _ => marked_unvalidated i ops = 0 end)).
  { clear ops U S. induction ops as [|o ops IH]; intros i C U S Ji.
    - cbn. unfold J, K in *. destruct (i_state i); auto; lia.
    - inv U. inv S. destruct (step_ok o0 i o C H1) as (i1 & b & St & C1 & _). cbn [marked_unvalidated]. rewrite St.
      assert (J1 : J i1 /\ (match i_state i with NotStarted => i_state i1 = NotStarted \/ i_state i1 = Testing 0 0 0 | Testing s _ _ => K i1 = s \/ (exists n, o = ESent n /\ (K i1 = s + n \/ i_state i1 = Unknown)) \/ exists e, i_state i1 = Failed e | _ => match i_state i1 with NotStarted | Testing _ _ _ => False | _ => True end end)
                   /\ (forall s a l, i_state i = Testing s a l -> o = ESent 0 \/ (forall n, o <> ESent n) \/ True)).
      { split; [|split; [|auto]].
        - unfold J in *. destruct o as [|k|n|pkts ack| | |]; cbn [ecn_step] in St.
          + unfold ecn_start in St. destruct (i_state i) eqn:E; try (injection St as <- _; rewrite ?E; auto). destruct (set_ok o0 (Testing 0 0 0) i C) as (i' & S' & _ & E' & _); [congruence|]. rewrite S' in St. injection St as <- _. rewrite E'. lia.
          + injection St as <- _. exact Ji.
          + unfold ecn_sent in St. destruct (i_state i) eqn:E; try (injection St as <- _; rewrite ?E; auto). unfold TEST_COUNT in St. destruct (N.leb_spec 10 (sent + n)).
            * unfold set_state in St. cbn in St. injection St as <- _. exact Logic.I.
            * injection St as <- _. cbn. lia.
          + unfold ecn_acked in St. destruct (ecn_validate pkts ack i) as [i'|] eqn:V; [|discriminate]. injection St as <- _. unfold ecn_validate in V. destruct pkts as [|[pn mk] pkts]; [discriminate|].
            destruct (pn <=? i_largest i); [injection V as <-; exact Ji|]. destruct (i_state i) eqn:E; try (injection V as <-; rewrite E; exact Ji).
            * destruct ack as [k|]; [|unfold ecn_disable, set_state in V; rewrite E in V; injection V as <-; exact Logic.I]. unfold ecn_disable, set_state in V. rewrite E in V.
              destruct (_ <? _); [injection V as <-; exact Logic.I|]. destruct (_ <? _); injection V as <-; exact Logic.I.
            * destruct (set_ok o0 (Failed Bleaching) i C) as (x1 & X1 & _ & Y1 & _); [congruence|]. destruct (set_ok o0 (Failed UnsentEct1) i C) as (x2 & X2 & _ & Y2 & _); [congruence|].
              destruct ack as [k|]; unfold ecn_disable in V; rewrite ?X1, ?X2 in V; [|injection V as <-; now rewrite Y1]. destruct (_ <? _); [injection V as <-; cbn; now rewrite Y1|]. destruct (_ <? _); injection V as <-; cbn; rewrite ?Y2, ?E; exact Logic.I.
          + injection St as <- _. unfold ecn_mark_acked. destruct (i_state i) eqn:E; rewrite ?E; auto.
          + unfold ecn_mark_lost in St. destruct (i_state i) eqn:E; try (injection St as <- _; rewrite ?E; auto). destruct (_ && _); [|injection St as <- _; exact Ji]. unfold ecn_disable, set_state in St. cbn in St. injection St as <- _. exact Logic.I.
          + unfold ecn_black, is_marking in St. destruct (i_state i) eqn:E; try (injection St as <- _; rewrite ?E; auto); unfold ecn_disable in St; destruct (set_ok o0 (Failed BlackHole) i C) as (x1 & X1 & _ & Y1 & _); try congruence; rewrite X1 in St; injection St as <- _; now rewrite Y1.
        - unfold J, K in *. destruct o as [|k|n|pkts ack| | |]; cbn [ecn_step] in St.
          + unfold ecn_start in St. destruct (i_state i) eqn:E; try (injection St as <- _; rewrite ?E; auto). destruct (set_ok o0 (Testing 0 0 0) i C) as (i' & S' & _ & E' & _); [congruence|]. rewrite S' in St. injection St as <- _. auto.
          + injection St as <- _. cbn. destruct (i_state i); auto.
          + unfold ecn_sent in St. destruct (i_state i) eqn:E; try (injection St as <- _; rewrite ?E; auto). unfold TEST_COUNT in St. right. left. exists n. split; [reflexivity|]. destruct (N.leb_spec 10 (sent + n)).
            * unfold set_state in St. cbn in St. injection St as <- _. now right.
            * injection St as <- _. now left.
          + unfold ecn_acked in St. destruct (ecn_validate pkts ack i) as [i'|] eqn:V; [|discriminate]. injection St as <- _. unfold ecn_validate in V. destruct pkts as [|[pn mk] pkts]; [discriminate|].
            destruct (pn <=? i_largest i); [injection V as <-; destruct (i_state i); auto|]. destruct (i_state i) eqn:E; try (injection V as <-; rewrite E; auto; fail).
            * destruct ack as [k|]; [|unfold ecn_disable, set_state in V; rewrite E in V; injection V as <-; exact Logic.I]. unfold ecn_disable, set_state in V. rewrite E in V.
              destruct (_ <? _); [injection V as <-; exact Logic.I|]. destruct (_ <? _); injection V as <-; exact Logic.I.
            * destruct (set_ok o0 (Failed Bleaching) i C) as (x1 & X1 & _ & Y1 & _); [congruence|]. destruct (set_ok o0 (Failed UnsentEct1) i C) as (x2 & X2 & _ & Y2 & _); [congruence|].
              destruct ack as [k|]; unfold ecn_disable in V; rewrite ?X1, ?X2 in V; [|injection V as <-; now rewrite Y1]. destruct (_ <? _); [injection V as <-; cbn; now rewrite Y1|]. destruct (_ <? _); injection V as <-; cbn; rewrite ?Y2, ?E; exact Logic.I.
          + injection St as <- _. unfold ecn_mark_acked. destruct (i_state i) eqn:E; rewrite ?E; auto.
          + unfold ecn_mark_lost in St. destruct (i_state i) eqn:E; try (injection St as <- _; rewrite ?E; auto). destruct (_ && _); [|injection St as <- _; now left]. unfold ecn_disable, set_state in St. cbn in St. injection St as <- _. right. right. exists BlackHole. reflexivity.
          + unfold ecn_black, is_marking in St. destruct (i_state i) eqn:E; try (injection St as <- _; rewrite ?E; auto); unfold ecn_disable in St; destruct (set_ok o0 (Failed BlackHole) i C) as (x1 & X1 & _ & Y1 & _); try congruence; rewrite X1 in St; injection St as <- _; [right; right; exists BlackHole; exact Y1|now rewrite Y1]. }
      destruct J1 as (J1 & Tr & _). specialize (IH i1 C1 H2 H4 J1). unfold is_marking.
      destruct (i_state i) as [|s a l| |e|] eqn:E.
      + destruct o; rewrite ?N.add_0_l; unfold K in *; rewrite E; destruct Tr as [Tr|Tr]; rewrite Tr in IH; lia.
      + unfold K at 1. rewrite E. unfold J in Ji. rewrite E in Ji. destruct Tr as [Tr|[(n & -> & Tr)|(e & Tr)]].
        * destruct (i_state i1) eqn:E1; unfold K in Tr, IH; rewrite E1 in *; destruct o; try lia.
          -- cbn [ecn_step] in St. unfold ecn_sent in St. rewrite E in St. destruct (_ <=? _); [unfold set_state in St; cbn in St; injection St as <- _; discriminate|]. injection St as <- _. discriminate.
          -- cbn [ecn_step] in St. unfold ecn_sent in St. rewrite E in St. destruct (_ <=? _); [unfold set_state in St; cbn in St; injection St as <- _; discriminate|]. injection St as <- _. cbn in E1. injection E1 as <- _ _. lia.
        * destruct Tr as [Tr|Tr]; [|rewrite Tr in IH; lia]. destruct (i_state i1) eqn:E1; unfold K in Tr, IH; rewrite E1 in *; lia.
        * rewrite Tr in IH. destruct o; try lia.
      + assert (marked_unvalidated i1 ops = 0) by (destruct (i_state i1); try contradiction; exact IH). destruct o; lia.
      + assert (marked_unvalidated i1 ops = 0) by (destruct (i_state i1); try contradiction; exact IH). destruct o; lia.
      + assert (marked_unvalidated i1 ops = 0) by (destruct (i_state i1); try contradiction; exact IH). destruct o; lia. }
  specialize (G ops (info_new o0) eq_refl U S Logic.I). cbn in G. unfold K in G. cbn in G. lia.
Qed.
Print Assumptions marking_bounded.
(** C32: an acknowledgement that does not raise the largest packet number changes nothing. *)
Theorem reordered_ack_ignored : forall i pkts ack, pkts <> [] -> largest_of pkts <= i_largest i -> ecn_acked pkts ack i = Some (i, false).
Proof.
  intros i pkts ack U L. unfold ecn_acked, ecn_validate. destruct pkts as [|[pn mk] pkts]; [now elim U|]. cbn in L. destruct (N.leb_spec pn (i_largest i)); [|lia].
  destruct (i_state i); auto. cbn. rewrite N.sub_diag. reflexivity.
Qed.
Print Assumptions reordered_ack_ignored.
(** C32: what a newer acknowledgement does, once testing is over. *)
Theorem counts_decide : forall i pkts ack i' b, ecn_acked pkts ack i = Some (i', b) -> i_largest i < largest_of pkts ->
  (b = true <-> exists k, ack = Some k /\ (i_state i = Unknown \/ i_state i = Capable) /\ valid_counts (i_base i) k pkts /\ k_ce (i_base i) < k_ce k) /\
  (i_state i' = Capable <-> exists k, ack = Some k /\ (i_state i = Unknown \/ i_state i = Capable) /\ valid_counts (i_base i) k pkts) /\
  ((i_state i = Unknown \/ i_state i = Capable) -> i_state i' <> Capable -> is_marking i' = false /\ exists e, i_state i' = Failed e).
Proof.
  intros i pkts ack i' b H L. unfold ecn_acked in H. destruct (ecn_validate pkts ack i) as [i1|] eqn:V; [|discriminate]. injection H as <- <-.
  unfold ecn_validate in V. destruct pkts as [|[pn mk] pkts]; [discriminate|]. cbn [largest_of fst] in L. destruct (N.leb_spec pn (i_largest i)); [lia|].
  assert (Stay : forall s, i_state i = s -> s <> Unknown -> s <> Capable -> Some i = Some i1 -> (match i_state i1 with Capable => 0 <? k_ce (csub (i_base i1) (i_base i)) | _ => false end = true <-> exists k, ack = Some k /\ (i_state i = Unknown \/ i_state i = Capable) /\ valid_counts (i_base i) k ((pn, mk) :: pkts) /\ k_ce (i_base i) < k_ce k) /\
    (i_state i1 = Capable <-> exists k, ack = Some k /\ (i_state i = Unknown \/ i_state i = Capable) /\ valid_counts (i_base i) k ((pn, mk) :: pkts)) /\
    ((i_state i = Unknown \/ i_state i = Capable) -> i_state i1 <> Capable -> is_marking i1 = false /\ exists e, i_state i1 = Failed e)).
  { intros s E S1 S2 X. injection X as <-. rewrite E. splits.
    - split; [destruct s; congruence|]. intros (k & _ & [Y|Y] & _); congruence.
    - split; [congruence|]. intros (k & _ & [Y|Y] & _); congruence.
    - intros [Y|Y]; congruence. }
  destruct (i_state i) as [|s a l| |e|] eqn:E; try (apply (Stay _ eq_refl); [discriminate|discriminate|exact V]); clear Stay.
  - destruct ack as [k|].
    2:{ unfold ecn_disable, set_state in V. rewrite E in V. injection V as <-. cbn. splits; [split; [discriminate|intros (k & X & _); discriminate]|split; [discriminate|intros (k & X & _); discriminate]|intros _ _; split; eauto]. }
    cbn [csub k_ect0 k_ce k_ect1] in V. unfold ecn_disable, set_state in V. rewrite E in V. unfold valid_counts. fold (marked_in ((pn, mk) :: pkts)) in V.
    change (lenN (filter (fun p : N * bool => snd p) ((pn, mk) :: pkts))) with (marked_in ((pn, mk) :: pkts)) in V. set (M := marked_in _) in *. clearbody M.
    destruct (N.ltb_spec (k_ect0 k - k_ect0 (i_base i) + (k_ce k - k_ce (i_base i))) M).
    + injection V as <-. cbn. splits; [split; [discriminate|intros (k' & X & _ & (Y & _) & _); injection X as <-; lia]|split; [discriminate|intros (k' & X & _ & Y & _); injection X as <-; lia]|intros _ _; split; eauto].
    + destruct (N.ltb_spec 0 (k_ect1 k - k_ect1 (i_base i))).
      * injection V as <-. cbn. splits; [split; [discriminate|intros (k' & X & _ & (_ & Y) & _); injection X as <-; lia]|split; [discriminate|intros (k' & X & _ & _ & Y); injection X as <-; lia]|intros _ _; split; eauto].
      * injection V as <-. cbn. splits.
        -- rewrite N.ltb_lt. split; [intros X; exists k; splits; auto; lia|]. intros (k' & X & _ & _ & Y). injection X as <-. lia.
        -- split; [intros _; exists k; splits; auto; lia|reflexivity].
        -- intros _ X. now elim X.
  - assert (Fs : forall e0 x, set_state (Failed e0) i = Some x -> i_state x = Failed e0) by (intros e0 x X; unfold set_state in X; destruct (match i_state i with Failed _ => None | _ => _ end); [injection X as <-; reflexivity|discriminate]).
    destruct ack as [k|].
    2:{ unfold ecn_disable in V. specialize (Fs _ _ V). rewrite Fs. splits; [split; [discriminate|intros (k & X & _); discriminate]|split; [discriminate|intros (k & X & _); discriminate]|intros _ _; unfold is_marking; rewrite Fs; split; eauto]. }
    cbn [csub k_ect0 k_ce k_ect1] in V. unfold ecn_disable in V. unfold valid_counts.
    change (lenN (filter (fun p : N * bool => snd p) ((pn, mk) :: pkts))) with (marked_in ((pn, mk) :: pkts)) in V. set (M := marked_in _) in *. clearbody M.
    destruct (N.ltb_spec (k_ect0 k - k_ect0 (i_base i) + (k_ce k - k_ce (i_base i))) M).
    + destruct (set_state (Failed Bleaching) i) as [x|] eqn:X; [|discriminate]. specialize (Fs _ _ X). injection V as <-. unfold is_marking. cbn. rewrite Fs.
      splits; [split; [discriminate|intros (k' & Y & _ & (Z & _) & _); injection Y as <-; lia]|split; [discriminate|intros (k' & Y & _ & Z & _); injection Y as <-; lia]|intros _ _; split; eauto].
    + destruct (N.ltb_spec 0 (k_ect1 k - k_ect1 (i_base i))).
      * destruct (set_state (Failed UnsentEct1) i) as [x|] eqn:X; [|discriminate]. specialize (Fs _ _ X). injection V as <-. unfold is_marking. cbn. rewrite Fs.
        splits; [split; [discriminate|intros (k' & Y & _ & (_ & Z) & _); injection Y as <-; lia]|split; [discriminate|intros (k' & Y & _ & _ & Z); injection Y as <-; lia]|intros _ _; split; eauto].
      * injection V as <-. cbn. rewrite E. splits.
        -- rewrite N.ltb_lt. split; [intros X; exists k; splits; auto; lia|]. intros (k' & X & _ & _ & Y). injection X as <-. lia.
        -- split; [intros _; exists k; splits; auto; lia|reflexivity].
        -- intros _ X. now elim X.
Qed.
Print Assumptions counts_decide.
(** C32: nothing but counts in an acknowledgement makes a path validated, or signals congestion. *)
Theorem only_counts_validate : forall i o i' b, ecn_step i o = Some (i', b) -> (forall pkts ack, o <> EAcked pkts ack) -> b = false /\ (i_state i' = Capable -> i_state i = Capable).
Proof.
  assert (SS : forall s i i', set_state s i = Some i' -> i_state i' = s) by (intros s i i' X; unfold set_state in X; destruct (match i_state i with Failed _ => None | _ => _ end); [injection X as <-; reflexivity|discriminate]).
  intros i o i' b H O. destruct o as [|k|n|pkts ack| | |]; cbn [ecn_step] in H; try (now elim (O pkts ack)).
  - unfold ecn_start in H. destruct (i_state i) eqn:E; try (injection H as <- <-; split; [reflexivity|congruence]). destruct (set_state _ i) as [x|] eqn:X; [|discriminate]. injection H as <- <-. apply SS in X. split; [reflexivity|congruence].
  - injection H as <- <-. auto.
  - unfold ecn_sent in H. destruct (i_state i) eqn:E; try (injection H as <- <-; split; [reflexivity|congruence]). destruct (_ <=? _); [|injection H as <- <-; split; [reflexivity|discriminate]].
    destruct (set_state _ _) as [x|] eqn:X; [|discriminate]. injection H as <- <-. apply SS in X. split; [reflexivity|congruence].
  - injection H as <- <-. split; [reflexivity|]. unfold ecn_mark_acked. destruct (i_state i) eqn:E; auto; try congruence. discriminate.
  - unfold ecn_mark_lost in H. destruct (i_state i) eqn:E; try (injection H as <- <-; split; [reflexivity|congruence]). unfold ecn_disable in H. destruct (_ && _); [|injection H as <- <-; split; [reflexivity|discriminate]].
    destruct (set_state _ _) as [x|] eqn:X; [|discriminate]. injection H as <- <-. apply SS in X. split; [reflexivity|congruence].
  - unfold ecn_black, ecn_disable in H. destruct (is_marking i); [|injection H as <- <-; auto]. destruct (set_state _ _) as [x|] eqn:X; [|discriminate]. injection H as <- <-. apply SS in X. split; [reflexivity|congruence].
Qed.
Print Assumptions only_counts_validate.
(** C32: three marked packets lost and none acknowledged, while testing: the path is not capable. *)
Theorem losses_disable : forall i s, i_state i = Testing s 0 2 -> exists i', ecn_step i EMarkLost = Some (i', false) /\ i_state i' = Failed BlackHole.
Proof. intros i s E. cbn. unfold ecn_mark_lost. rewrite E. cbn. eexists. split; reflexivity. Qed.
Print Assumptions losses_disable.
(** A path is tested, validated, signals congestion once, and fails when the peer stops counting. *)
Example ecn_story :
  let ops := [EStart; ESent 6; ESent 6; EAcked [(5, true); (4, true)] (Some (mkCount 0 2 0 0))] in
  match ecn_runs (info_new (mkOc 0 0 0 0)) ops with
  | Some i => i_state i = Capable /\
      match ecn_acked [(7, true)] (Some (mkCount 0 2 0 1)) i with
      | Some (i1, b) => b = true /\ match ecn_acked [(8, true)] (Some (mkCount 0 2 0 1)) i1 with Some (i2, b2) => i_state i2 = Failed Bleaching /\ b2 = false | None => False end
      | None => False end
  | None => False end.
Proof. vm_compute. auto. Qed.
Example ecn_story_marks : marked_unvalidated (info_new (mkOc 0 0 0 0)) [EStart; ESent 6; ESent 6; ESent 6] = 12.
Proof. reflexivity. Qed.

(** C32: once an acknowledgement was used, no other that does not acknowledge something newer is used: reordering cannot
    make counts go back, nor signal the same marks twice. *)
Theorem used_acks_are_not_reused : forall i pkts k i' b, ecn_acked pkts (Some k) i = Some (i', b) -> (i_state i = Unknown \/ i_state i = Capable) -> i_largest i < largest_of pkts ->
  (forall pkts' ack, pkts' <> [] -> largest_of pkts' <= largest_of pkts -> ecn_acked pkts' ack i' = Some (i', false)) /\
  (forall pkts' k' i'' b', ecn_acked pkts' (Some k') i' = Some (i'', b') -> k_ce k' <= k_ce k -> b' = false).
Proof.
  intros i pkts k i' b H St L. unfold ecn_acked in H. destruct (ecn_validate pkts (Some k) i) as [i1|] eqn:V; [|discriminate]. injection H as <- <-.
  assert (E : i_largest i1 = largest_of pkts /\ i_base i1 = k).
  { unfold ecn_validate in V. destruct pkts as [|[pn mk] pkts]; [discriminate|]. cbn [largest_of fst] in *. destruct (N.leb_spec pn (i_largest i)); [lia|].
    destruct St as [St|St]; rewrite St in V.
    all: match type of V with match ?z with _ => _ end = _ => destruct z as [x|]; [|discriminate] end; apply some_inj in V; subst i1; cbn; auto. }
  destruct E as [E1 E2]. split.
  - intros pkts' ack Ne Le. apply reordered_ack_ignored; auto. lia.
  - intros pkts' k' i'' b' H Le. unfold ecn_acked in H. destruct (ecn_validate pkts' (Some k') i1) as [i2|] eqn:V2; [|discriminate]. injection H as <- <-.
    destruct (i_state i2) eqn:S2; auto. apply N.ltb_ge. unfold ecn_validate in V2. destruct pkts' as [|[pn mk] pkts']; [discriminate|].
    assert (Z : forall a, k_ce (csub a a) = 0) by (intros a; cbn; lia).
    destruct (pn <=? i_largest i1); [apply some_inj in V2; subst i2; lia|].
    destruct (i_state i1).
    all: try (apply some_inj in V2; subst i2; lia).
    all: match type of V2 with match ?z with _ => _ end = _ => destruct z as [x|]; [|discriminate] end; apply some_inj in V2; subst i2; cbn [i_base]; rewrite E2; cbn; lia.
Qed.
Print Assumptions used_acks_are_not_reused.
