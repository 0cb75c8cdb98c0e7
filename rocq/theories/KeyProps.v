(** C37: key updates.  C78: AEAD usage limits. *)
From Coq Require Import Lia.
From Verif Require Import Base Lib FcModel KeyModel KeySpec KeyProofs KeyProofs2 KeyProofs3 KeyProofs4.

(** A client with 0-RTT, updates by both sides, forged packets and a timer. *)
Definition demo : list kop :=
  [KZero DWrite; KSend 100; KSend 100; KSetWrite false; KSetRead 0; KSend 1200; KRecv false 0 (Some 0) true 50; KRecv false 1 None true 50; KInitiate (Some 2);
   KSend 9000; KRecv true 2 (Some 1) true 60; KRecv true 3 (Some 1) true 61; KTimer 59; KTimer 60; KSend 10; KRecv false 4 (Some 2) true 90; KTimer 90; KSend 1].
Definition demo_out : list kout :=
  [ODoneK; OSent 1 0 0 100; OSent 1 0 1 100; ODoneK; ODoneK; OSent 3 0 2 1200; ORecv 3 0 0; OFailed 3; ODoneK;
   OSent 4 1 3 9000; ORecv 4 1 2; ORecv 4 1 3; ODoneK; ODoneK; OSent 4 1 4 10; ORecv 5 2 4; ODoneK; OSent 5 2 5 1].
Example demo_runs : exists s, k_run false false demo (k_new Aes128) = Some (s, demo_out) /\ existsb fatal demo_out = false /\ Forall not_rejected demo /\ Forall pn_ok demo.
Proof. eexists. split; [vm_compute; reflexivity|]. split; [reflexivity|]. split; repeat constructor. Qed.

(** ** C37 *)
(** The next read key is one generation ahead of the read key; the write key is at the read key's generation or one ahead;
    epochs and generations agree. *)
Theorem keys_in_step : forall dbg c os s xs, k_run dbg false os (k_new c) = Some (s, xs) -> existsb fatal xs = false ->
  forall g, gen_of (k_read s) = Some g ->
  gen_of (k_next s) = Some (g + 1) /\ (gen_of (k_write s) = Some g \/ gen_of (k_write s) = Some (g + 1)) /\
  epoch_of (k_read s) = Some (g + GEN0) /\ epoch_of (k_next s) = Some (g + 1 + GEN0) /\ epoch_of (k_write s) = match gen_of (k_write s) with Some w => Some (w + GEN0) | None => None end.
Proof.
  intros dbg c os s xs R F g G. destruct (keys_run false _ _ _ _ _ (fun H => match Bool.diff_false_true H with end) R) as [_ I]. rewrite F in I.
  destruct (I eq_refl) as [_ [_ [[K _]|[r [n [w []]]]]]]; [rewrite K in G; discriminate|]. rewrite rs_r, rs_n, rs_w in *. cbn [gen_of epoch_of] in *. apply some_inj in G.
  destruct rs_okr as [_ [A _]], rs_okn as [_ [B _]], rs_okw as [_ [C _]]. unfold GEN0. splits; try (f_equal; lia).
  assert (d_gen (a_dx w) = g \/ d_gen (a_dx w) = g + 1) as [->| ->] by lia; auto.
Qed.
Print Assumptions keys_in_step.

(** A packet number is never used twice with a key, and keys are used in order. *)
Theorem no_number_reused_with_a_key : forall dbg c os s xs, k_run dbg false os (k_new c) = Some (s, xs) ->
  forall h1 e g p h2 e' g' p' h3, sent xs = h1 ++ (e, g, p) :: h2 ++ (e', g', p') :: h3 -> e <= e' /\ (e = e' -> g = g' /\ p < p') /\ (GEN0 <= e -> e = g + GEN0).
Proof.
  intros dbg c os s xs R h1 e g p h2 e' g' p' h3 E. destruct (keys_run false _ _ _ _ _ (fun H => match Bool.diff_false_true H with end) R) as [W _].
  destruct (wa_order _ _ _ _ W _ _ _ _ _ _ _ _ _ E) as [A [B _]].
  assert (K : forall e g p, In (e, g, p) (sent xs) -> (e = 1 /\ g = 0) \/ (3 <= e /\ g + 3 = e)) by exact (wa_kind _ _ _ _ W).
  pose proof (K e g p) as K1. pose proof (K e' g' p') as K2. rewrite E in K1, K2. unfold GEN0.
  specialize (K1 ltac:(apply in_or_app; right; left; reflexivity)). specialize (K2 ltac:(apply in_or_app; right; right; apply in_or_app; right; left; reflexivity)).
  splits; [exact A|intros Q; split; [lia|exact (B Q)]|lia].
Qed.
Print Assumptions no_number_reused_with_a_key.

(** Unless 0-RTT is rejected, packet numbers increase across all keys. *)
Theorem numbers_increase : forall dbg c os s xs, k_run dbg false os (k_new c) = Some (s, xs) -> Forall not_rejected os ->
  forall h1 e g p h2 e' g' p' h3, sent xs = h1 ++ (e, g, p) :: h2 ++ (e', g', p') :: h3 -> p < p'.
Proof.
  intros dbg c os s xs R NR h1 e g p h2 e' g' p' h3 E. destruct (keys_run true _ _ _ _ _ (fun _ => NR) R) as [W _].
  destruct (wa_order _ _ _ _ W _ _ _ _ _ _ _ _ _ E) as [_ [_ B]]. exact (B eq_refl).
Qed.
Print Assumptions numbers_increase.
(** If it is, they start again at 0 (RFC 9000, 12.3, wants the 1-RTT ones to follow). *)
Theorem numbers_increase_after_rejection_refuted : exists os s xs h1 e g p h2 e' g' p' h3, k_run false false os (k_new Aes128) = Some (s, xs) /\
  sent xs = h1 ++ (e, g, p) :: h2 ++ (e', g', p') :: h3 /\ p' <= p.
Proof.
  exists [KZero DWrite; KSend 100; KSetWrite true; KSend 100]. eexists. eexists. exists [], 1, 0, 0, [], 3, 0, 0, []. split; [vm_compute; reflexivity|]. split; [reflexivity|lia].
Qed.

(** Accepted packets of consecutive generations are in packet number order. *)
Theorem accepted_in_order : forall dbg c os s xs, k_run dbg false os (k_new c) = Some (s, xs) ->
  forall e p p', In (e, p) (accepted xs) -> In (e + 1, p') (accepted xs) -> p < p'.
Proof. intros dbg c os s xs R. exact (proj1 (order_run _ _ _ _ _ R)). Qed.
Print Assumptions accepted_in_order.
(** So are all, as long as no packet was refused for its number. *)
Theorem accepted_in_order_all_partial : forall dbg c os s xs, k_run dbg false os (k_new c) = Some (s, xs) -> ~ In (OErrK EOverlap) xs ->
  forall e p e' p', In (e, p) (accepted xs) -> In (e', p') (accepted xs) -> e < e' -> p < p'.
Proof. intros dbg c os s xs R. exact (proj2 (order_run _ _ _ _ _ R)). Qed.
Print Assumptions accepted_in_order_all_partial.
(** Missing: when one was. A packet refused for its number still moves the next key's range down. *)
Theorem accepted_in_order_all_refuted : exists os s xs e p e' p', k_run false false os (k_new Aes128) = Some (s, xs) /\ existsb fatal xs = false /\
  In (e, p) (accepted xs) /\ In (e', p') (accepted xs) /\ e < e' /\ p' <= p.
Proof.
  exists [KSetWrite false; KSetRead 0; KRecv false 7 (Some 0) true 5; KRecv true 4 (Some 1) true 5; KTimer 5; KRecv false 6 (Some 2) true 9]. eexists. eexists.
  exists 3, 7, 5, 6. split; [vm_compute; reflexivity|]. split; [reflexivity|]. split; [vm_compute; auto|]. split; [vm_compute; auto|]. split; lia.
Qed.

(** A packet is only accepted under the key it was sealed with, the one its key phase bit selects. *)
Theorem accepted_under_its_key : forall dbg c os s xs ph pn g ok t s' e g' pn', k_run dbg false os (k_new c) = Some (s, xs) -> existsb fatal xs = false ->
  k_step dbg (KRecv ph pn g ok t) s = Some (s', ORecv e g' pn') -> g = Some g' /\ ph = N.odd g' /\ pn' = pn /\ e = g' + GEN0 /\ ok = true.
Proof.
  intros dbg c os s xs ph pn g ok t s' e g' pn' R F H. destruct (keys_run false _ _ _ _ _ (fun H => match Bool.diff_false_true H with end) R) as [_ I]. rewrite F in I.
  cbn [k_step] in H. unfold k_recv in H. destruct (k_read s) as [r|] eqn:Rd; [|discriminate].
  destruct (I eq_refl) as [_ [_ [[K _]|[r0 [n [w RR]]]]]]; [congruence|]. destruct RR. rewrite Rd in rs_r. apply some_inj in rs_r. subst r0.
  assert (FR : forall x s1, finish_recv dbg ok t x pn s1 = Some (s', ORecv e g' pn') -> e = d_epoch x /\ g' = d_gen x /\ pn' = pn /\ ok = true).
  { intros x s1 E. unfold finish_recv in E. destruct ok; [|discriminate]. cbn [negb] in E. destruct (if dx_needs_update x then _ else _) as [[s2 [er|]]|]; try discriminate.
    destruct (check_overlap s2) as [s3 [er|]]; inv E. auto. }
  assert (OD : forall a b, Bool.eqb (dx_phase (a_dx a)) b = true -> app_ok a -> b = N.odd (d_gen (a_dx a))).
  { intros a b E [_ [A _]]. apply Bool.eqb_prop in E. subst b. unfold dx_phase. rewrite <- A. rewrite N.even_add, <- N.negb_odd. change (N.even 3) with false. destruct (N.odd _); reflexivity. }
  destruct (rx_app ph s) as [[|]|] eqn:X; [| |discriminate]; unfold rx_app in X; rewrite Rd, rs_n in X.
  - destruct (dx_decrypt pn g (a_dx r)) as [[y [er|]]|] eqn:D; try discriminate; [inv H; destruct er; discriminate|].
    apply decrypt_spec in D. destruct D as [D1 [D2 [_ [[D _]|[_ [_ [[_ [D _]]|[[D|D] _]]]]]]]]; try discriminate.
    destruct (FR _ _ H) as [-> [-> [-> ->]]]. rewrite D2. destruct rs_okr as [A1 [A2 A3]]. splits; auto; [|unfold GEN0; lia].
    apply OD; [|unfold app_ok; auto]. destruct (Bool.eqb (dx_phase (a_dx r)) ph); [reflexivity|]. destruct (Bool.eqb (dx_phase (a_dx n)) ph); discriminate.
  - rewrite rs_n in H. destruct (dx_decrypt pn g (a_dx n)) as [[y [er|]]|] eqn:D; try discriminate; [inv H; destruct er; discriminate|].
    apply decrypt_spec in D. destruct D as [D1 [D2 [_ [[D _]|[_ [_ [[_ [D _]]|[[D|D] _]]]]]]]]; try discriminate.
    destruct (FR _ _ H) as [-> [-> [-> ->]]]. rewrite D2. destruct rs_okn as [A1 [A2 A3]]. splits; auto; [|unfold GEN0; lia].
    apply OD; [|unfold app_ok; auto]. destruct (Bool.eqb (dx_phase (a_dx n)) ph); [reflexivity|]. destruct (Bool.eqb (dx_phase (a_dx r)) ph); discriminate.
Qed.
Print Assumptions accepted_under_its_key.

(** A genuine packet with a number above all those before it is accepted if it uses the next generation, or the current one
    with no update under way - or the key's limit is reached - provided no packet was ever refused for its number. *)
Theorem fresh_packets_accepted_partial : forall c os s xs m pn t g, k_run false false os (k_new c) = Some (s, xs) -> existsb fatal xs = false -> ~ In (OErrK EOverlap) xs ->
  Forall (pn_below m) os -> m <= pn < 2 ^ 62 -> gen_of (k_next s) = Some g \/ (gen_of (k_read s) = Some g /\ gen_of (k_write s) = Some g) ->
  exists s' x, k_step false (KRecv (N.odd g) pn (Some g) true t) s = Some (s', x) /\ (x = ORecv (g + GEN0) g pn \/ x = OErrK EExhausted).
Proof.
  intros c os s xs m pn t g R F CLN B P G. destruct (keys_run false _ _ _ _ _ (fun H => match Bool.diff_false_true H with end) R) as [_ I]. rewrite F in I.
  pose proof (mb_run _ _ _ _ _ _ R B) as M. unfold GEN0.
  destruct (I eq_refl) as [_ [_ [[K1 [K2 _]]|[r [n [w RR]]]]]]; [rewrite K1, K2 in G; destruct G as [G|[G _]]; discriminate|]. cbn [k_step].
  pose proof RR as RR0. destruct RR0. rewrite rs_r, rs_n, rs_w in G. cbn [gen_of] in G. destruct rs_okr as [_ [A _]], rs_okn as [_ [A2 _]], rs_okw as [_ [A3 _]]. destruct G as [G|[G G']].
  - apply some_inj in G. destruct (fresh_next false pn t _ _ _ _ _ m RR CLN M P eq_refl) as [s' [x [E X]]]. rewrite <- A2, G in *. eauto.
  - apply some_inj in G. apply some_inj in G'. destruct (fresh_read false pn t _ _ _ _ _ m RR ltac:(lia) M P eq_refl CLN) as [s' [x [E X]]]. rewrite <- A, G in *. eauto.
Qed.
Print Assumptions fresh_packets_accepted_partial.
Example fresh_example : exists s, k_run false false demo (k_new Aes128) = Some (s, demo_out) /\ Forall (pn_below 10) demo /\ ~ In (OErrK EOverlap) demo_out /\ gen_of (k_next s) = Some 3.
Proof. eexists. split; [vm_compute; reflexivity|]. split; [repeat constructor; cbn; lia|]. split; [cbn; intuition discriminate|reflexivity]. Qed.
(** Missing: after one was refused. The peer sends 0..6 with the old key and from 7 on with the new one; 6 arrives after 7 and is refused,
    and so is every later packet, of either key, until the timer. *)
Theorem reordered_packet_accepted_refuted : exists os s xs s1, k_run false false os (k_new Aes128) = Some (s, xs) /\ existsb fatal xs = false /\ ~ In (OErrK EOverlap) xs /\
  accepted xs = [(3, 5); (4, 7)] /\ k_step false (KRecv false 6 (Some 0) true 9) s = Some (s1, OErrK EOverlap) /\
  forall pn t, 8 <= pn < 2 ^ 62 -> exists s2, k_step false (KRecv true pn (Some 1) true t) s1 = Some (s2, OErrK EOverlap).
Proof.
  exists [KSetWrite false; KSetRead 0; KRecv false 5 (Some 0) true 9; KRecv true 7 (Some 1) true 9]. eexists. eexists. eexists.
  split; [vm_compute; reflexivity|]. split; [reflexivity|]. split; [cbn; intuition discriminate|]. split; [reflexivity|]. split; [vm_compute; reflexivity|].
  intros pn t P. cbn [k_step]. unfold k_recv. cbn [k_read]. change (rx_app true _) with (Some WNext). cbv iota. cbn [k_next a_dx].
  unfold dx_decrypt, dx_invoked, dx_used, chk. cbn [d_inv d_gen d_min d_s d_e d_epoch d_len].
  match goal with |- context [?a =? 0] => change (a =? 0) with false end. cbv iota. change (1 =? 1) with true. cbv iota. cbn [d_inv d_gen d_min d_s d_e d_epoch d_len].
  destruct (N.ltb_spec pn 7); [lia|]. destruct (N.ltb_spec (pn + 1) (2 ^ 64)); [|lia]. unfold finish_recv. cbn [negb].
  change (6 =? 8) with false. cbv iota. rewrite N.max_l by lia. unfold dx_needs_update. cbn [d_s d_e d_epoch].
  destruct (N.eqb_spec (6 + 1) (pn + 1)); [lia|]. cbn [andb]. unfold check_overlap. cbn [k_time k_next with_next k_read a_dx with_dx]. unfold dx_continue. cbn [d_s d_e].
  destruct (N.ltb_spec 6 (pn + 1)); [|lia]. cbn [negb]. change (6 <? 7) with true. cbv iota. eexists. reflexivity.
Qed.

(** A peer's update is answered: the write key is at least as new as any key it was seen to use. *)
Theorem update_answered : forall dbg c os s xs, k_run dbg false os (k_new c) = Some (s, xs) -> existsb fatal xs = false ->
  forall e p, In (e, p) (accepted xs) -> exists w, epoch_of (k_write s) = Some w /\ e <= w.
Proof.
  intros dbg c os s xs R F e p H. destruct (keys_run false _ _ _ _ _ (fun H => match Bool.diff_false_true H with end) R) as [_ I]. rewrite F in I.
  destruct (I eq_refl) as [_ [_ [[_ [_ [_ [_ [K _]]]]]|[r [n [w []]]]]]]; [rewrite K in H; destruct H|].
  rewrite rs_w. cbn. eexists. split; [reflexivity|]. pose proof (rs_top _ _ H). destruct (N.eq_dec e (d_epoch (a_dx n))) as [->|]; [|lia].
  pose proof (rs_hn _ H). destruct (k_upd s) as [u|]; [|lia]. destruct rs_upd as [_ U]. destruct (k_time s); lia.
Qed.
Print Assumptions update_answered.

(** The read key is kept until the time set when the update, or the read key, came. *)
Definition sets_time (t : N) (o : kop) : Prop := match o with KRecv _ _ _ _ t' | KRecv0 _ _ _ t' | KSetRead t' => t = t' | _ => False end.
Lemma upd_time : forall s s', upd s s' -> k_time s' = k_time s. Proof. intros s s' U. apply upd_cipher in U. tauto. Qed.
Lemma finish_time : forall dbg ok t x pn s s' y, finish_recv dbg ok t x pn s = Some (s', y) -> k_time s' = k_time s \/ k_time s' = Some t.
Proof.
  unfold finish_recv. intros dbg ok t x pn s s' y H. destruct ok; cbn [negb] in H; [|inv H; auto].
  assert (K : forall s1 r, (if dx_needs_update x then update_received dbg (d_epoch x) t s else Some (s, None)) = Some (s1, r) -> k_time s1 = k_time s \/ k_time s1 = Some t).
  { intros s1 r E. destruct (dx_needs_update x); [|inv E; auto]. apply received_spec in E. destruct E as [[-> _]|[_ [s2 [U E]]]]; [auto|]. apply upd_time in U.
    destruct E as [[e [_ [-> _]]]|[_ [-> _]]]; [left; exact U|]. right. reflexivity. }
  destruct (if dx_needs_update x then update_received dbg (d_epoch x) t s else Some (s, None)) as [[s1 [e|]]|] eqn:E; [| |discriminate].
  - inv H. exact (K _ _ eq_refl).
  - destruct (check_overlap s1) as [s2 re] eqn:O. apply overlap_keeps in O. destruct O as [_ [_ [_ [_ [O _]]]]]. assert (s' = s2) by (destruct re; inv H; reflexivity). subst s2. rewrite O. exact (K _ _ eq_refl).
Qed.
Lemma time_step : forall dbg o s s' x, k_step dbg o s = Some (s', x) -> k_time s' = k_time s \/ k_time s' = None \/ exists t, k_time s' = Some t /\ sets_time t o.
Proof.
  intros dbg o s s' x H. destruct o as [d|rej|ex|b|ph pn g ok t|pn g ok t|la| |now]; cbn [k_step sets_time] in *.
  - destruct d; destruct (k_zero s) eqn:Z; try discriminate; destruct (k_write s) eqn:W; try discriminate; destruct (k_read s) eqn:R; try discriminate; inv H; auto.
  - unfold set_write in H. set (s0 := if rej then with_zero None s else s) in *. assert (S0 : k_time s0 = k_time s) by (subst s0; destruct rej; auto).
    destruct (k_write s0); [discriminate|]. destruct (k_zero s0) as [[[|] z]|]; cbn in H; inv H; cbn; rewrite S0; auto.
  - unfold set_read in H. destruct (k_write s); [|discriminate]. destruct (k_read s); [discriminate|].
    destruct (match k_zero s with Some (DRead, z) => _ | _ => _ end) as [y okb]. destruct okb; cbn [negb] in H; [|cbn in H; inv H; auto].
    destruct (app_next _ _ _); cbn in H; inv H; destruct (k_zero s); cbn; eauto.
  - apply send_spec in H. destruct H as [[-> _]|[[-> _]|[H|H]]]; auto.
    + destruct H as [w [d [r [_ [_ [U _]]]]]]. apply upd_time in U. auto.
    + destruct H as [_ [z [d [r [Z [_ [-> _]]]]]]]. auto.
  - unfold k_recv in H. destruct (k_read s) as [r|]; [|inv H; auto]. destruct (rx_app ph s) as [[|]|]; [| |inv H; auto].
    + destruct (dx_decrypt pn g (a_dx r)) as [[y [e|]]|]; [inv H; auto| |discriminate]. apply finish_time in H. destruct H as [H|H]; [auto|eauto].
    + destruct (k_next s) as [n|]; [|discriminate]. destruct (dx_decrypt pn g (a_dx n)) as [[y [e|]]|]; [inv H; auto| |discriminate]. apply finish_time in H. destruct H as [H|H]; [auto|eauto].
  - unfold k_recv0 in H. destruct (k_zero s) as [[[|] z]|]; [|inv H; auto|inv H; auto].
    destruct (dx_decrypt pn g z) as [[y [e|]]|]; [inv H; auto| |discriminate]. apply finish_time in H. destruct H as [H|H]; [auto|eauto].
  - destruct (initiate dbg la s) as [[s1 re]|] eqn:U; [|discriminate]. apply initiate_spec in U. destruct U as [U _]. apply upd_time in U. destruct re; cbn in H; inv H; auto.
  - destruct (auto_update dbg s) as [[s1 re]|] eqn:U; [|discriminate]. apply auto_spec in U. destruct U as [U _]. apply upd_time in U. destruct re; cbn in H; inv H; auto.
  - unfold check_update in H. destruct (k_time s) as [t|] eqn:T; [|inv H; auto]. destruct (t <=? now); [|inv H; auto].
    destruct (has_0rtt_read s); [inv H; auto|]. cbn [k_read with_next with_read] in H. destruct (k_next s) as [n|]; [|inv H; cbn; auto].
    destruct (app_next _ _ n); inv H; cbn; auto.
Qed.
Lemma time_run : forall dbg os cl s s' xs, k_run dbg cl os s = Some (s', xs) -> forall t, k_time s' = Some t -> k_time s = Some t \/ exists o, In o os /\ sets_time t o.
Proof.
  induction os as [|o os IH]; intros cl s s' xs R t T; cbn [k_run] in R; [inv R; auto|].
  destruct (cl && _); [destruct (IH _ _ _ _ R t T) as [K|[o' [A B]]]; [auto|right; exists o'; cbn; auto]|].
  destruct (k_step dbg o s) as [[s1 x]|] eqn:S1; [|discriminate]. destruct (k_run dbg (cl || fatal x) os s1) as [[s2 ys]|] eqn:Q; [|discriminate]. inv R.
  destruct (IH _ _ _ _ Q t T) as [K|[o' [A B]]]; [|right; exists o'; cbn; auto].
  apply time_step in S1. destruct S1 as [S1|[S1|[t' [S1 S2]]]]; [left; congruence|congruence|]. right. exists o. cbn. split; [auto|]. congruence.
Qed.
Theorem old_key_kept_until_timer : forall dbg c os s xs o s' x g, k_run dbg false os (k_new c) = Some (s, xs) -> existsb fatal xs = false ->
  k_step dbg o s = Some (s', x) -> gen_of (k_read s) = Some g ->
  gen_of (k_read s') = Some g \/ (exists now t o', o = KTimer now /\ t <= now /\ In o' os /\ sets_time t o' /\ (gen_of (k_read s') = Some (g + 1))).
Proof.
  intros dbg c os s xs o s' x g R F H G. destruct (keys_run false _ _ _ _ _ (fun H => match Bool.diff_false_true H with end) R) as [W I]. rewrite F in I, W.
  pose proof (I eq_refl) as [_ [Z2 [[K1 _]|[r [n [w RR]]]]]]; [rewrite K1 in G; discriminate|]. pose proof RR as RR0. destruct RR0.
  rewrite rs_r in G. cbn in G. apply some_inj in G.
  destruct o as [d|rej|ex|b|ph pn gg ok t|pn gg ok t|la| |now].
  9:{ cbn [k_step] in H. unfold check_update in H. destruct (k_time s) as [t|] eqn:T; [|inv H; rewrite rs_r; cbn; auto]. destruct (N.leb_spec t now); [|inv H; rewrite rs_r; cbn; auto].
      destruct (time_run _ _ _ _ _ _ R t T) as [K|[o' [A B]]]; [discriminate|].
      destruct (has_0rtt_read s); [inv H; cbn; rewrite rs_r; cbn; auto|]. cbn [k_read with_next with_read] in H. rewrite rs_n in H.
      right. exists now, t, o'. assert (gen_of (k_read s') = Some (d_gen (a_dx n))) by (destruct (app_next _ _ n); inv H; reflexivity).
      destruct rs_okr as [_ [A1 _]], rs_okn as [_ [A2 _]]. splits; auto. rewrite H1. f_equal. lia. }
  all: left;
    assert (E : exists r', k_read s' = Some r' /\ d_gen (a_dx r') = d_gen (a_dx r)); [|destruct E as [r' [-> E]]; cbn; congruence].
  - cbn [k_step] in H. rewrite rs_r, rs_w in H. destruct d; destruct (k_zero s); discriminate.
  - cbn [k_step] in H. unfold set_write in H. destruct rej; cbn [k_write with_zero] in H; rewrite rs_w in H; discriminate.
  - cbn [k_step] in H. unfold set_read in H. rewrite rs_r, rs_w in H. discriminate.
  - cbn [k_step] in H. apply send_spec in H. destruct H as [[-> _]|[[-> _]|[H|H]]]; eauto.
    + destruct H as [w0 [d [r0 [_ [_ [U _]]]]]]. apply upd_cipher in U. destruct U as [_ [_ [U _]]]. cbn in U. rewrite U. eauto.
    + destruct H as [_ [z [d [r0 [Z [_ [-> _]]]]]]]. cbn. eauto.
  - cbn [k_step] in H. unfold k_recv in H. rewrite rs_r in H. destruct (rx_app ph s) as [[|]|]; [| |inv H; eauto].
    + destruct (dx_decrypt pn gg (a_dx r)) as [[y re]|] eqn:D; [|discriminate]. apply decrypt_spec in D. destruct D as [_ [D _]].
      destruct re; [inv H; cbn; eauto|]. assert (FK : k_read s' = Some (with_dx y r)); [|rewrite FK; cbn; eauto].
      unfold finish_recv in H. destruct ok; cbn [negb] in H; [|inv H; reflexivity].
      destruct (if dx_needs_update y then _ else _) as [[s1 e1]|] eqn:E; [|discriminate].
      assert (K : k_read s1 = Some (with_dx y r)).
      { destruct (dx_needs_update y); [|inv E; reflexivity]. apply received_spec in E. destruct E as [[-> _]|[_ [s2 [U E]]]]; [reflexivity|].
        apply upd_cipher in U. destruct U as [_ [_ [U _]]]. cbn in U. destruct E as [[e [_ [-> _]]]|[_ [-> _]]]; [exact U|]. destruct (has_0rtt_read s2); exact U. }
      destruct e1; [inv H; exact K|]. destruct (check_overlap s1) as [s2 re] eqn:O. apply overlap_keeps in O. destruct O as [_ [_ [_ [O _]]]]. destruct re; inv H; congruence.
    + rewrite rs_n in H. destruct (dx_decrypt pn gg (a_dx n)) as [[y re]|] eqn:D; [|discriminate].
      destruct re; [inv H; cbn; eauto|]. assert (FK : k_read s' = Some r); [|rewrite FK; cbn; eauto].
      unfold finish_recv in H. destruct ok; cbn [negb] in H; [|inv H; exact rs_r].
      destruct (if dx_needs_update y then _ else _) as [[s1 e1]|] eqn:E; [|discriminate].
      assert (K : k_read s1 = Some r).
      { destruct (dx_needs_update y); [|inv E; exact rs_r]. apply received_spec in E. destruct E as [[-> _]|[_ [s2 [U E]]]]; [exact rs_r|].
        apply upd_cipher in U. destruct U as [_ [_ [U _]]]. cbn in U. destruct E as [[e [_ [-> _]]]|[_ [-> _]]]; [congruence|]. destruct (has_0rtt_read s2); cbn; congruence. }
      destruct e1; [inv H; exact K|]. destruct (check_overlap s1) as [s2 re] eqn:O. apply overlap_keeps in O. destruct O as [_ [_ [_ [O _]]]]. destruct re; inv H; congruence.
  - cbn [k_step] in H. unfold k_recv0 in H. destruct (k_zero s) as [[[|] z]|] eqn:Z; [|inv H; eauto|inv H; eauto].
    destruct (dx_decrypt pn gg z) as [[y re]|] eqn:D; [|discriminate].
    destruct re; [inv H; cbn; eauto|]. assert (FK : k_read s' = Some r); [|rewrite FK; cbn; eauto].
    unfold finish_recv in H. destruct ok; cbn [negb] in H; [|inv H; exact rs_r].
    destruct (if dx_needs_update y then _ else _) as [[s1 e1]|] eqn:E; [|discriminate].
    assert (K : k_read s1 = Some r).
    { destruct (dx_needs_update y); [|inv E; exact rs_r]. apply received_spec in E. destruct E as [[-> _]|[_ [s2 [U E]]]]; [exact rs_r|].
      apply upd_cipher in U. destruct U as [_ [_ [U _]]]. cbn in U. destruct E as [[e [_ [-> _]]]|[_ [-> _]]]; [congruence|]. destruct (has_0rtt_read s2); cbn; congruence. }
    destruct e1; [inv H; exact K|]. destruct (check_overlap s1) as [s2 re] eqn:O. apply overlap_keeps in O. destruct O as [_ [_ [_ [O _]]]]. destruct re; inv H; congruence.
  - cbn [k_step] in H. destruct (initiate dbg la s) as [[s1 re]|] eqn:U; [|discriminate]. apply initiate_spec in U. destruct U as [U _]. apply upd_cipher in U. destruct U as [_ [_ [U _]]]. destruct re; cbn in H; inv H; rewrite U; eauto.
  - cbn [k_step] in H. destruct (auto_update dbg s) as [[s1 re]|] eqn:U; [|discriminate]. apply auto_spec in U. destruct U as [U _]. apply upd_cipher in U. destruct U as [_ [_ [U _]]]. destruct re; cbn in H; inv H; rewrite U; eauto.
Qed.
Print Assumptions old_key_kept_until_timer.

(** The application's own update happens only when both directions are at one generation, no earlier update is being finished, and a packet sent
    with the current key is acknowledged (or it is the first); it moves the write key one generation on. *)
Theorem own_update_conditions : forall dbg c os s xs la s', k_run dbg false os (k_new c) = Some (s, xs) -> existsb fatal xs = false ->
  k_step dbg (KInitiate la) s = Some (s', ODoneK) ->
  exists g, gen_of (k_write s) = Some g /\ gen_of (k_read s) = Some g /\ gen_of (k_write s') = Some (g + 1) /\
    match la with Some n => In (g + GEN0, g, n) (sent xs) | None => g = 0 end.
Proof.
  intros dbg c os s xs la s' R F H. destruct (keys_run false _ _ _ _ _ (fun H => match Bool.diff_false_true H with end) R) as [W I]. rewrite F in I, W.
  cbn [k_step] in H. destruct (initiate dbg la s) as [[s1 re]|] eqn:U; [|discriminate]. destruct re; [discriminate|]. cbn in H. inv H.
  apply initiate_spec in U. destruct U as [U U2]. destruct (U2 eq_refl) as [w [Ww [CU NE]]]. destruct (wa_write _ _ _ _ W _ Ww) as [[O1 [O2 O3]] DW].
  destruct U as [E|[w1 [w2 [r [A [B [C [[D ->] ->]]]]]]]]; [congruence|]. rewrite Ww in A. apply some_inj in A. subst w1.
  destruct (I eq_refl) as [_ [_ [[K _]|[r0 [n [w0 []]]]]]]; [congruence|]. rewrite B in rs_r. apply some_inj in rs_r. subst r0. destruct rs_okr as [_ [A2 _]].
  exists (d_gen (a_dx w)). rewrite Ww, B. cbn [gen_of k_write with_write a_dx d_gen dx_next]. splits; auto; try (f_equal; lia).
  unfold GEN0, dx_can_update in *. destruct la as [m|]; [|dlia]. rewrite O2. apply (wa_all _ _ _ _ W eq_refl _ _ Ww). dlia.
Qed.
Print Assumptions own_update_conditions.
Example own_update_happens : exists s s1 xs, k_run false false [KSetWrite false; KSetRead 0; KSend 100] (k_new Aes128) = Some (s, xs) /\ k_step false (KInitiate (Some 0)) s = Some (s1, ODoneK) /\
  k_step false (KInitiate (Some 5)) s = Some (s, OErrK EBlocked).
Proof. eexists. eexists. eexists. split; [vm_compute; reflexivity|]. split; vm_compute; reflexivity. Qed.

(** While keys from before the peer's update are kept, the application's update is refused and changes nothing. *)
Theorem own_update_waits_for_old_key : forall dbg s la t w, k_write s = Some w -> k_time s = Some t -> k_step dbg (KInitiate la) s = Some (s, OErrK EBlocked).
Proof. intros dbg s la t w W T. cbn [k_step]. unfold initiate. rewrite W, T, andb_false_r. reflexivity. Qed.
Print Assumptions own_update_waits_for_old_key.
Example own_update_refused : exists s s1 xs t, k_run false false [KSetWrite false; KSetRead 0; KSend 100; KRecv true 1 (Some 1) true 20] (k_new Aes128) = Some (s, xs) /\ k_time s = Some t /\ k_step false (KSend 100) s = Some (s1, OSent 4 1 1 100) /\ k_step false (KInitiate (Some 1)) s1 = Some (s1, OErrK EBlocked).
Proof. eexists. eexists. eexists. eexists. split; [vm_compute; reflexivity|]. split; [vm_compute; reflexivity|]. split; vm_compute; reflexivity. Qed.

(** Release builds never panic. *)
Theorem key_updates_never_panic : forall c os s xs o, k_run false false os (k_new c) = Some (s, xs) -> lenN os < 2 ^ 63 -> pn_ok o -> installs o = false -> k_step false o s <> None.
Proof.
  intros c os s xs o R L P In. pose proof (np_run _ _ _ _ _ R) as I. pose proof (run_len _ _ _ _ _ _ R). apply (step_total o s xs I); auto. lia.
Qed.
Print Assumptions key_updates_never_panic.
(** Debug builds do when a client updates its keys while the server still holds 0-RTT keys. *)
Theorem debug_builds_never_panic_refuted : exists os s xs, k_run true false os (k_new Aes128) = Some (s, xs) /\ existsb fatal xs = false /\ k_step true (KRecv true 1 (Some 1) true 20) s = None.
Proof.
  exists [KSetWrite false; KZero DRead; KRecv0 0 (Some 0) true 5; KSetRead 10]. eexists. eexists. split; [vm_compute; reflexivity|]. split; [reflexivity|vm_compute; reflexivity].
Qed.

(** ** C78 *)
Lemma conf_is : forall c, confidentiality c = limit DWrite c. Proof. intros []; reflexivity. Qed.
Lemma integ_is : forall c, integrity c = limit DRead c. Proof. intros []; reflexivity. Qed.
Theorem write_key_limit : forall dbg c os s xs e, k_run dbg false os (k_new c) = Some (s, xs) -> count (sent_with e) xs <= confidentiality c.
Proof. intros dbg c os s xs e R. rewrite conf_is. exact (proj1 (wl_b _ _ _ (proj1 (limits_run _ _ _ _ _ R))) e). Qed.
Print Assumptions write_key_limit.
(** Halved for each doubling of the packet size over 2^11. *)
Theorem write_key_limit_long : forall dbg c os s xs e k, k_run dbg false os (k_new c) = Some (s, xs) -> 11 <= k -> count (sent_longer e (2 ^ k)) xs <= confidentiality c / 2 ^ (k - 10).
Proof. intros dbg c os s xs e k R K. rewrite conf_is. exact (proj2 (wl_b _ _ _ (proj1 (limits_run _ _ _ _ _ R))) e k K). Qed.
Print Assumptions write_key_limit_long.
(** Packets opened, or not, with one read key. *)
Theorem read_key_limit : forall dbg c os s xs e, k_run dbg false os (k_new c) = Some (s, xs) -> GEN0 <= e -> count (opened_or_failed e) xs <= integrity c.
Proof. intros dbg c os s xs e R E. rewrite integ_is. exact (rl_b _ _ _ _ (proj2 (limits_run _ _ _ _ _ R)) e E). Qed.
Print Assumptions read_key_limit.
Example limits_are : limit DWrite Aes128 = 2 ^ 28 /\ limit DWrite Aes256 = 2 ^ 28 /\ limit DRead Aes128 = 2 ^ 52 /\ limit DRead ChaCha = 2 ^ 36 /\
  count (sent_with 3) demo_out = 1 /\ count (sent_with 4) demo_out = 2 /\ count (sent_longer 4 (2 ^ 13)) demo_out = 1 /\ count (opened_or_failed 3) demo_out = 2.
Proof. repeat split. Qed.

(** Keys are replaced before they run out: whenever a packet is sent, the key the next packet would use has more than 100 uses left. *)
Theorem key_renewed_in_time : forall dbg body s s' e g pn b w, k_step dbg (KSend body) s = Some (s', OSent e g pn b) -> k_write s' = Some w ->
  100 < d_inv (a_dx w).
Proof.
  assert (A : forall dbg s s' w, auto_update dbg s = Some (s', None) -> k_write s' = Some w -> 100 < d_inv (a_dx w)).
  { intros dbg s s' w H W. unfold auto_update in H. destruct (k_write s) as [w0|] eqn:K.
    2: { apply some_inj in H. apply pair_equal_spec in H. destruct H as [<- _]. congruence. }
    destruct (dx_should_update (a_dx w0)) eqn:U.
    2: { apply some_inj in H. apply pair_equal_spec in H. destruct H as [<- _]. rewrite K in W. apply some_inj in W. subst w0. unfold dx_should_update, UPDATE_WRITE_KEYS_AT in U. apply N.leb_gt in U. exact U. }
    unfold maybe_update_write in H. destruct (_ && _); [discriminate|]. rewrite K in H. destruct (k_read s) as [r|]; [|discriminate].
    destruct (_ =? _); [|discriminate]. unfold app_next in H. destruct (_ =? _); [discriminate|].
    apply some_inj in H. apply pair_equal_spec in H. destruct H as [<- _]. cbn [k_write with_write] in W. apply some_inj in W. subst w. cbn [a_dx dx_next d_inv].
    unfold limit, NUMBER_MAX. destruct (k_cipher s); reflexivity. }
  intros dbg body s s' e g pn b w H W. cbn [k_step] in H. unfold k_send in H. destruct (k_write s) as [w0|] eqn:K.
  - destruct (dx_encrypt body (a_dx w0)) as [[x r]|]; [|discriminate]. destruct r as [p|?]; [|discriminate].
    destruct (auto_update dbg _) as [[s2 [?|]]|] eqn:U; try discriminate. inv H. eapply A; eauto.
  - destruct (k_zero s) as [[[|] z]|]; try discriminate. destruct (dx_encrypt body z) as [[x r]|]; [|discriminate]. destruct r as [p|?]; [|discriminate].
    destruct (auto_update dbg _) as [[s2 [?|]]|] eqn:U; try discriminate. inv H. eapply A; eauto.
Qed.
Print Assumptions key_renewed_in_time.
Example key_renewed : exists w r s', w = mkApp (mkDx 3 0 0 5 0 101 2048) 1 /\ r = mkApp (mkDx 3 0 0 5 0 101 2048) 1 /\
  k_step false (KSend 100) (mkK Aes128 None (Some w) (Some r) None None None) = Some (s', OSent 3 0 5 100) /\ gen_of (k_write s') = Some 1.
Proof. eexists. eexists. eexists. split; [reflexivity|]. split; [reflexivity|]. split; vm_compute; reflexivity. Qed.

(** The limit on forged packets is per key; RFC 9001, 6.6, counts those of all keys. *)
Lemma count_failed : forall e k, count failed_any (repeat (OFailed e) (N.to_nat k)) = k.
Proof.
  intros e k. induction k as [|k IH] using N.peano_ind; [reflexivity|]. rewrite N2Nat.inj_succ. cbn [repeat]. unfold count in *. cbn [filter failed_any]. rewrite lenN_cons, IH. lia.
Qed.
Lemma fatal_failed : forall e k, existsb fatal (repeat (OFailed e) k) = false.
Proof. intros e k. induction k; [reflexivity|exact IHk]. Qed.
Lemma two_keys : forall k, k < 2 ^ 36 -> exists os s xs, k_run false false os (k_new ChaCha) = Some (s, xs) /\ existsb fatal xs = false /\ count failed_any xs = k + k.
Proof.
  intros k K.
  set (r1 := mkApp (mkDx 3 0 0 0 0 (2 ^ 36) 2048) 1). set (n1 := mkApp (mkDx 4 1 0 0 0 (2 ^ 36) 2048) 2). set (w1 := mkApp (mkDx 3 0 0 0 0 NUMBER_MAX 2048) 1).
  set (s1 := mkK ChaCha None (Some w1) (Some r1) (Some n1) None None).
  assert (R1 : k_run false false [KSetWrite false; KSetRead 0] (k_new ChaCha) = Some (s1, [ODoneK; ODoneK])) by (vm_compute; reflexivity).
  destruct (forged_run false k s1 r1 9 0 eq_refl (ex_intro _ _ (conj eq_refl eq_refl)) ltac:(cbn; lia)) as [s2 [R2 E2]].
  set (n2 := mkApp (mkDx 4 1 0 1 0 (2 ^ 36 - 1) 2048) 2). set (w2 := mkApp (mkDx 4 1 0 0 0 NUMBER_MAX 2048) 2). set (n3 := mkApp (mkDx 5 2 1 1 1 (2 ^ 36 - 1) 2048) 3).
  set (s3 := mkK ChaCha None (Some w2) (Some n2) (Some n3) None (Some 4)).
  assert (R3 : k_run false false [KRecv true 0 (Some 1) true 5; KTimer 5] s2 = Some (s3, [ORecv 4 1 0; ODoneK])).
  { rewrite E2. reflexivity. }
  destruct (forged_run false k s3 n2 9 0 eq_refl (ex_intro _ _ (conj eq_refl eq_refl)) ltac:(cbn; lia)) as [s4 [R4 E4]].
  exists ([KSetWrite false; KSetRead 0] ++ repeat (KRecv (dx_phase (a_dx r1)) 9 None true 0) (N.to_nat k) ++ [KRecv true 0 (Some 1) true 5; KTimer 5] ++ repeat (KRecv (dx_phase (a_dx n2)) 9 None true 0) (N.to_nat k)), s4.
  eexists. rewrite k_run_app, R1. cbn [existsb fatal orb]. rewrite k_run_app, R2, fatal_failed. cbn [orb]. rewrite k_run_app, R3. cbn [existsb fatal orb]. rewrite R4.
  split; [reflexivity|]. rewrite !existsb_app, !fatal_failed. split; [reflexivity|]. rewrite !count_app, !count_failed. unfold count. cbn. lia.
Qed.
Theorem forged_limit_over_all_keys_refuted : exists c os s xs, k_run false false os (k_new c) = Some (s, xs) /\ existsb fatal xs = false /\ integrity c < count failed_any xs.
Proof. destruct (two_keys (2 ^ 36 - 1) ltac:(lia)) as [os [s [xs [A [B C]]]]]. exists ChaCha, os, s, xs. splits; auto. rewrite C. vm_compute. reflexivity. Qed.
Print Assumptions forged_limit_over_all_keys_refuted.
