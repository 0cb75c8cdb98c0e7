(** C101: SCONE throughput advice. *)
From Coq Require Import NArith List Bool Lia Sorted.
From Verif Require Import Lib ScModel ScSpec.
Import ListNotations.
Open Scope N_scope.

(** The signal is read from its seven bits, whatever the others are. *)
Theorem bitrate_bits first version : version < 2 ^ 32 -> bitrate first version = 2 * (first mod 64) + version / 2 ^ 31 /\ bitrate first version < 128.
Proof.
  intro V. unfold bitrate. rewrite N.shiftr_div_pow2, N.shiftl_mul_pow2. change 0x3f with (N.ones 6). change 0xff with (N.ones 8). rewrite !N.land_ones.
  assert (A : first mod 2 ^ 6 < 64) by (apply N.mod_lt; discriminate). assert (B : version / 2 ^ 31 < 2) by (apply N.div_lt_upper_bound; [discriminate | exact V]).
  change (2 ^ 6) with 64 in *. change (2 ^ 8) with 256. set (f := first mod 64) in *. set (v := version / 2 ^ 31) in *. rewrite (N.mod_small (f * 2 ^ 1) 256) by (change (2 ^ 1) with 2; lia).
  assert (E : N.lor v (f * 2 ^ 1) = f * 2 + v).
  { rewrite N.lor_comm. change (2 ^ 1) with 2. destruct v as [|[]]; try lia; [rewrite N.lor_0_r; lia|]. rewrite (N.mul_comm f 2), <- N.double_spec. destruct f; reflexivity. }
  rewrite E. lia.
Qed.
Print Assumptions bitrate_bits.

Lemma sc_run_snoc l a p : sc_run p (l ++ [a]) = let (es, q) := sc_run p l in let (e, q') := update_scone (a_now a) (a_signal a) (a_primary a) q in (es ++ [e], q').
Proof.
  revert p. induction l as [|b l IH]; intro p; cbn [app sc_run].
  - destruct (update_scone (a_now a) (a_signal a) (a_primary a) p). reflexivity.
  - destruct (update_scone (a_now b) (a_signal b) (a_primary b) p) as [e q]. rewrite IH. destruct (sc_run q l) as [es q2]. destruct (update_scone _ _ _ q2). reflexivity.
Qed.

(** After a packet with a signal the rate in force is no higher than that signal. *)
Theorem scone_at_most l a es p r : sc_run None (l ++ [a]) = (es, p) -> a_signal a = Some r -> r <= UNKNOWN -> in_force p <= r.
Proof.
  rewrite sc_run_snoc. destruct (sc_run None l) as [es0 q]. unfold update_scone. intros H S U. rewrite S in H. destruct q as [s|].
  - unfold update in H. destruct ((r <=? sc_rate s) || expired s (a_now a)) eqn:C; inversion H; subst; cbn; [lia|]. apply orb_false_iff in C. destruct C as [C _]. apply N.leb_gt in C. lia.
  - unfold is_set in H. destruct (r =? UNKNOWN) eqn:C; cbn in H; inversion H; subst; cbn; [apply N.eqb_eq in C; lia | lia].
Qed.
Print Assumptions scone_at_most.

(** The rate in force after a packet was signalled less than 67 seconds before it, or is unknown; and it is the lowest signalled
    since then. *)
Definition Since (l : list arrival) (p : option scone) : Prop :=
  match p with
  | Some s => exists l1 a l2, l = l1 ++ a :: l2 /\ a_now a = sc_updated s /\ sc_rate s = match a_signal a with Some r => r | None => UNKNOWN end /\
      (forall b, In b l2 -> forall r, a_signal b = Some r -> sc_rate s < r) /\ (forall b, In b l2 -> a_now b < sc_updated s + PERIOD)
  | None => forall a r, In a l -> a_signal a = Some r -> r = UNKNOWN
  end.
Lemma since_run l : forall es p, sc_run None l = (es, p) -> Since l p.
Proof.
  induction l as [|a l IH] using rev_ind; intros es p H; [inversion H; subst; intros a r []|]. rewrite sc_run_snoc in H. destruct (sc_run None l) as [es0 q] eqn:R. specialize (IH _ _ eq_refl).
  unfold update_scone in H. destruct q as [s|].
  - unfold update in H. destruct ((match a_signal a with Some v => v <=? sc_rate s | None => false end) || expired s (a_now a)) eqn:C; inversion H; subst; cbn [Since].
    + exists l, a, []. cbn. splits; auto; intros b [].
    + destruct IH as (l1 & b & l2 & -> & A & B & D & E). apply orb_false_iff in C. destruct C as [C1 C2]. unfold expired in C2. apply N.leb_gt in C2. exists l1, b, (l2 ++ [a]). splits; auto.
      * rewrite <- app_assoc. reflexivity.
      * intros c I r S. apply in_app_or in I. destruct I as [I|[<-|[]]]; [eapply D; eauto|]. rewrite S in C1. apply N.leb_gt in C1. exact C1.
      * intros c I. apply in_app_or in I. destruct I as [I|[<-|[]]]; [apply E; exact I | exact C2].
  - destruct (a_signal a) as [r|] eqn:S.
    + unfold is_set in H. destruct (r =? UNKNOWN) eqn:C; cbn in H; inversion H; subst; cbn [Since].
      * apply N.eqb_eq in C. intros b v I V. apply in_app_or in I. destruct I as [I|[<-|[]]]; [eapply IH; eauto | congruence].
      * exists l, a, []. cbn. rewrite S. splits; auto; intros b [].
    + inversion H; subst. intros b v I V. apply in_app_or in I. destruct I as [I|[<-|[]]]; [eapply IH; eauto | congruence].
Qed.
Lemma in_time_last l a : in_time (l ++ [a]) -> forall b, In b l -> a_now b <= a_now a.
Proof.
  unfold in_time. induction l as [|c l IH]; cbn; intros S b []; subst; inversion S; subst.
  - rewrite Forall_forall in H2. apply H2. apply in_or_app. right. left. reflexivity.
  - apply IH; auto.
Qed.
Theorem scone_recent l a es p : sc_run None (l ++ [a]) = (es, p) -> in_time (l ++ [a]) -> in_force p <> UNKNOWN ->
  exists l1 b l2, l ++ [a] = l1 ++ b :: l2 /\ a_signal b = Some (in_force p) /\ recent (a_now a) b /\ forall c r, In c l2 -> a_signal c = Some r -> in_force p < r.
Proof.
  intros H T U. pose proof (since_run _ _ _ H) as S. destruct p as [s|]; [|exfalso; apply U; reflexivity]. cbn [in_force] in *. destruct S as (l1 & b & l2 & E & A & B & D & F).
  exists l1, b, l2. splits; auto.
  - destruct (a_signal b); congruence.
  - unfold recent. rewrite A. destruct l2 as [|x l2] using rev_ind.
    + apply app_inj_tail in E. destruct E as [_ ->]. rewrite A. unfold PERIOD. lia.
    + clear IHl2. rewrite app_comm_cons, app_assoc in E. apply app_inj_tail in E. destruct E as [_ ->]. apply F. apply in_or_app. right. left. reflexivity.
  - intros c r I S. eapply D; eauto.
Qed.
Print Assumptions scone_recent.

(** On the primary path the application's belief is the rate in force, and it is told only of changes. *)
Theorem scone_believed l es p : (forall a, In a l -> a_primary a = true /\ forall r, a_signal a = Some r -> r <= UNKNOWN) -> sc_run None l = (es, p) ->
  believed es = in_force p /\ forall e1 r e2, es = e1 ++ Some r :: e2 -> believed e1 <> r.
Proof.
  revert es p. induction l as [|a l IH] using rev_ind; intros es p P H.
  { inversion H; subst. split; [reflexivity|]. intros e1 r e2 E. destruct e1; discriminate. }
  rewrite sc_run_snoc in H. destruct (sc_run None l) as [es0 q] eqn:R. destruct (IH es0 q (fun b I => P b (in_or_app _ _ _ (or_introl I))) eq_refl) as [B C]. clear IH.
  destruct (P a ltac:(apply in_or_app; right; left; reflexivity)) as [PA PR].
  assert (X : exists e, es = es0 ++ [e] /\ ((e = None /\ in_force p = in_force q) \/ (exists r, e = Some r /\ in_force p = r /\ in_force q <> r))).
  { unfold update_scone in H. rewrite PA in H. destruct q as [s|].
    - unfold update in H. destruct (_ || _); [|inversion H; subst; eexists; split; [reflexivity | left; auto]]. set (rate := match a_signal a with Some v => v | None => UNKNOWN end) in *.
      destruct (rate =? sc_rate s) eqn:E; cbn in H; inversion H; subst; eexists; (split; [reflexivity|]); [left | right].
      + apply N.eqb_eq in E. split; auto. 
      + apply N.eqb_neq in E. exists rate. cbn. splits; auto.
    - destruct (a_signal a) as [r|]; [unfold is_set in H; destruct (r =? UNKNOWN) eqn:E|]; cbn in H; inversion H; subst; eexists; (split; [reflexivity|]); [left; auto | right | left; auto].
      apply N.eqb_neq in E. exists r. cbn. splits; auto. }
  destruct X as (e & -> & X). assert (BS : believed (es0 ++ [e]) = match e with Some r => r | None => believed es0 end) by (unfold believed; rewrite fold_left_app; reflexivity).
  split.
  - rewrite BS. destruct X as [[-> E]|(r & -> & E & _)]; [rewrite B; auto | auto].
  - intros e1 r e2 E. destruct e2 as [|y e2] using rev_ind.
    + apply app_inj_tail in E. destruct E as [-> E]. destruct X as [[-> _]|(r' & -> & _ & N)]; [discriminate|]. inversion E; subst. rewrite B. exact N.
    + clear IHe2. rewrite app_comm_cons, app_assoc in E. apply app_inj_tail in E. destruct E as [E _]. eapply C. exact E.
Qed.
Print Assumptions scone_believed.

(** But the rate in force need not be the lowest of the last 67 seconds: a higher signal that was ignored is forgotten. *)
Definition S9 : N := 1000000000.
Theorem scone_lowest_refuted : exists l a p es, in_time (l ++ [a]) /\ sc_run None (l ++ [a]) = (es, p) /\ ~ lowest_recent (a_now a) (l ++ [a]) (in_force p).
Proof.
  exists [mkAr 0 (Some 10) true; mkAr (60 * S9) (Some 20) true], (mkAr (70 * S9) (Some 50) true). eexists. eexists. split; [|split; [vm_compute; reflexivity|]].
  - repeat constructor; cbn; unfold S9; lia.
  - intros [_ H]. specialize (H (mkAr (60 * S9) (Some 20) true) 20 ltac:(cbn; auto) ltac:(unfold recent, PERIOD, S9; cbn; lia) eq_refl). cbn in H. lia.
Qed.
Print Assumptions scone_lowest_refuted.
(** And a rate that changes while the path is not the primary one is not told when it becomes that. *)
Theorem scone_migrated_refuted : exists l es p, in_time l /\ sc_run None l = (es, p) /\ believed es <> in_force p /\ exists a, In a l /\ a_primary a = true.
Proof.
  exists [mkAr 0 (Some 10) false; mkAr S9 (Some 10) true]. eexists. eexists. split; [|split; [vm_compute; reflexivity|]].
  - repeat constructor; cbn; unfold S9; lia.
  - split; [discriminate|]. eexists. split; [right; left; reflexivity | reflexivity].
Qed.
Print Assumptions scone_migrated_refuted.

Example demo_sc : sc_run None [mkAr 0 None true; mkAr S9 (Some 127) true; mkAr (2 * S9) (Some 30) true; mkAr (3 * S9) (Some 40) true; mkAr (4 * S9) (Some 20) true; mkAr (5 * S9) None true; mkAr (71 * S9) None true; mkAr (72 * S9) (Some 60) true]
  = ([None; None; Some 30; None; Some 20; None; Some 127; Some 60], Some (mkSc (72 * S9) 60)).
Proof. vm_compute. reflexivity. Qed.
Print Assumptions demo_sc.
