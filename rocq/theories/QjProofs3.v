(** Joint runs: limits, and what becomes of references. *)
From Verif Require Import Base Lib QpTables QiModel QiSpec QiProofs QiProofs2 QbModel QbSpec QbProofs QbProofs2 QeModel QeProofs QeProofs2 QeProofs3 QjModel QjProofs QjProofs2.
Open Scope N_scope.
Open Scope list_scope.
Import ListNotations.

Section Joint3.
Variables (huff : bool) (S B : N).
Hypotheses (S30 : S < 2 ^ 30) (B16 : B < 65536).
Lemma good_limits : forall k j, good huff S B k j -> lenN (d_blocked (j_dec j)) <= B /\ n_cnt (j_enc j) <= B /\ t_used (n_table (j_enc j)) <= S.
Proof.
  intros k j (Hd & pend & G & rest & Q & V). dji V. pose proof (ev_cntb _ _ _ je). pose proof (ev_cnt _ _ _ je) as EC.
  assert (C : t_used (n_table (j_enc j)) <= S) by (destruct (ev_t _ _ _ je) as (_ & _ & U2 & _); destruct jp1 as [Z|Z]; rewrite Z in U2; lia).
  splits; try lia.
  etransitivity; [|etransitivity; [exact H | exact jc6]]. rewrite EC. replace (lenN (d_blocked (j_dec j))) with (lenN (map fst (d_blocked (j_dec j)))) by (unfold lenN; rewrite map_length; auto). apply (blocking_count S B S30 B16); auto; [apply je|].
  intros s I. apply in_map_iff in I. destruct I as ((s', r) & Z & I). cbn in Z. subst s'. destruct (jb2 s r I) as (P1 & b & P2 & P3). exists b. split; [rewrite jU; apply in_or_app; auto|]. exists (r - 1). split; auto. pose proof (chain_mono G (t_acked (n_table (j_enc j)))). lia.
Qed.
(** Once the decoder's bytes have all arrived. *)
Lemma all_up : forall k Hd pend G rest Q j, jinv huff S B k Hd pend G rest Q j -> k < 2 ^ 62 -> d_out (j_dec j) = [] -> exists j', jstep j (JUp (length (j_up j))) = Good (j', JNone) /\ j_up j' = [] /\ j_dec j' = j_dec j /\ j_blocks j' = j_blocks j /\ j_dead j' = j_dead j /\ j_down j' = j_down j /\
  t_acked (n_table (j_enc j')) = d_acked (j_dec j) /\ (forall s, U (n_unacked (j_enc j')) s = cut G rest s) /\ einv (Hd ++ inserts pend) [] (j_enc j').
Proof.
  intros k Hd pend G rest Q j V KB DE. dji V. rewrite DE, app_nil_r in ju1, ju2. cbn [jstep]. rewrite firstn_all, skipn_all. unfold enc_receive. rewrite ju1.
  assert (VR : einv (Hd ++ inserts pend) [] (with_reader DInstr (j_enc j))) by (dev je; constructor; auto; exact Logic.I).
  destruct (call_ghosts (Hd ++ inserts pend) G [] (with_reader DInstr (j_enc j)) rest VR) as (e' & -> & V' & _ & TL & CH & UU); rewrite ?app_nil_r; auto; [change (2 ^ 63) with (2 * 2 ^ 62); lia | cbn [with_reader n_table]; rewrite jh1, lenN_app; lia|].
  cbn [rbind with_reader n_table] in *. rewrite app_nil_r in CH. cbn [chain] in CH. eexists. split; [reflexivity|]. cbn [j_up j_dec j_blocks j_dead j_down j_enc]. splits; auto. congruence.
Qed.
Lemma no_unacked : forall H e, einv H [] e -> (forall s, U (n_unacked e) s = []) -> n_unacked e = [] /\ Forall (fun x => x_refs x = 0) (t_dyn (n_table e)).
Proof.
  intros H e V Z. assert (E : n_unacked e = []).
  { pose proof (ev_lists _ _ _ V) as L. pose proof (Z) as Z'. destruct (n_unacked e) as [|(s, b) u] eqn:E; auto. exfalso. specialize (Z' s). unfold U in Z'. cbn [ub_get] in Z'. rewrite N.eqb_refl in Z'. inversion L as [|? ? L1 _]. subst. cbn [snd] in L1. destruct b; [congruence|]. cbn [rev] in Z'. apply app_eq_nil in Z'. destruct Z'. discriminate. }
  split; auto. pose proof (proj1 (ev_refs _ _ _ V)) as R. rewrite E in R. cbn in R. apply Forall_forall. intros x I. rewrite (R x I). reflexivity.
Qed.
Lemma quiet : forall k j, good huff S B k j -> k < 2 ^ 62 -> j_blocks j = [] -> j_dead j = [] -> d_out (j_dec j) = [] -> exists j', jstep j (JUp (length (j_up j))) = Good (j', JNone) /\ n_unacked (j_enc j') = [] /\ Forall (fun x => x_refs x = 0) (t_dyn (n_table (j_enc j'))) /\ t_acked (n_table (j_enc j')) = d_acked (j_dec j).
Proof.
  intros k j (Hd & pend & G & rest & Q & V) KB BE DE OE. destruct (all_up k Hd pend G rest Q j V KB OE) as (j' & E & U1 & U2 & U3 & U4 & U5 & U6 & U7 & EV). exists j'. split; auto.
  destruct (no_unacked _ _ EV) as (N1 & N2).
  { intros s. rewrite U7. unfold cut. destruct (existsb _ G); auto. dji V. rewrite jr by (rewrite DE; auto). rewrite BE in jq1. destruct Q; [auto | discriminate]. }
  auto.
Qed.
(** A stream given up is forgotten by the encoder. *)
Lemma cancelled : forall k j s n, good huff S B k j -> k < 2 ^ 62 -> s < 2 ^ 62 -> 0 < t_cap (d_table (j_dec j)) -> exists j1 j2, jstep j (JCancel s) = Good (j1, JNone) /\ jstep j1 (JSend n) = Good (j2, JNone) /\
  (d_out (j_dec j2) = [] -> exists j3, jstep j2 (JUp (length (j_up j2))) = Good (j3, JNone) /\ ub_get s (n_unacked (j_enc j3)) = None).
Proof.
  intros k j s n GD KB SB CP. destruct (cancel_jinv huff S B S30 B16 k j s GD SB) as (j1 & E1 & Hd & pend & G & rest & Q & V & IN). destruct (send_jinv huff S B S30 B16 k Hd pend G rest Q j1 n V KB) as (j2 & E2 & G' & V2). exists j1, j2. splits; auto.
  intros OE. destruct (all_up k _ _ _ _ _ j2 V2 KB OE) as (j3 & E3 & _ & _ & _ & _ & _ & _ & UU & EV). exists j3. split; auto. specialize (UU s). unfold cut in UU. rewrite (proj2 (existsb_exists _ (G ++ G'))) in UU.
  2:{ exists (KCancel s). split; [apply in_or_app; left; auto | apply N.eqb_refl]. }
  unfold U in UU. destruct (ub_get s (n_unacked (j_enc j3))) as [c|] eqn:GT; auto. exfalso. pose proof (ev_lists _ _ _ EV) as L. rewrite Forall_forall in L. apply (L (s, c)); [apply ub_get_in; auto|]. cbn [snd]. rewrite <- (rev_involutive c), UU. auto.
Qed.
End Joint3.
