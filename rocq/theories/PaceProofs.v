(** Proofs about the pacer. *)
From Verif Require Import Base Lib FcModel LrModel CcModel PaceModel.
Local Open Scope Z_scope.

(** What is earned in [d] nanoseconds, rounded down. *)
Definition earned (cwnd rtt d : Z) : Z := d * (2 * cwnd) / rtt.
Lemma u64_pos : 0 < U64. Proof. reflexivity. Qed.
Lemma isize_u64 : ISIZE < U64. Proof. reflexivity. Qed.
Lemma isize_pos : 0 < ISIZE. Proof. reflexivity. Qed.
Global Opaque U64 ISIZE.
Lemma smul_le : forall a b, smul a b <= a * b.
Proof. intros. unfold smul. lia. Qed.
Lemma smul_pos : forall a b, 0 <= a -> 0 <= b -> 0 <= smul a b.
Proof. intros. unfold smul. pose proof u64_pos. assert (0 <= a * b) by (apply Z.mul_nonneg_nonneg; lia). lia. Qed.
Lemma earned_pos : forall cwnd rtt d, 0 <= cwnd -> 0 < rtt -> 0 <= d -> 0 <= earned cwnd rtt d.
Proof. intros. unfold earned. apply Z.div_pos; [|lia]. apply Z.mul_nonneg_nonneg; lia. Qed.
Lemma bytes_le : forall cwnd rtt d, 0 <= cwnd -> 0 < rtt <= U64 -> 0 <= d -> exists b, bytes_for cwnd rtt d = Some b /\ 0 <= b <= earned cwnd rtt d.
Proof.
  intros cwnd rtt d C R D. unfold bytes_for. rewrite Z.min_r by lia. destruct (Z.eqb_spec rtt 0); [lia|]. eexists. split; [reflexivity|]. split.
  - apply Z.div_pos; [|lia]. pose proof u64_pos. unfold SPEEDUP. apply smul_pos; [lia|]. apply smul_pos; lia.
  - unfold earned. apply Z.div_le_mono; [lia|]. unfold SPEEDUP. etransitivity; [apply smul_le|]. etransitivity; [apply Z.mul_le_mono_nonneg_l; [pose proof u64_pos; lia|apply smul_le]|].
    replace (cwnd * 2) with (2 * cwnd) by ring. apply Z.mul_le_mono_nonneg_r; lia.
Qed.
(** The wait is enough to earn what is missing, but for a nanosecond's worth. *)
Lemma wait_earns : forall cwnd rtt d e, 0 < cwnd -> 2 * cwnd <= U64 -> 0 < rtt -> 0 < d -> rtt * d <= U64 -> rtt * d / (2 * cwnd) <= e ->
  exists b, bytes_for cwnd rtt e = Some b /\ d - (2 * cwnd - 1) / rtt - 1 <= b /\ (2 * cwnd <= rtt -> d - 1 <= b).
Proof.
  intros cwnd rtt d e C CU R D O E. unfold bytes_for. assert (RU : rtt <= U64) by (apply Z.le_trans with (rtt * d); [|exact O]; rewrite <- (Z.mul_1_r rtt) at 1; apply Z.mul_le_mono_nonneg_l; lia).
  rewrite Z.min_r by lia. destruct (Z.eqb_spec rtt 0); [lia|]. eexists. split; [reflexivity|].
  assert (SC : smul cwnd SPEEDUP = 2 * cwnd) by (unfold smul, SPEEDUP; lia). rewrite SC.
  clear n. set (n := 2 * cwnd) in *. assert (N0 : 0 < n) by lia.
  assert (E0 : 0 <= e) by (pose proof (Z.div_pos (rtt * d) n); lia).
  assert (LB : rtt * d - (n - 1) <= e * n).
  { pose proof (Z.div_mod (rtt * d) n ltac:(lia)) as M. pose proof (Z.mod_pos_bound (rtt * d) n N0) as B. assert (n * (rtt * d / n) <= n * e) by (apply Z.mul_le_mono_nonneg_l; lia). lia. }
  assert (SM : rtt * d - (n - 1) <= smul (Z.min U64 e) n).
  { unfold smul. apply Z.min_glb; [lia|]. destruct (Z.le_ge_cases e U64); [rewrite Z.min_r by lia; exact LB|]. rewrite Z.min_l by lia. assert (U64 * 1 <= U64 * n) by (apply Z.mul_le_mono_nonneg_l; lia). lia. }
  split.
  - assert (Q : rtt * (d - (n - 1) / rtt - 1) <= rtt * d - (n - 1)).
    { pose proof (Z.div_mod (n - 1) rtt ltac:(lia)) as M. pose proof (Z.mod_pos_bound (n - 1) rtt R) as B. replace (rtt * (d - (n - 1) / rtt - 1)) with (rtt * d - rtt * ((n - 1) / rtt) - rtt) by ring. lia. }
    apply Z.div_le_lower_bound; lia.
  - intros L. apply Z.div_le_lower_bound; [lia|]. replace (rtt * (d - 1)) with (rtt * d - rtt) by ring. lia.
Qed.
Lemma gran_debt : forall cwnd rtt d, 0 < cwnd -> 0 < rtt -> rtt * d / (2 * cwnd) < GRAN -> d <= earned cwnd rtt GRAN.
Proof.
  intros cwnd rtt d C R W. unfold earned. apply Z.div_le_lower_bound; [lia|].
  assert (N0 : 0 < 2 * cwnd) by lia. pose proof (Z.div_mod (rtt * d) (2 * cwnd) ltac:(lia)) as M. pose proof (Z.mod_pos_bound (rtt * d) (2 * cwnd) N0) as B.
  assert (2 * cwnd * (rtt * d / (2 * cwnd)) <= 2 * cwnd * (GRAN - 1)) by (apply Z.mul_le_mono_nonneg_l; lia). unfold GRAN in *. lia.
Qed.
Lemma ns_ms : forall cwnd rtt, 0 < cwnd -> 0 < rtt -> (2 * cwnd - 1) / rtt <= earned cwnd rtt GRAN.
Proof. intros cwnd rtt C R. unfold earned, GRAN. apply Z.div_le_mono; lia. Qed.

(** One send that the pacer lets through. *)
Lemma spend_bound : forall x now rtt cwnd count G, pc_on x = true -> 0 < cwnd -> 2 * cwnd <= U64 -> 0 < rtt -> pc_t x <= now -> 0 <= count <= pc_p x -> pc_p x <= ISIZE -> 0 <= pc_m x <= ISIZE ->
  pc_c x <= pc_m x -> - G <= pc_c x -> 0 <= G -> G + pc_p x <= ISIZE -> rtt * (pc_p x + G) <= U64 -> earned cwnd rtt GRAN + 1 <= G ->
  (forall n, pc_next rtt cwnd x = Some n -> n <= now) ->
  let x' := pc_spend now rtt cwnd count x in
  pc_c x' <= pc_m x /\ pc_c x' <= pc_c x + earned cwnd rtt (now - pc_t x) - count /\ - G <= pc_c x' /\ pc_t x' = now /\ pc_m x' = pc_m x /\ pc_p x' = pc_p x /\ pc_on x' = true.
Proof.
  intros x now rtt cwnd count G On C CU R T Co Pi M Cm Lo G0 GP O E Nx x'. unfold x', pc_spend. rewrite On. cbn [pc_c pc_t pc_m pc_p pc_on].
  rewrite (Z.max_r 0 (now - pc_t x)) by lia. rewrite (Z.min_r ISIZE count) by lia.
  assert (RU : rtt <= U64).
  { destruct (Z.eq_dec (pc_p x + G) 0) as [Z0|Z0]; [exfalso; pose proof (earned_pos cwnd rtt GRAN ltac:(lia) R ltac:(unfold GRAN; lia)); lia|]. apply Z.le_trans with (rtt * (pc_p x + G)); [|exact O]. rewrite <- (Z.mul_1_r rtt) at 1. apply Z.mul_le_mono_nonneg_l; lia. }
  destruct (bytes_le cwnd rtt (now - pc_t x)) as (b & Eb & B1 & B2); [lia|lia|lia|]. rewrite Eb.
  assert (EP : 0 <= earned cwnd rtt GRAN) by (apply earned_pos; unfold GRAN; lia).
  assert (LB : - G <= pc_c x + Z.min ISIZE b - count).
  { unfold pc_next in Nx. destruct (Z.leb_spec (pc_p x) (pc_c x)); [lia|].
    assert (SC : smul cwnd SPEEDUP = 2 * cwnd) by (unfold smul, SPEEDUP; lia). rewrite SC in Nx. destruct (Z.eqb_spec (2 * cwnd) 0); [lia|].
    rewrite Z.min_r in Nx by lia.
    assert (DO : rtt * (pc_p x - pc_c x) <= U64) by (etransitivity; [|exact O]; apply Z.mul_le_mono_nonneg_l; lia).
    assert (SD : smul rtt (pc_p x - pc_c x) = rtt * (pc_p x - pc_c x)) by (unfold smul; lia). rewrite SD in Nx.
    destruct (Z.ltb_spec (rtt * (pc_p x - pc_c x) / (2 * cwnd)) GRAN) as [L|L].
    - apply gran_debt in L; [lia|lia|lia].
    - specialize (Nx _ eq_refl). destruct (wait_earns cwnd rtt (pc_p x - pc_c x) (now - pc_t x)) as (b' & Eb' & W & _); try lia. rewrite Eb in Eb'. injection Eb' as <-.
      pose proof (ns_ms cwnd rtt C R). lia. }
  pose proof isize_pos. unfold sadd. split; [lia|]. split; [lia|]. split; [lia|]. auto.
Qed.
