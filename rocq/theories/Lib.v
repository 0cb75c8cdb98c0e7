(** Generic lemmas about numbers and lists used by the proofs. No project code. *)
From Coq Require Export Lia ZifyBool ZifyNat ZifyN.
From Coq Require Import Permutation.
From Verif Require Import Base.

(** [lia] with support for [/] and [mod]; opt-in because it is slower. *)
Ltac dlia := zify; Z.div_mod_to_equations; lia.

Ltac inv H := inversion H; subst; clear H.

Lemma some_inj {A} (a b : A) : Some a = Some b -> a = b.
Proof. congruence. Qed.

(** Case split on the first [if] or [match] scrutinee found in the goal. *)
Ltac dmatch :=
  match goal with
  | |- context [if ?b then _ else _] => let E := fresh "E" in destruct b eqn:E
  | |- context [match ?b with _ => _ end] => let E := fresh "E" in destruct b eqn:E
  end.
Ltac dmatch_in H :=
  match type of H with
  | context [if ?b then _ else _] => let E := fresh "E" in destruct b eqn:E
  | context [match ?b with _ => _ end] => let E := fresh "E" in destruct b eqn:E
  end.

(* ------------------------------------------------------------------ *)
Lemma pow256 n : 256 ^ n = 2 ^ (8 * n).
Proof. change 256 with (2 ^ 8). rewrite <- N.pow_mul_r. reflexivity. Qed.

Lemma pow2_pos k : 0 < 2 ^ k.
Proof. apply N.neq_0_lt_0, N.pow_nonzero; lia. Qed.

Lemma land_disjoint a c k : a < 2 ^ k -> N.land a (N.shiftl c k) = 0.
Proof.
  intros Ha. apply N.bits_inj_iff. intros i.
  rewrite N.land_spec, N.bits_0.
  destruct (N.lt_ge_cases i k) as [Hi|Hi].
  - rewrite N.shiftl_spec_low by lia. apply andb_false_r.
  - replace (N.testbit a i) with false; [reflexivity|].
    symmetry. destruct (N.eq_dec a 0) as [->|Hnz]; [apply N.bits_0|].
    apply N.bits_above_log2. apply N.log2_lt_pow2; [lia|].
    eapply N.lt_le_trans; [exact Ha|]. apply N.pow_le_mono_r; lia.
Qed.

Lemma lor_add_disjoint a b : N.land a b = 0 -> N.lor a b = a + b.
Proof.
  intros H. rewrite <- (N.lxor_lor _ _ H). symmetry. apply N.add_nocarry_lxor. exact H.
Qed.

Lemma lor_add a c k : a < 2 ^ k -> N.lor a (N.shiftl c k) = a + c * 2 ^ k.
Proof.
  intros H. rewrite lor_add_disjoint by (apply land_disjoint; exact H).
  rewrite N.shiftl_mul_pow2. reflexivity.
Qed.

Lemma lor_add' a c k : a < 2 ^ k -> N.lor (N.shiftl c k) a = c * 2 ^ k + a.
Proof. intros H. rewrite N.lor_comm, lor_add by exact H. lia. Qed.

Lemma land_ones_mod v k : N.land v (2 ^ k - 1) = v mod 2 ^ k.
Proof. rewrite <- N.land_ones, N.ones_equiv, N.pred_sub. reflexivity. Qed.

Lemma land_63 v : N.land v 63 = v mod 64.
Proof. exact (land_ones_mod v 6). Qed.
Lemma land_255 v : N.land v 255 = v mod 256.
Proof. exact (land_ones_mod v 8). Qed.
Lemma shiftr_6 v : N.shiftr v 6 = v / 64.
Proof. rewrite N.shiftr_div_pow2. reflexivity. Qed.
Lemma shiftr_8 v : N.shiftr v 8 = v / 256.
Proof. rewrite N.shiftr_div_pow2. reflexivity. Qed.

(* ------------------------------------------------------------------ *)
(** Big-endian bytes *)
Lemma be_bytes_length n v : length (be_bytes n v) = n.
Proof. induction n; cbn [be_bytes length]; congruence. Qed.

Lemma be_bytes_ok n v : bytes_ok (be_bytes n v).
Proof.
  induction n; cbn [be_bytes]; constructor; [|assumption].
  unfold byte_ok. apply N.mod_lt. lia.
Qed.

Lemma be_val_acc l acc :
  fold_left (fun a b => a * 256 + b) l acc = acc * 256 ^ lenN l + be_val l.
Proof.
  unfold be_val, lenN. revert acc. induction l as [|b l IH]; intros acc; cbn [fold_left length].
  - change (256 ^ N.of_nat 0) with 1. lia.
  - rewrite IH, (IH (0 * 256 + b)). rewrite Nat2N.inj_succ, N.pow_succ_r'. lia.
Qed.

Lemma be_val_app a b : be_val (a ++ b) = be_val a * 256 ^ lenN b + be_val b.
Proof. unfold be_val at 1. rewrite fold_left_app, be_val_acc. reflexivity. Qed.

Lemma be_val_cons a b : be_val (a :: b) = a * 256 ^ lenN b + be_val b.
Proof.
  change (a :: b) with ([a] ++ b). rewrite be_val_app.
  unfold be_val at 1. cbn [fold_left]. lia.
Qed.

Lemma be_val_bound l : bytes_ok l -> be_val l < 256 ^ lenN l.
Proof.
  unfold lenN.
  induction l as [|b l IH]; intros H.
  - cbn. change (256 ^ 0) with 1. lia.
  - inv H. rewrite be_val_cons. cbn [length]. rewrite Nat2N.inj_succ, N.pow_succ_r'.
    unfold byte_ok in *. unfold lenN in *. specialize (IH ltac:(assumption)). nia.
Qed.

Lemma be_val_be_bytes n v : be_val (be_bytes n v) = v mod 256 ^ N.of_nat n.
Proof.
  induction n.
  - cbn. change (256 ^ 0) with 1. rewrite N.mod_1_r. reflexivity.
  - cbn [be_bytes]. rewrite be_val_cons, IHn. unfold lenN. rewrite be_bytes_length.
    rewrite Nat2N.inj_succ, N.pow_succ_r'.
    assert (256 ^ N.of_nat n <> 0) by (apply N.pow_nonzero; lia).
    rewrite (N.mul_comm 256), N.mod_mul_r by lia. lia.
Qed.

Lemma be_val_be_bytes_small n v : v < 256 ^ N.of_nat n -> be_val (be_bytes n v) = v.
Proof. intros. rewrite be_val_be_bytes. apply N.mod_small. assumption. Qed.

Lemma be_bytes_be_val l : bytes_ok l -> be_bytes (length l) (be_val l) = l.
Proof.
  induction l as [|b l IH]; intros H; [reflexivity|].
  inv H. cbn [length be_bytes]. rewrite be_val_cons.
  pose proof (be_val_bound l ltac:(assumption)) as Hb. unfold lenN in *.
  assert (Hp : 256 ^ N.of_nat (length l) <> 0) by (apply N.pow_nonzero; lia).
  unfold byte_ok in *.
  f_equal.
  - rewrite N.div_add_l by assumption. rewrite (N.div_small (be_val l)) by assumption.
    rewrite N.add_0_r. apply N.mod_small. assumption.
  - transitivity (be_bytes (length l) (be_val l)); [|exact (IH ltac:(assumption))].
    clear IH. revert Hb. generalize (be_val l) as w. intros w Hb.
    assert (forall n, (n <= length l)%nat -> forall x, be_bytes n (x * 256 ^ N.of_nat (length l) + w) = be_bytes n w) as G.
    { induction n as [|n IHn]; intros Hn x; cbn [be_bytes]; [reflexivity|].
      f_equal; [|apply IHn; lia].
      assert (Hq : 256 ^ N.of_nat n <> 0) by (apply N.pow_nonzero; lia).
      replace (x * 256 ^ N.of_nat (length l) + w)
        with (x * 256 ^ N.of_nat (length l - S n) * 256 * 256 ^ N.of_nat n + w).
      2:{ rewrite <- !N.mul_assoc. f_equal. f_equal.
          rewrite N.mul_assoc, (N.mul_comm _ 256), <- N.pow_succ_r', <- Nat2N.inj_succ.
          rewrite (N.mul_comm _ (256 ^ _)), N.mul_comm.
          rewrite <- N.pow_add_r. f_equal. lia. }
      rewrite N.div_add_l by assumption.
      rewrite (N.add_comm (_ * 256)), N.mod_add by lia. reflexivity. }
    apply G. lia.
Qed.

Lemma bytes_ok_app a b : bytes_ok (a ++ b) <-> bytes_ok a /\ bytes_ok b.
Proof. apply Forall_app. Qed.

Lemma bytes_ok_skipn n l : bytes_ok l -> bytes_ok (skipn n l).
Proof. intros H. rewrite <- (firstn_skipn n l) in H. apply Forall_app in H. tauto. Qed.
Lemma bytes_ok_firstn n l : bytes_ok l -> bytes_ok (firstn n l).
Proof. intros H. rewrite <- (firstn_skipn n l) in H. apply Forall_app in H. tauto. Qed.

(* ------------------------------------------------------------------ *)
(** Lists *)
Lemma skipn_add {A} (n m : nat) (l : list A) : skipn (n + m) l = skipn m (skipn n l).
Proof.
  revert l. induction n as [|n IH]; intros [|x l]; cbn [Nat.add skipn]; try reflexivity.
  - rewrite skipn_nil. reflexivity.
  - apply IH.
Qed.

Lemma skipn_app_exact {A} (a b : list A) : skipn (length a) (a ++ b) = b.
Proof. rewrite skipn_app, skipn_all, Nat.sub_diag. reflexivity. Qed.
Lemma firstn_app_exact {A} (a b : list A) : firstn (length a) (a ++ b) = a.
Proof. rewrite firstn_app, firstn_all, Nat.sub_diag. cbn. apply app_nil_r. Qed.

Lemma lenN_app {A} (a b : list A) : lenN (a ++ b) = lenN a + lenN b.
Proof. unfold lenN. rewrite app_length. lia. Qed.
Lemma lenN_cons {A} (a : A) b : lenN (a :: b) = 1 + lenN b.
Proof. unfold lenN. cbn [length]. lia. Qed.
Lemma lenN_nil {A} : lenN (@nil A) = 0.
Proof. reflexivity. Qed.

(** Split conjunctions only as written. *)
Ltac splits := repeat match goal with |- _ /\ _ => split end.

Lemma nodup_snoc {A} (l : list A) x : NoDup l -> ~ In x l -> NoDup (l ++ [x]).
Proof.
  induction 1 as [|y l Hy _ IH]; intros Hx; cbn [app]; [constructor; [auto|constructor]|].
  constructor.
  - intros H. apply in_app_or in H as [H|[->|[]]]; [auto|]. apply Hx. left. reflexivity.
  - apply IH. intros H. apply Hx. right. exact H.
Qed.
