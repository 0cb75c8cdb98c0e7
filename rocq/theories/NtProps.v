(** C100: NEW_TOKEN frames. *)
From Coq Require Import NArith List Bool Lia Sorted.
From Verif Require Import Base Lib CodecModel NtModel NtSpec NtProofs.
Import ListNotations.
Open Scope N_scope.

(** A frame written carries a token handed over that waits to be sent, in the order they were handed over, each at most once,
    and all fit; a waiting token is left out only for lack of room. *)
Theorem tokens_written ops t s room fs s' : n_run ns_init ops = (t, s) -> n_step s (NWrite room) = (fs, s') ->
  size fs <= room /\ StronglySorted N.lt (map fst fs) /\
  (forall n tok, In (n, tok) fs -> where_is n t = Waiting /\ nth_error (given t) (N.to_nat n) = Some tok) /\
  (forall n tok, where_is n t = Waiting -> nth_error (given t) (N.to_nat n) = Some tok -> In (n, tok) fs \/ room < size fs + nt_len tok).
Proof.
  intros R W. destruct (run_inv ops [] ns_init t s init_inv R) as (NX & SO & TK & AT). cbn [app] in *. cbn [n_step] in W.
  pose proof (write_spec (ns_tokens s) room SO) as S. destruct (nt_write room (ns_tokens s)) as [l fs0]. inversion W; subst. destruct S as (S1 & S2 & S3 & S4 & S5 & S6 & S7). splits; auto.
  - intros n tok I. destruct (S5 n tok I) as (x & X & E & T & N). pose proof (TK x X) as K. subst. split; [|exact K]. rewrite <- AT. unfold at_. rewrite (sorted_find _ _ x SO X eq_refl), N.
    assert (N.to_nat (nt_seqno x) < length (given t))%nat by (apply nth_error_Some; congruence). rewrite (proj2 (N.ltb_lt _ _)) by lia. reflexivity.
  - intros n tok P K. rewrite <- AT in P. unfold at_ in P. destruct (n <? ns_next s); [|discriminate]. destruct (find _ (ns_tokens s)) as [x|] eqn:F; [|discriminate]. destruct (nt_needs x) eqn:NE; [|discriminate].
    apply find_seq in F. destruct F as [X E]. pose proof (TK x X) as K2. rewrite E, K in K2. inversion K2; subst tok.
    destruct (in_dec (fun a b : N * list N => ltac:(decide equality; [apply (list_eq_dec N.eq_dec) | apply N.eq_dec]) : {a = b} + {a <> b}) (n, nt_token x) fs) as [I|I]; [left; exact I|]. right.
    rewrite <- E in I. specialize (S6 x X NE I). lia.
Qed.
Print Assumptions tokens_written.

(** *** Histories *)
Definition history (t : list (nop * list (N * list N))) : Prop := exists ops s, n_run ns_init ops = (t, s).
Lemma run_app : forall o1 o2 s t s', n_run s (o1 ++ o2) = (t, s') -> exists t1 s1 t2, n_run s o1 = (t1, s1) /\ n_run s1 o2 = (t2, s') /\ t = t1 ++ t2.
Proof.
  induction o1 as [|o o1 IH]; intros o2 s t s' R; cbn [app n_run] in R |- *; [exists [], s, t; auto|].
  destruct (n_step s o) as [fs s0]. destruct (n_run s0 (o1 ++ o2)) as [t0 s2] eqn:R2. inversion R; subst. destruct (IH _ _ _ _ R2) as (t1 & s1 & t2 & A & B & ->). exists ((o, fs) :: t1), s1, t2. rewrite A. auto.
Qed.
Lemma run_ops : forall ops s t s', n_run s ops = (t, s') -> map fst t = ops.
Proof.
  induction ops as [|o ops IH]; intros s t s' R; cbn [n_run] in R; [inversion R; reflexivity|]. destruct (n_step s o) as [fs s0]. destruct (n_run s0 ops) as [t0 s2] eqn:R2. inversion R; subst. cbn. rewrite (IH _ _ _ R2). reflexivity.
Qed.
Lemma history_prefix a b : history (a ++ b) -> history a.
Proof.
  intros (ops & s & R). pose proof (run_ops _ _ _ _ R) as M. rewrite map_app in M. rewrite <- M in R. destruct (run_app _ _ _ _ _ R) as (t1 & s1 & t2 & A & B & E). exists (map fst a), s1. rewrite A. f_equal.
  pose proof (run_ops _ _ _ _ A) as M1. assert (L : length t1 = length a) by (rewrite <- (map_length fst t1), M1, map_length; reflexivity).
  assert (F : forall (x y u v : list (nop * list (N * list N))), x ++ y = u ++ v -> length x = length u -> x = u).
  { induction x as [|h x IH]; intros y [|g u] v Q K; try discriminate K; auto. cbn in Q. inversion Q; subst. f_equal. eapply IH; eauto. }
  eapply F; [symmetry; exact E | exact L].
Qed.
Lemma history_last a o fs : history (a ++ [(o, fs)]) -> exists ops s, n_run ns_init ops = (a, s) /\ fst (n_step s o) = fs.
Proof.
  intros H. pose proof (history_prefix _ _ H) as (ops1 & s1 & R1). destruct H as (ops & s & R). pose proof (run_ops _ _ _ _ R) as M. rewrite map_app in M. rewrite <- M in R. pose proof (run_ops _ _ _ _ R1) as M1. subst ops1.
  destruct (run_app _ _ _ _ _ R) as (t1 & s2 & t2 & A & B & E). rewrite R1 in A. inversion A; subst. cbn in B. destruct (n_step s2 o) as [fs' s3] eqn:S. inversion B; subst. apply app_inj_tail in E. destruct E as [_ E]. inversion E; subst.
  eexists. exists s2. split; [exact R1|]. rewrite S. reflexivity.
Qed.
Lemma known_low t n : history t -> where_is n t <> Unknown -> n < N.of_nat (length (given t)).
Proof.
  intros (ops & s & R) W. destruct (run_inv ops [] ns_init t s init_inv R) as (NX & _ & _ & AT). cbn [app] in *. rewrite <- AT, NX in W. unfold at_ in W. destruct (n <? _) eqn:L; [apply N.ltb_lt; exact L | congruence].
Qed.
Lemma written_waits a o fs n tok : history (a ++ [(o, fs)]) -> In (n, tok) fs -> where_is n a = Waiting.
Proof.
  intros H I. destruct (history_last _ _ _ H) as (ops & s & R & S). destruct o as [tk|room|m|m]; try (cbn in S; subst fs; destruct I).
  destruct (n_step s (NWrite room)) as [f s'] eqn:E. cbn in S. subst f. destruct (tokens_written ops a s room fs s' R E) as (_ & _ & T & _). apply (T n tok I).
Qed.
Lemma not_written a o fs n : history (a ++ [(o, fs)]) -> where_is n a <> Waiting -> existsb (fun f => fst f =? n) fs = false.
Proof.
  intros H W. destruct (existsb _ fs) eqn:E; auto. apply existsb_exists in E. destruct E as ([m tok] & I & Q). cbn in Q. apply N.eqb_eq in Q. subst m. exfalso. apply W. eapply written_waits; eauto.
Qed.
Lemma settled_final n : forall b a, history (a ++ b) -> where_is n a = Settled -> where_is n (a ++ b) = Settled.
Proof.
  induction b as [|[o fs] b IH]; intros a H W; [rewrite app_nil_r; exact W|]. replace (a ++ (o, fs) :: b) with ((a ++ [(o, fs)]) ++ b) in * by (rewrite <- app_assoc; reflexivity).
  apply IH; auto. apply history_prefix in H. rewrite where_snoc, W. assert (L : n < N.of_nat (length (given a))) by (apply known_low; [eapply history_prefix; exact H | congruence]).
  destruct o; cbn [place_one].
  - rewrite (proj2 (N.eqb_neq _ _)) by lia. reflexivity.
  - rewrite (not_written _ _ _ n H) by congruence. reflexivity.
  - destruct (_ =? n); reflexivity.
  - destruct (_ =? n); reflexivity.
Qed.
Lemma flying_until n : forall b a, history (a ++ b) -> where_is n a = Flying -> where_is n (a ++ b) = Waiting -> exists fs, In (NLost n, fs) b.
Proof.
  induction b as [|[o fs] b IH]; intros a H W F; [rewrite app_nil_r in F; congruence|]. replace (a ++ (o, fs) :: b) with ((a ++ [(o, fs)]) ++ b) in * by (rewrite <- app_assoc; reflexivity).
  assert (H1 := history_prefix _ _ H). assert (L : n < N.of_nat (length (given a))) by (apply known_low; [eapply history_prefix; exact H1 | congruence]).
  assert (X : (exists f, (o, fs) = (NLost n, f)) \/ where_is n (a ++ [(o, fs)]) = Flying \/ where_is n (a ++ [(o, fs)]) = Settled).
  { rewrite where_snoc, W. destruct o; cbn [place_one].
    - rewrite (proj2 (N.eqb_neq _ _)) by lia. auto.
    - destruct (existsb _ fs); auto.
    - destruct (n0 =? n) eqn:E; auto. apply N.eqb_eq in E. subst. left. eauto.
    - destruct (n0 =? n); auto. }
  destruct X as [[f X]|[X|X]].
  - rewrite X. exists f. left. reflexivity.
  - destruct (IH _ H X F) as [f I]. exists f. right. exact I.
  - rewrite (settled_final n b _ H X) in F. discriminate.
Qed.

(** Between two frames with the same token its loss was reported. *)
Theorem token_again ops t s t1 o1 fs1 t2 o2 fs2 t3 n x y : n_run ns_init ops = (t, s) -> t = t1 ++ (o1, fs1) :: t2 ++ (o2, fs2) :: t3 ->
  In (n, x) fs1 -> In (n, y) fs2 -> exists fs, In (NLost n, fs) t2.
Proof.
  intros R E A B. assert (H : history (((t1 ++ [(o1, fs1)]) ++ t2) ++ [(o2, fs2)])).
  { apply (history_prefix _ t3). replace (_ ++ t3) with t; [exists ops, s; exact R|]. rewrite E, <- !app_assoc. reflexivity. }
  pose proof (written_waits _ _ _ _ _ H B) as W2. apply history_prefix in H. apply (flying_until n t2 _ H); [|exact W2]. rewrite where_snoc. apply history_prefix in H.
  destruct (history_last _ _ _ H) as (ops1 & s1 & _ & S). destruct o1 as [tk|room|m|m]; try (cbn in S; subst fs1; destruct A). cbn [place_one].
  replace (existsb _ fs1) with true; [reflexivity|]. symmetry. apply existsb_exists. exists (n, x). split; [exact A | apply N.eqb_refl].
Qed.
Print Assumptions token_again.

(** A token acknowledged is not sent again. *)
Theorem token_settled ops t s t1 fs1 t2 o fs t3 n tok : n_run ns_init ops = (t, s) -> t = t1 ++ (NAcked n, fs1) :: t2 ++ (o, fs) :: t3 ->
  n < N.of_nat (length (given t1)) -> ~ In (n, tok) fs.
Proof.
  intros R E L I. assert (H : history (((t1 ++ [(NAcked n, fs1)]) ++ t2) ++ [(o, fs)])).
  { apply (history_prefix _ t3). replace (_ ++ t3) with t; [exists ops, s; exact R|]. rewrite E, <- !app_assoc. reflexivity. }
  pose proof (written_waits _ _ _ _ _ H I) as W. apply history_prefix in H. rewrite settled_final in W; [discriminate | exact H|]. rewrite where_snoc. cbn [place_one]. rewrite N.eqb_refl.
  assert (U : where_is n t1 <> Unknown).
  { apply history_prefix in H. apply history_prefix in H. destruct H as (ops1 & s1 & R1). destruct (run_inv _ [] _ _ _ init_inv R1) as (NX & _ & _ & AT). cbn [app] in *. rewrite <- AT, NX. unfold at_. rewrite (proj2 (N.ltb_lt _ _) L). destruct (find _ _) as [z|]; [destruct (nt_needs z)|]; discriminate. }
  destruct (where_is n t1); auto. congruence.
Qed.
Print Assumptions token_settled.

Example demo_n : let (t, s) := n_run ns_init [NGive [1; 2; 3]; NGive [4]; NGive [5; 6]; NWrite 9; NLost 0; NWrite 3; NWrite 100; NAcked 0; NLost 0; NLost 1; NWrite 100] in
  map snd t = [[]; []; []; [(0, [1; 2; 3]); (1, [4])]; []; []; [(0, [1; 2; 3]); (2, [5; 6])]; []; []; []; [(1, [4])]] /\ where_is 0 t = Settled /\ where_is 1 t = Flying.
Proof. vm_compute. auto. Qed.
Print Assumptions demo_n.
