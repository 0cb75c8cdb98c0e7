(** Proofs about NEW_TOKEN frames. *)
From Coq Require Import NArith List Bool Lia Sorted.
From Verif Require Import Base Lib NtModel NtSpec.
Import ListNotations.
Open Scope N_scope.

Definition seqs (l : list status) := map nt_seqno l.
Definition at_ (l : list status) (n : N) (k : N) : place :=
  if n <? k then match find (fun t => nt_seqno t =? n) l with Some t => if nt_needs t then Waiting else Flying | None => Settled end else Unknown.
Definition Inv (t : list (nop * list (N * list N))) (s : sender) : Prop :=
  ns_next s = N.of_nat (length (given t)) /\ StronglySorted N.lt (seqs (ns_tokens s)) /\ (forall x, In x (ns_tokens s) -> nth_error (given t) (N.to_nat (nt_seqno x)) = Some (nt_token x)) /\
  forall n, at_ (ns_tokens s) n (ns_next s) = where_is n t.

Lemma place_from_app n a : forall cur k b, place_from n cur k (a ++ b) = place_from n (place_from n cur k a) (k + N.of_nat (length (given a))) b.
Proof.
  induction a as [|[o fs] a IH]; intros cur k b; cbn [app place_from]; [cbn; rewrite N.add_0_r; reflexivity|]. rewrite IH. f_equal. unfold given. cbn [flat_map fst]. rewrite app_length, Nat2N.inj_add.
  destruct o; cbn [length]; lia.
Qed.
Lemma where_snoc n t p : where_is n (t ++ [p]) = place_one n (where_is n t) (N.of_nat (length (given t))) p.
Proof. unfold where_is. rewrite place_from_app. cbn [place_from]. rewrite N.add_0_l. reflexivity. Qed.
Lemma given_snoc t p : given (t ++ [p]) = given t ++ match fst p with NGive tok => [tok] | _ => [] end.
Proof. unfold given. rewrite flat_map_app. cbn. rewrite app_nil_r. reflexivity. Qed.

Lemma sorted_find l n x : StronglySorted N.lt (seqs l) -> In x l -> nt_seqno x = n -> find (fun t => nt_seqno t =? n) l = Some x.
Proof.
  induction l as [|y l IH]; [intros _ []|]. cbn [seqs map]. intros S [->|I] E; inversion S; subst; cbn.
  - rewrite N.eqb_refl. reflexivity.
  - destruct (nt_seqno y =? nt_seqno x) eqn:Q; [|apply IH; auto]. apply N.eqb_eq in Q. rewrite Forall_forall in H2. assert (nt_seqno y < nt_seqno x) by (apply H2; apply in_map; exact I). lia.
Qed.
Lemma find_seq l n x : find (fun t => nt_seqno t =? n) l = Some x -> In x l /\ nt_seqno x = n.
Proof. intro H. apply find_some in H. rewrite N.eqb_eq in H. exact H. Qed.

(** Writing. *)
Lemma write_spec : forall l room, StronglySorted N.lt (seqs l) -> let (l', fs) := nt_write room l in
  seqs l' = seqs l /\ map nt_token l' = map nt_token l /\ size fs <= room /\ StronglySorted N.lt (map fst fs) /\
  (forall n tok, In (n, tok) fs -> exists x, In x l /\ nt_seqno x = n /\ nt_token x = tok /\ nt_needs x = true) /\
  (forall x, In x l -> nt_needs x = true -> ~ In (nt_seqno x, nt_token x) fs -> room - size fs < nt_len (nt_token x)) /\
  (forall n, find (fun t => nt_seqno t =? n) l' = match find (fun t => nt_seqno t =? n) l with Some x => Some (if existsb (fun f => fst f =? n) fs then mkNT (nt_seqno x) (nt_token x) false else x) | None => None end).
Proof.
  induction l as [|t l IH]; intros room S; cbn [nt_write].
  { cbn. splits; auto; try lia; try constructor; try (intros; contradiction). }
  cbn [seqs map] in S. inversion S; subst. destruct (nt_needs t && (nt_len (nt_token t) <=? room)) eqn:C.
  - apply andb_true_iff in C. destruct C as [C1 C2]. apply N.leb_le in C2. specialize (IH (room - nt_len (nt_token t)) H1). destruct (nt_write (room - nt_len (nt_token t)) l) as [l' fs]. destruct IH as (I1 & I2 & I3 & I4 & I5 & I6 & I7).
    assert (LT : forall n tok, In (n, tok) fs -> nt_seqno t < n).
    { intros n tok I. destruct (I5 n tok I) as (x & X & <- & _). rewrite Forall_forall in H2. apply H2. apply in_map. exact X. }
    splits.
    + cbn. unfold seqs in I1. rewrite I1. reflexivity.
    + cbn. rewrite I2. reflexivity.
    + unfold size in *. cbn [fold_right snd]. lia.
    + cbn. constructor; auto. apply Forall_forall. intros n I. apply in_map_iff in I. destruct I as ([m tok] & <- & I). eapply LT. exact I.
    + intros n tok [E|I]; [inversion E; subst; exists t; splits; auto; left; auto|]. destruct (I5 n tok I) as (x & X & Y). exists x. split; [right; exact X | exact Y].
    + intros x [<-|X] NX NI; [exfalso; apply NI; left; reflexivity|]. cbn [size fold_right snd]. fold (size fs). specialize (I6 x X NX). assert (~ In (nt_seqno x, nt_token x) fs) by (intro Q; apply NI; right; exact Q). specialize (I6 H). lia.
    + intro n. cbn [find existsb fst]. cbn [nt_seqno]. destruct (nt_seqno t =? n) eqn:E; cbn [orb]; [reflexivity|]. apply I7.
  - specialize (IH room H1). destruct (nt_write room l) as [l' fs]. destruct IH as (I1 & I2 & I3 & I4 & I5 & I6 & I7). splits.
    + cbn. unfold seqs in I1. rewrite I1. reflexivity.
    + cbn. rewrite I2. reflexivity.
    + exact I3.
    + exact I4.
    + intros n tok I. destruct (I5 n tok I) as (x & X & Y). exists x. split; [right; exact X | exact Y].
    + intros x [<-|X] NX NI; [|apply I6; auto]. rewrite NX in C. cbn in C. apply N.leb_gt in C. lia.
    + intro n. cbn [find]. destruct (nt_seqno t =? n) eqn:E; [|apply I7]. destruct (existsb (fun f => fst f =? n) fs) eqn:X; auto. exfalso. apply existsb_exists in X. destruct X as ([m tok] & I & Q). cbn in Q.
      apply N.eqb_eq in Q, E. subst. destruct (I5 _ _ I) as (x & A & B & _). rewrite Forall_forall in H2. assert (nt_seqno t < nt_seqno x) by (apply H2; apply in_map; exact A). lia.
Qed.

Lemma lost_seqs n l : seqs (nt_lost n l) = seqs l.
Proof. induction l as [|t l IH]; cbn; auto. destruct (nt_seqno t =? n); cbn; auto. unfold seqs in IH. rewrite IH. reflexivity. Qed.
Lemma lost_find n m l : find (fun t => nt_seqno t =? m) (nt_lost n l) = match find (fun t => nt_seqno t =? m) l with Some x => Some (if n =? m then mkNT (nt_seqno x) (nt_token x) true else x) | None => None end.
Proof.
  induction l as [|t l IH]; cbn; auto. destruct (nt_seqno t =? n) eqn:E; cbn [find nt_seqno]; destruct (nt_seqno t =? m) eqn:F; auto.
  - apply N.eqb_eq in E, F. subst. rewrite N.eqb_refl. reflexivity.
  - destruct (find _ l); auto. apply N.eqb_eq in E. subst n. rewrite F. reflexivity.
  - apply N.eqb_eq in F. subst m. apply N.eqb_neq in E. rewrite (proj2 (N.eqb_neq n (nt_seqno t))) by congruence. reflexivity.
Qed.
Lemma acked_find n m l : find (fun t => nt_seqno t =? m) (nt_acked n l) = if n =? m then None else find (fun t => nt_seqno t =? m) l.
Proof.
  unfold nt_acked. induction l as [|t l IH]; cbn; [destruct (n =? m); auto|]. destruct (nt_seqno t =? n) eqn:E; cbn [negb].
  - rewrite IH. apply N.eqb_eq in E. subst n. destruct (nt_seqno t =? m); reflexivity.
  - cbn [find]. rewrite IH. destruct (nt_seqno t =? m) eqn:F; auto. apply N.eqb_eq in F. subst m. rewrite N.eqb_sym in E. rewrite E. reflexivity.
Qed.
Lemma sorted_filter f l : StronglySorted N.lt (seqs l) -> StronglySorted N.lt (seqs (filter f l)).
Proof.
  induction l as [|t l IH]; cbn; auto. intro S. inversion S; subst. destruct (f t); cbn; auto. constructor; auto. rewrite Forall_forall in *. intros x I. apply H2. unfold seqs in I. apply in_map_iff in I.
  destruct I as (y & <- & I). apply filter_In in I. apply in_map. tauto.
Qed.
Lemma sorted_snoc l x : StronglySorted N.lt l -> Forall (fun y => y < x) l -> StronglySorted N.lt (l ++ [x]).
Proof. induction 1 as [|a l S IH F]; cbn; intro G; [repeat constructor|]. inversion G; subst. constructor; auto. apply Forall_app. split; auto. Qed.
Lemma find_none_high l n k : (forall x, In x l -> nt_seqno x < k) -> k <= n -> find (fun t => nt_seqno t =? n) l = None.
Proof. intros H L. destruct (find _ l) eqn:F; auto. apply find_seq in F. destruct F as [I E]. specialize (H _ I). lia. Qed.

Lemma step_inv t s o : Inv t s -> let (fs, s') := n_step s o in Inv (t ++ [(o, fs)]) s'.
Proof.
  intros (NX & SO & TK & AT).
  assert (LO : forall x, In x (ns_tokens s) -> nt_seqno x < ns_next s).
  { intros x I. apply TK in I. assert (N.to_nat (nt_seqno x) < length (given t))%nat by (apply nth_error_Some; congruence). lia. }
  destruct o as [tok|room|n|n]; cbn [n_step].
  - unfold Inv. cbn [nt_send ns_tokens ns_next]. rewrite given_snoc. cbn [fst]. splits.
    + rewrite app_length, Nat2N.inj_add, NX. reflexivity.
    + unfold seqs. rewrite map_app. apply sorted_snoc; [exact SO|]. cbn. apply Forall_forall. intros y I. apply in_map_iff in I. destruct I as (x & <- & I). auto.
    + intros x I. apply in_app_or in I. destruct I as [I|[<-|[]]].
      * rewrite nth_error_app1; [auto|]. apply nth_error_Some. rewrite (TK x I). discriminate.
      * cbn. rewrite NX, Nat2N.id, nth_error_app2, Nat.sub_diag by lia. reflexivity.
    + intro n. rewrite where_snoc. cbn [place_one]. rewrite <- NX, <- AT. unfold at_.
      assert (FA : forall l x, find (fun t => nt_seqno t =? n) (l ++ [x]) = match find (fun t => nt_seqno t =? n) l with Some y => Some y | None => if nt_seqno x =? n then Some x else None end)
        by (induction l as [|y l IH]; intro x; cbn; [reflexivity|]; destruct (nt_seqno y =? n); auto).
      rewrite FA. cbn [nt_seqno nt_needs]. destruct (ns_next s =? n) eqn:E.
      * apply N.eqb_eq in E. subst n. rewrite (find_none_high _ _ _ LO) by lia. rewrite (proj2 (N.ltb_lt _ _)) by lia. reflexivity.
      * apply N.eqb_neq in E. destruct (n <? ns_next s) eqn:L; [apply N.ltb_lt in L; rewrite (proj2 (N.ltb_lt _ _)) by lia | apply N.ltb_ge in L; rewrite (proj2 (N.ltb_ge _ _)) by lia; reflexivity].
        destruct (find _ (ns_tokens s)); reflexivity.
  - pose proof (write_spec (ns_tokens s) room SO) as W. destruct (nt_write room (ns_tokens s)) as [l fs]. destruct W as (W1 & W2 & W3 & W4 & W5 & W6 & W7).
    unfold Inv. cbn [ns_tokens ns_next]. rewrite given_snoc. cbn [fst]. rewrite app_nil_r. splits; auto.
    + rewrite W1. exact SO.
    + intros x I. assert (X : exists y, In y (ns_tokens s) /\ nt_seqno y = nt_seqno x /\ nt_token y = nt_token x).
      { assert (S' : StronglySorted N.lt (seqs l)) by (rewrite W1; exact SO). pose proof (sorted_find l (nt_seqno x) x S' I eq_refl) as F. rewrite W7 in F. destruct (find _ (ns_tokens s)) as [y|] eqn:FY; [|discriminate].
        apply find_seq in FY. exists y. destruct FY. splits; auto. inversion F. destruct (existsb _ fs); reflexivity. }
      destruct X as (y & Y & <- & <-). auto.
    + intro n. rewrite where_snoc. cbn [place_one]. rewrite <- AT. unfold at_. rewrite W7. destruct (n <? ns_next s) eqn:L.
      * destruct (find _ (ns_tokens s)) as [y|] eqn:FY.
        -- destruct (existsb _ fs); cbn; auto.
        -- destruct (existsb (fun f => fst f =? n) fs) eqn:X; auto. exfalso. apply existsb_exists in X. destruct X as ([m tok] & I & E). cbn in E. apply N.eqb_eq in E. subst m. destruct (W5 _ _ I) as (x & A & B & _).
           rewrite (sorted_find _ n x SO A B) in FY. discriminate.
      * destruct (existsb (fun f => fst f =? n) fs) eqn:X; auto. exfalso. apply existsb_exists in X. destruct X as ([m tok] & I & E). cbn in E. apply N.eqb_eq in E. subst m. destruct (W5 _ _ I) as (x & A & B & _).
        apply LO in A. apply N.ltb_ge in L. lia.
  - unfold Inv. cbn [ns_tokens ns_next]. rewrite given_snoc. cbn [fst]. rewrite app_nil_r. splits; auto.
    + rewrite lost_seqs. exact SO.
    + intros x I. assert (S' : StronglySorted N.lt (seqs (nt_lost n (ns_tokens s)))) by (rewrite lost_seqs; exact SO). pose proof (sorted_find _ (nt_seqno x) x S' I eq_refl) as F. rewrite lost_find in F.
      destruct (find _ (ns_tokens s)) as [y|] eqn:FY; [|discriminate]. apply find_seq in FY. destruct FY as [Y E]. apply TK in Y. rewrite E in Y. rewrite Y. inversion F. destruct (n =? nt_seqno x); reflexivity.
    + intro m. rewrite where_snoc. cbn [place_one]. rewrite <- AT. unfold at_. rewrite lost_find. destruct (m <? ns_next s); [|destruct (n =? m); reflexivity].
      destruct (find _ (ns_tokens s)) as [y|]; [|destruct (n =? m); reflexivity]. destruct (n =? m); cbn; destruct (nt_needs y); reflexivity.
  - unfold Inv. cbn [ns_tokens ns_next]. rewrite given_snoc. cbn [fst]. rewrite app_nil_r. splits; auto.
    + apply sorted_filter. exact SO.
    + intros x I. apply filter_In in I. apply TK. tauto.
    + intro m. rewrite where_snoc. cbn [place_one]. rewrite <- AT. unfold at_. rewrite acked_find. destruct (m <? ns_next s); [|destruct (n =? m); reflexivity].
      destruct (n =? m); [|reflexivity]. destruct (find _ (ns_tokens s)) as [y|]; [destruct (nt_needs y)|]; reflexivity.
Qed.
Lemma run_inv : forall ops t0 s t s', Inv t0 s -> n_run s ops = (t, s') -> Inv (t0 ++ t) s'.
Proof.
  induction ops as [|o ops IH]; intros t0 s t s' H R; cbn [n_run] in R.
  { inversion R; subst. rewrite app_nil_r. exact H. }
  pose proof (step_inv t0 s o H) as S. destruct (n_step s o) as [fs s1]. destruct (n_run s1 ops) as [t2 s2] eqn:R2. inversion R; subst.
  replace (t0 ++ (o, fs) :: t2) with ((t0 ++ [(o, fs)]) ++ t2) by (rewrite <- app_assoc; reflexivity). eapply IH; eauto.
Qed.
Lemma init_inv : Inv [] ns_init.
Proof. unfold Inv. cbn. splits; auto; try constructor. intros x []. intro n. unfold at_. destruct (n <? 0) eqn:E; auto. apply N.ltb_lt in E. lia. Qed.
