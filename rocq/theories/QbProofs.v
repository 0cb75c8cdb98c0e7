From Verif Require Import Base Lib QpTables QiModel QiSpec QiProofs QiProofs2 QbModel QbSpec.
Open Scope N_scope.
Open Scope list_scope.
Import ListNotations.

(** Live entries: a window of the history. *)
Fixpoint win (H : list header) (b : N) (l : list entry) : Prop :=
  match l with
  | [] => True
  | e :: l' => 0 < b /\ x_base e = b - 1 /\ nth_error H (N.to_nat (b - 1)) = Some (x_name e, x_value e) /\ win H (b - 1) l'
  end.
Definition sizes (l : list entry) : N := fold_right (fun e s => x_size e + s) 0 l.
Definition t_ok (H : list header) (t : table) : Prop :=
  win H (t_base t) (t_dyn t) /\ t_used t = sizes (t_dyn t) /\ t_used t <= t_cap t /\ t_base t <= lenN H.
Definition oldest (t : table) : N := t_base t - lenN (t_dyn t).

Lemma win_len : forall l H b, win H b l -> lenN l <= b.
Proof. induction l as [|e l IH]; cbn [win]; intros H b W; [rewrite lenN_nil; lia|]. rewrite lenN_cons. destruct W as (P & _ & _ & W). apply IH in W. lia. Qed.
Lemma win_app : forall a H b c, win H b (a ++ c) <-> win H b a /\ win H (b - lenN a) c.
Proof.
  induction a as [|e a IH]; cbn [win List.app]; intros H b c.
  - rewrite lenN_nil, N.sub_0_r. tauto.
  - rewrite IH, lenN_cons. replace (b - (1 + lenN a)) with (b - 1 - lenN a) by lia. tauto.
Qed.
Lemma win_ext : forall l H X b, win H b l -> win (H ++ X) b l.
Proof.
  induction l as [|e l IH]; cbn [win]; intros H X b W; auto. destruct W as (P & E & N1 & W). splits; auto.
  rewrite nth_error_app1; auto. apply nth_error_Some. congruence.
Qed.
Lemma win_nth : forall l H b k, win H b l -> (k < length l)%nat -> exists e, nth_error l k = Some e /\ x_base e = b - 1 - N.of_nat k /\ N.of_nat k < b /\ nth_error H (N.to_nat (b - 1 - N.of_nat k)) = Some (x_name e, x_value e).
Proof.
  induction l as [|e l IH]; cbn [win length]; intros H b k W L; [lia|]. destruct W as (P & E & N1 & W). destruct k as [|k].
  - exists e. cbn [nth_error]. replace (b - 1 - N.of_nat 0) with (b - 1) by lia. splits; auto; lia.
  - destruct (IH H (b - 1) k W ltac:(lia)) as (x & A & B & C & D). exists x. cbn [nth_error]. replace (b - 1 - N.of_nat (S k)) with (b - 1 - 1 - N.of_nat k) by lia. splits; auto; lia.
Qed.
Lemma win_in : forall l H b e, win H b l -> In e l -> b - lenN l <= x_base e < b.
Proof.
  induction l as [|x l IH]; cbn [win In]; intros H b e W I; [tauto|]. destruct W as (P & E & N1 & W). rewrite lenN_cons. destruct I as [->|I]; [lia|].
  apply (IH _ _ _ W) in I. lia.
Qed.
Lemma win_inj : forall l H b e1 e2, win H b l -> In e1 l -> In e2 l -> x_base e1 = x_base e2 -> e1 = e2.
Proof.
  induction l as [|x l IH]; cbn [win In]; intros H b e1 e2 W I1 I2 Q; [tauto|]. destruct W as (P & E & N1 & W).
  destruct I1 as [<-|I1], I2 as [<-|I2]; auto.
  - pose proof (win_in _ _ _ _ W I2). lia.
  - pose proof (win_in _ _ _ _ W I1). lia.
  - eapply IH; eauto.
Qed.
Lemma sizes_app : forall a b, sizes (a ++ b) = sizes a + sizes b.
Proof. induction a as [|e a IH]; intros b; cbn [sizes fold_right List.app]; auto. fold (sizes (a ++ b)) (sizes a). rewrite IH. lia. Qed.
Lemma sizes_cons : forall e l, sizes (e :: l) = x_size e + sizes l. Proof. auto. Qed.
Lemma sizes_rev : forall l, sizes (rev l) = sizes l.
Proof. induction l as [|e l IH]; auto. cbn [rev]. rewrite sizes_app, IH, !sizes_cons. cbn [sizes fold_right]. lia. Qed.
Lemma sizes_min : forall l, 32 * lenN l <= sizes l.
Proof. induction l as [|e l IH]; [cbn; lia|]. rewrite sizes_cons, lenN_cons. unfold x_size. lia. Qed.

(** *** Eviction *)
Lemma evict_loop_spec : forall l used r a, used = sizes l -> exists g l' u ok, evict_loop l used r a = Good (l', u, ok) /\ l = g ++ l' /\ Forall (fun e => can_reduce e a = true) g /\ u = sizes l' /\
  (if ok then u <= r else r < u).
Proof.
  induction l as [|e l IH]; intros used r a U; cbn [evict_loop].
  - exists [], [], used, true. splits; auto. cbn in U. lia.
  - destruct (N.leb_spec used r).
    { exists [], (e :: l), used, true. splits; auto. }
    destruct (can_reduce e a) eqn:C; cbn [negb].
    2:{ exists [], (e :: l), used, false. splits; auto. }
    rewrite sizes_cons in U. destruct (N.ltb_spec used (x_size e)); [lia|].
    destruct (IH (used - x_size e) r a ltac:(lia)) as (g & l' & u & ok & E & L & F & S' & O). exists (e :: g), l', u, ok. splits; auto. rewrite L. auto.
Qed.
Definition strip (e : entry) : N * list N * list N := (x_base e, x_name e, x_value e).
Lemma strip_size : forall a b, strip a = strip b -> x_size a = x_size b. Proof. unfold strip, x_size. intros a b H. inversion H. congruence. Qed.
Lemma strip_sizes : forall a b, map strip a = map strip b -> sizes a = sizes b.
Proof. induction a as [|x a IH]; destruct b as [|y b]; cbn [map]; intros H; try discriminate; auto. inversion H. rewrite !sizes_cons. erewrite IH, (strip_size x y); eauto. unfold strip. congruence. Qed.
Lemma evict_mirror : forall l1 used r a1 l' u l2 a2, evict_loop l1 used r a1 = Good (l', u, true) -> map strip l1 = map strip l2 -> Forall (fun e => can_reduce e a2 = true) l2 ->
  exists l2', evict_loop l2 used r a2 = Good (l2', u, true) /\ map strip l' = map strip l2' /\ exists g, l2 = g ++ l2'.
Proof.
  induction l1 as [|e l1 IH]; intros used r a1 l' u l2 a2 E M F; destruct l2 as [|e2 l2]; try discriminate M; cbn [evict_loop] in *.
  - inversion E; subst. exists []. splits; auto. exists []. auto.
  - cbn [map] in M. injection M as M1 M2 M3 M4. assert (S : x_size e = x_size e2) by (apply strip_size; unfold strip; congruence).
    inversion F as [|? ? F1 F2]; subst.
    destruct (used <=? r).
    { inversion E; subst. exists (e2 :: l2). splits; auto; [cbn [map]; unfold strip at 1 3; congruence|]. exists []. auto. }
    destruct (can_reduce e a1) eqn:C; cbn [negb] in *; [|discriminate E]. rewrite F1. cbn [negb]. rewrite <- S. destruct (used <? x_size e); [discriminate E|].
    destruct (IH _ _ _ _ _ l2 a2 E M4 F2) as (l2' & A & B & g & G). exists l2'. splits; auto. exists (e2 :: g). rewrite G. auto.
Qed.
Lemma evictable_le : forall l a, evictable l a <= sizes l.
Proof. induction l as [|e l IH]; intros a; cbn [evictable]; [cbn; lia|]. rewrite sizes_cons. destruct (can_reduce e a); [specialize (IH a)|]; lia. Qed.
Lemma evictable_ok : forall l used r a, used = sizes l -> used - evictable l a <= r -> exists l' u, evict_loop l used r a = Good (l', u, true).
Proof.
  induction l as [|e l IH]; intros used r a U E; cbn [evict_loop evictable] in *; [eauto|].
  destruct (N.leb_spec used r); [eauto|]. rewrite sizes_cons in U. destruct (can_reduce e a) eqn:C; cbn [negb]; [|lia].
  destruct (N.ltb_spec used (x_size e)); [lia|]. apply IH; lia.
Qed.
(** Eviction of a table; [keep]: what is left of it. *)
Definition kept (t t' : table) (g : list entry) : Prop :=
  t_dyn t = t_dyn t' ++ g /\ Forall (fun e => can_reduce e (t_acked t) = true) g /\ t_base t' = t_base t /\ t_acked t' = t_acked t /\ t_cap t' = t_cap t /\ t_used t' = sizes (t_dyn t').
Lemma evict_to_spec : forall t r, t_used t = sizes (t_dyn t) -> exists t' ok g, evict_to t r = Good (t', ok) /\ kept t t' g /\ (if ok then t_used t' <= r else r < t_used t').
Proof.
  intros t r U. unfold evict_to. destruct (evict_loop_spec (rev (t_dyn t)) (t_used t) r (t_acked t)) as (g & l' & u & ok & E & L & F & S & O); [rewrite sizes_rev; auto|].
  rewrite E. cbn [rbind]. eexists _, ok, (rev g). split; [reflexivity|]. unfold kept. cbn [t_dyn t_base t_acked t_cap t_used]. splits; auto.
  - rewrite <- rev_app_distr, <- L, rev_involutive. auto.
  - apply Forall_rev. auto.
  - rewrite sizes_rev. auto.
Qed.
Lemma can_evict_good : forall t r, t_used t = sizes (t_dyn t) -> exists b, can_evict_to t r = Good b /\ (b = true -> exists t', evict_to t r = Good (t', true)).
Proof.
  intros t r U. unfold can_evict_to. pose proof (evictable_le (rev (t_dyn t)) (t_acked t)) as L. rewrite sizes_rev in L. destruct (N.ltb_spec (t_used t) (evictable (rev (t_dyn t)) (t_acked t))); [lia|].
  eexists. split; [reflexivity|]. intros B. apply N.leb_le in B.
  destruct (evictable_ok (rev (t_dyn t)) (t_used t) r (t_acked t)) as (l' & u & E); [rewrite sizes_rev; auto | auto|]. unfold evict_to. rewrite E. cbn [rbind]. eauto.
Qed.

(** The two tables hold the same. *)
Definition same (t1 t2 : table) : Prop := map strip (t_dyn t1) = map strip (t_dyn t2) /\ t_cap t1 = t_cap t2 /\ t_used t1 = t_used t2 /\ t_base t1 = t_base t2.
Definition free (t : table) : Prop := Forall (fun e => x_refs e = 0) (t_dyn t) /\ t_acked t = 2 ^ 64 - 1.
Lemma free_reduce : forall H t, win H (t_base t) (t_dyn t) -> free t -> t_base t < 2 ^ 64 -> Forall (fun e => can_reduce e (t_acked t) = true) (t_dyn t).
Proof.
  intros H t W (F & A) B. apply Forall_forall. intros e I. rewrite Forall_forall in F. pose proof (F e I). pose proof (win_in _ _ _ _ W I). unfold can_reduce. rewrite A.
  apply andb_true_intro. split; [apply N.eqb_eq; auto | apply N.ltb_lt; lia].
Qed.
Lemma evict_to_same : forall H t1 t2 r t1', evict_to t1 r = Good (t1', true) -> same t1 t2 -> free t2 -> win H (t_base t2) (t_dyn t2) -> t_base t2 < 2 ^ 64 ->
  exists t2', evict_to t2 r = Good (t2', true) /\ same t1' t2' /\ free t2'.
Proof.
  intros H t1 t2 r t1' E (S1 & S2 & S3 & S4) F W B. unfold evict_to in *. destruct (evict_loop (rev (t_dyn t1)) (t_used t1) r (t_acked t1)) as [[[l u] ok]| |] eqn:L; cbn [rbind] in E; try discriminate E.
  injection E as E1 E2. subst ok.
  destruct (evict_mirror _ _ _ _ _ _ (rev (t_dyn t2)) (t_acked t2) L) as (l2 & A & M & g & G).
  - rewrite !map_rev, S1. auto.
  - apply Forall_rev. eapply free_reduce; eauto.
  - rewrite <- S3, A. cbn [rbind]. eexists. split; [reflexivity|]. subst t1'. unfold same, free. cbn [t_dyn t_cap t_used t_base t_acked]. splits; auto.
    + rewrite !map_rev. congruence.
    + apply Forall_rev. destruct F as (F & _). apply Forall_rev in F. rewrite G in F. apply Forall_app in F. tauto.
    + apply F.
Qed.

(** *** Insertion and capacity *)
Lemma kept_ok : forall H t t' g, t_ok H t -> kept t t' g -> t_ok H t' /\ oldest t <= oldest t' /\ (forall e, In e (t_dyn t') -> In e (t_dyn t)) /\
  (forall e, In e (t_dyn t) -> x_base e < oldest t' -> can_reduce e (t_acked t) = true) /\ (oldest t <= t_acked t -> oldest t' <= t_acked t).
Proof.
  intros H t t' g (W & U & C & B) (D & F & K1 & K2 & K3 & K4). pose proof (win_len _ _ _ W) as L. rewrite D in W, U, L. apply win_app in W. destruct W as (W1 & W2). rewrite sizes_app in U. rewrite lenN_app in L.
  unfold t_ok, oldest. rewrite K1, K3, D, lenN_app. splits; auto; try lia.
  - intros e I. apply in_or_app. auto.
  - intros e I X. apply in_app_or in I. destruct I as [I|I]; [apply (win_in _ _ _ _ W1) in I; lia|]. rewrite Forall_forall in F. auto.
  - intros O. destruct g as [|e g]; [rewrite lenN_nil in *; lia|]. inversion F as [|? ? F1 F2]; subst. unfold can_reduce in F1. apply andb_prop in F1. destruct F1 as (_ & F1). apply N.ltb_lt in F1.
    cbn [win] in W2. destruct W2 as (W2 & W3 & _). rewrite lenN_cons in *. lia.
Qed.
Lemma insert_spec : forall H t n v, t_ok H t -> t_base t = lenN H -> exists r, insert t n v = r /\
  match r with
  | Good (t', i) => i = t_base t /\ t_ok (H ++ [(n, v)]) t' /\ t_base t' = t_base t + 1 /\ t_acked t' = t_acked t /\ t_cap t' = t_cap t /\ oldest t <= oldest t' /\
      (forall e, In e (t_dyn t') -> In e (t_dyn t) \/ e = mkX (t_base t) n v 0) /\ (forall e, In e (t_dyn t) -> x_base e < oldest t' -> can_reduce e (t_acked t) = true) /\
      (oldest t <= t_acked t -> oldest t' <= t_acked t)
  | Bad => True
  | Panic => False
  end.
Proof.
  intros H t n v O B. eexists. split; [reflexivity|]. unfold insert. set (x := mkX (t_base t) n v 0). destruct (N.ltb_spec (t_cap t) (x_size x)); auto.
  destruct (evict_to_spec t (t_cap t - x_size x)) as (t' & ok & g & E & K & R); [apply O|]. rewrite E. cbn [rbind]. destruct ok; auto.
  destruct (kept_ok H t t' g O K) as ((W & U & C & B') & K1 & K2 & K3 & K4). destruct K as (D & F & Q1 & Q2 & Q3 & Q4).
  pose proof (win_len _ _ _ W) as L. unfold t_ok, oldest in *. cbn [t_dyn t_base t_acked t_cap t_used]. rewrite Q1, Q2, Q3 in *.
  rewrite lenN_cons, lenN_app, lenN_cons, lenN_nil. splits; auto; try lia.
  - cbn [win]. replace (t_base t + 1 - 1) with (t_base t) by lia. splits; auto; try lia.
    + rewrite nth_error_app2 by (rewrite B; unfold lenN; lia). rewrite B. unfold lenN. rewrite Nnat.Nat2N.id, Nat.sub_diag. auto.
    + apply win_ext. auto.
  - rewrite sizes_cons. lia.
  - intros e [<-|I]; auto.
  - intros e I X. apply K3; auto. lia.
Qed.
Lemma insert_same : forall H t1 t2 n v t1' i, insert t1 n v = Good (t1', i) -> same t1 t2 -> free t2 -> win H (t_base t2) (t_dyn t2) -> t_base t2 < 2 ^ 64 ->
  exists t2' i2, insert t2 n v = Good (t2', i2) /\ same t1' t2' /\ free t2'.
Proof.
  intros H t1 t2 n v t1' i E S F W B. pose proof S as (S1 & S2 & S3 & S4). unfold insert in *. cbn [x_size x_name x_value] in *. set (z := x_size (mkX (t_base t1) n v 0)) in *. change (x_size (mkX (t_base t2) n v 0)) with z. rewrite <- S2.
  destruct (t_cap t1 <? z); [discriminate E|]. destruct (evict_to t1 (t_cap t1 - z)) as [[t1a ok]| |] eqn:V; cbn [rbind] in E; try discriminate E. destruct ok; [|discriminate E].
  destruct (evict_to_same H _ t2 _ _ V S F W B) as (t2a & A & (M1 & M2 & M3 & M4) & F1 & F2). rewrite A. cbn [rbind]. injection E as <- <-.
  eexists _, _. split; [reflexivity|]. unfold same, free. cbn [t_dyn t_cap t_used t_base t_acked map]. splits; auto; try congruence.
Qed.
Lemma set_capacity_spec : forall H t c, t_ok H t -> match set_capacity t c with
  | Good t' => t_ok H t' /\ t_base t' = t_base t /\ t_acked t' = t_acked t /\ t_cap t' = c /\ oldest t <= oldest t' /\
      (forall e, In e (t_dyn t') -> In e (t_dyn t)) /\ (forall e, In e (t_dyn t) -> x_base e < oldest t' -> can_reduce e (t_acked t) = true) /\ (oldest t <= t_acked t -> oldest t' <= t_acked t)
  | Bad => True
  | Panic => False
  end.
Proof.
  intros H t c O. unfold set_capacity. destruct (evict_to_spec t c) as (t' & ok & g & E & K & R); [apply O|]. rewrite E. cbn [rbind]. destruct ok; auto.
  destruct (kept_ok H t t' g O K) as ((W & U & C & B') & K1 & K2 & K3 & K4). destruct K as (D & F & Q1 & Q2 & Q3 & Q4). unfold t_ok, oldest in *. cbn [t_dyn t_base t_acked t_cap t_used]. splits; auto.
Qed.
Lemma set_capacity_same : forall H t1 t2 c t1', set_capacity t1 c = Good t1' -> same t1 t2 -> free t2 -> win H (t_base t2) (t_dyn t2) -> t_base t2 < 2 ^ 64 ->
  exists t2', set_capacity t2 c = Good t2' /\ same t1' t2' /\ free t2'.
Proof.
  intros H t1 t2 c t1' E S F W B. unfold set_capacity in *. destruct (evict_to t1 c) as [[t1a ok]| |] eqn:V; cbn [rbind] in E; try discriminate E. destruct ok; [|discriminate E].
  destruct (evict_to_same H _ t2 _ _ V S F W B) as (t2a & A & (M1 & M2 & M3 & M4) & F1 & F2). rewrite A. cbn [rbind]. injection E as <-. eexists. split; [reflexivity|].
  unfold same, free. cbn [t_dyn t_cap t_used t_base t_acked]. splits; auto.
Qed.
Lemma insert_possible_good : forall t n v, t_used t = sizes (t_dyn t) -> exists b, insert_possible t (lenN n + lenN v + 32) = Good b /\ (b = true -> exists t' i, insert t n v = Good (t', i)).
Proof.
  intros t n v U. unfold insert_possible. destruct (N.leb_spec (lenN n + lenN v + 32) (t_cap t)).
  - destruct (can_evict_good t (t_cap t - (lenN n + lenN v + 32)) U) as (b & E & G). rewrite E. exists b. split; auto. intros B. destruct (G B) as (t' & T). unfold insert.
    change (x_size (mkX (t_base t) n v 0)) with (lenN n + lenN v + 32). destruct (N.ltb_spec (t_cap t) (lenN n + lenN v + 32)); [lia|]. rewrite T. cbn [rbind]. eauto.
  - exists false. split; auto. discriminate.
Qed.

(** *** References *)
Definition pres (t : table) (i : N) : Prop := oldest t <= i < t_base t.
Definition cntb (i : N) (B : list (list N)) : N := lenN (filter (existsb (N.eqb i)) B).
Definition refs_ok (t : table) (B : list (list N)) : Prop := (forall e, In e (t_dyn t) -> x_refs e = cntb (x_base e) B) /\ Forall (Forall (pres t)) B.
Lemma cntb_cons : forall i b B, cntb i (b :: B) = (if existsb (N.eqb i) b then 1 else 0) + cntb i B.
Proof. intros. unfold cntb. cbn [filter]. destruct (existsb (N.eqb i) b); rewrite ?lenN_cons; lia. Qed.
Lemma cntb_app : forall i a b, cntb i (a ++ b) = cntb i a + cntb i b.
Proof. intros. unfold cntb. rewrite filter_app, lenN_app. auto. Qed.
Lemma existsb_in : forall i l, existsb (N.eqb i) l = true <-> In i l.
Proof. intros. rewrite existsb_exists. split; [intros (x & A & B); apply N.eqb_eq in B; subst; auto | intros A; exists i; split; auto; apply N.eqb_refl]. Qed.
Lemma existsb_notin : forall i l, ~ In i l -> existsb (N.eqb i) l = false.
Proof. intros i l H. destruct (existsb (N.eqb i) l) eqn:E; auto. apply existsb_in in E. tauto. Qed.
Lemma cntb_in : forall i B b, In b B -> In i b -> 0 < cntb i B.
Proof.
  intros i B b I J. unfold cntb. assert (In b (filter (existsb (N.eqb i)) B)) by (apply filter_In; split; auto; apply existsb_in; auto).
  destruct (filter (existsb (N.eqb i)) B); [destruct H|]. rewrite lenN_cons. lia.
Qed.
Lemma get_abs_good : forall H t i, win H (t_base t) (t_dyn t) -> pres t i -> exists e, get_abs t i = Good e /\ In e (t_dyn t) /\ x_base e = i /\ nth_error H (N.to_nat i) = Some (x_name e, x_value e).
Proof.
  intros H t i W (P1 & P2). unfold get_abs, get_rel, oldest in *. destruct (N.leb_spec (t_base t) i); [lia|].
  pose proof (win_len _ _ _ W). unfold lenN in *. destruct (win_nth _ _ _ (N.to_nat (t_base t - i - 1)) W) as (e & A & B & C & D); [lia|].
  rewrite A. exists e. rewrite Nnat.N2Nat.id in *. replace (t_base t - 1 - (t_base t - i - 1)) with i in * by lia. splits; auto. eapply nth_error_In; eauto.
Qed.
Lemma upd_nth_win : forall f, (forall e, strip (f e) = strip e) -> forall l k H b, win H b l -> win H b (upd_nth k f l) /\ lenN (upd_nth k f l) = lenN l /\ sizes (upd_nth k f l) = sizes l /\ map strip (upd_nth k f l) = map strip l.
Proof.
  intros f F. induction l as [|e l IH]; intros k H b W; [destruct k; cbn; auto|]. destruct k as [|k]; cbn [upd_nth].
  - cbn [win map] in *. pose proof (F e) as Q. rewrite !sizes_cons, !lenN_cons, (strip_size _ _ Q). unfold strip in *. injection Q as Q1 Q2 Q3. rewrite Q1, Q2, Q3. auto.
  - cbn [win map] in *. destruct W as (A & B & C & W). destruct (IH k H (b - 1) W) as (I1 & I2 & I3 & I4). rewrite !sizes_cons, !lenN_cons, I2, I3, I4. auto.
Qed.
Lemma upd_nth_in : forall f l k H b, win H b l -> N.of_nat k < b -> forall e', In e' (upd_nth k f l) -> (exists e, In e l /\ e' = f e /\ x_base e = b - 1 - N.of_nat k) \/ (In e' l /\ x_base e' <> b - 1 - N.of_nat k).
Proof.
  intros f. induction l as [|e l IH]; intros k H b W K e' I; [destruct k; destruct I|]. cbn [win] in W. destruct W as (A & B & C & W). destruct k as [|k]; cbn [upd_nth In] in I.
  - replace (b - 1 - N.of_nat 0) with (b - 1) by lia. destruct I as [<-|I]; [left; exists e; cbn; auto|]. right. split; [right; auto|]. pose proof (win_in _ _ _ _ W I). pose proof (win_len _ _ _ W). lia.
  - replace (b - 1 - N.of_nat (S k)) with (b - 1 - 1 - N.of_nat k) by lia. destruct I as [<-|I].
    + right. split; [left; auto|]. rewrite B. lia.
    + destruct (IH k H (b - 1) W ltac:(lia) e' I) as [(x & X1 & X2 & X3)|(X1 & X2)]; [left; exists x; cbn; auto | right; split; [right; auto | auto]].
Qed.
(** A change of one entry's count. *)
Definition like (t t' : table) : Prop := t_base t' = t_base t /\ t_acked t' = t_acked t /\ t_cap t' = t_cap t /\ t_used t' = t_used t /\ map strip (t_dyn t') = map strip (t_dyn t).
Lemma like_refl : forall t, like t t. Proof. unfold like. auto. Qed.
Lemma like_trans : forall a b c, like a b -> like b c -> like a c. Proof. unfold like. intros a b c (A & B & C & D & E) (A' & B' & C' & D' & E'). splits; congruence. Qed.
Lemma map_strip_win : forall l l' H b, map strip l = map strip l' -> win H b l -> win H b l'.
Proof.
  induction l as [|e l IH]; destruct l' as [|e' l']; cbn [map win]; intros H b M W; try discriminate; auto. injection M as M1 M2 M3 M4. rewrite <- M1, <- M2, <- M3. destruct W as (A & B & C & W). splits; eauto.
Qed.
Lemma map_strip_len : forall l l', map strip l = map strip l' -> lenN l = lenN l'.
Proof. intros l l' H. apply (f_equal (@length _)) in H. rewrite !map_length in H. unfold lenN. congruence. Qed.
Lemma like_ok : forall H t t', like t t' -> t_ok H t -> t_ok H t' /\ oldest t' = oldest t.
Proof.
  intros H t t' (A & B & C & D & E) (W & U & X & Y). unfold t_ok, oldest. rewrite A, C, D, (map_strip_len _ _ E). splits; auto.
  - eapply map_strip_win; [symmetry|]; eauto.
  - rewrite (strip_sizes _ _ E). auto.
Qed.
Lemma like_pres : forall t t' i, like t t' -> pres t i <-> pres t' i.
Proof. intros t t' i (A & B & C & D & E). unfold pres, oldest. rewrite A, (map_strip_len _ _ E). tauto. Qed.
Lemma like_pres_all : forall t t' B, like t t' -> Forall (Forall (pres t)) B -> Forall (Forall (pres t')) B.
Proof. intros t t' B L. apply Forall_impl. intros b. apply Forall_impl. intros i. apply (like_pres t t' i L). Qed.
Lemma like_same : forall t t' t2, like t t' -> same t t2 -> same t' t2. Proof. unfold like, same. intros t t' t2 (A & B & C & D & E) (S1 & S2 & S3 & S4). splits; congruence. Qed.
Lemma upd_like : forall f H t i, (forall e, strip (f e) = strip e) -> t_ok H t -> like t (upd_abs t i f).
Proof. intros f H t i F (W & _). unfold like, upd_abs. cbn [t_base t_acked t_cap t_used t_dyn]. splits; auto. eapply upd_nth_win; eauto. Qed.
Lemma upd_in : forall f H t i, t_ok H t -> pres t i -> forall e', In e' (t_dyn (upd_abs t i f)) -> (exists e, In e (t_dyn t) /\ e' = f e /\ x_base e = i) \/ (In e' (t_dyn t) /\ x_base e' <> i).
Proof.
  intros f H t i (W & _) (P1 & P2) e' I. unfold upd_abs in I. cbn [t_dyn] in I. apply (upd_nth_in _ _ _ _ _ W) in I; [|lia]. rewrite Nnat.N2Nat.id in I. replace (t_base t - 1 - (t_base t - i - 1)) with i in I by lia. auto.
Qed.
Lemma add_ref_spec : forall H t i b B, t_ok H t -> pres t i -> refs_ok t (b :: B) -> ~ In i b -> exists t', add_ref t i = Good t' /\ like t t' /\ refs_ok t' ((i :: b) :: B).
Proof.
  intros H t i b B O P (R & F) NI. unfold add_ref. destruct (get_abs_good H t i (proj1 O) P) as (e & G & _). rewrite G. eexists. split; [reflexivity|].
  pose proof (upd_like (fun e => mkX (x_base e) (x_name e) (x_value e) (x_refs e + 1)) H t i ltac:(reflexivity) O) as L. split; auto. split.
  - intros e' I. apply (upd_in _ H t i O P) in I. destruct I as [(x & I & -> & X)|(I & X)]; cbn [x_refs x_base]; rewrite (R _ I), !cntb_cons; cbn [existsb].
    + rewrite X, N.eqb_refl, (existsb_notin _ _ NI). cbn [orb]. lia.
    + destruct (N.eqb_spec (x_base e') i); [tauto|]. auto.
  - inversion F as [|? ? F1 F2]; subst. apply (like_pres_all _ _ _ L). constructor; auto.
Qed.
Lemma remove_ref_spec : forall H t i b B, t_ok H t -> refs_ok t ((i :: b) :: B) -> ~ In i b -> exists t', remove_ref t i = Good t' /\ like t t' /\ refs_ok t' (b :: B).
Proof.
  intros H t i b B O (R & F) NI. inversion F as [|? ? F1 F2]; subst. inversion F1 as [|? ? P F3]; subst. unfold remove_ref. destruct (get_abs_good H t i (proj1 O) P) as (e & G & I & X & _). rewrite G.
  pose proof (R _ I) as C. rewrite cntb_cons in C. cbn [existsb] in C. rewrite X, N.eqb_refl in C. cbn [orb] in C. destruct (N.eqb_spec (x_refs e) 0); [lia|].
  eexists. split; [reflexivity|]. pose proof (upd_like (fun e => mkX (x_base e) (x_name e) (x_value e) (x_refs e - 1)) H t i ltac:(reflexivity) O) as L. split; auto. split.
  - intros e' I'. apply (upd_in _ H t i O P) in I'. destruct I' as [(x & I' & -> & X')|(I' & X')]; cbn [x_refs x_base]; rewrite (R _ I'), !cntb_cons; cbn [existsb].
    + rewrite X', N.eqb_refl, (existsb_notin _ _ NI). cbn [orb]. lia.
    + destruct (N.eqb_spec (x_base e') i); [tauto|]. auto.
  - apply (like_pres_all _ _ _ L). constructor; auto.
Qed.
