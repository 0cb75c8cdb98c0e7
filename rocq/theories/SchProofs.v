(** The queues hold what the settings say. *)
From Verif Require Import Base Lib SchModel SchSpec.
From Coq Require Import ZArith Sorted Permutation.
Open Scope N_scope.
Open Scope list_scope.
Import ListNotations.

Definition asc (l : list N) : Prop := StronglySorted N.lt l.
Definition desc (l : list Z) : Prop := StronglySorted (fun a b => (b < a)%Z) l.
Fixpoint ord_get (z : Z) (l : list (Z * og)) : og := match l with [] => og_new | (y, g) :: l' => if (z =? y)%Z then g else ord_get z l' end.
Definition q_get (o : option Z) (q : pgq) : og := match o with Some z => ord_get z (ordered q) | None => regular q end.
Fixpoint grp_get (h : N) (l : list (N * pgq)) : pgq := match l with [] => q_new | (g, q) :: l' => if g =? h then q else grp_get h l' end.
Definition gvec (gs : list (N * pgq)) (h : N) (o : option Z) : list N := vec (q_get o (grp_get h gs)).
Definition ok_ord (l : list (Z * og)) : Prop := desc (map fst l) /\ Forall (fun e => asc (vec (snd e))) l.
Definition ok_q (q : pgq) : Prop := ok_ord (ordered q) /\ asc (vec (regular q)).
Definition ok_groups (gs : list (N * pgq)) : Prop := NoDup (map fst gs) /\ Forall (fun e => ok_q (snd e)) gs.

Lemma memb_spec : forall x l, memb x l = true <-> In x l.
Proof.
  intros x l. unfold memb. rewrite existsb_exists. split; [intros (y & I & E); apply N.eqb_eq in E; subst; auto | intros I; exists x; split; [auto | apply N.eqb_refl]].
Qed.
Lemma memb_false : forall x l, memb x l = false <-> ~ In x l.
Proof. intros x l. rewrite <- memb_spec. destruct (memb x l); split; intros; auto; try discriminate; congruence. Qed.
Lemma put_in : forall x l y, In y (put x l) <-> y = x \/ In y l.
Proof.
  intros x l. induction l as [|z l IH]; intros y; cbn.
  - split; [intros [H|H]; auto | intros [H|H]; auto].
  - destruct (x <? z); cbn; [intuition|]. rewrite IH. intuition.
Qed.
Lemma asc_put : forall x l, asc l -> ~ In x l -> asc (put x l).
Proof.
  intros x l A. induction A as [|y l A IH F]; intros NI; cbn [put].
  - constructor; constructor.
  - destruct (x <? y) eqn:L.
    + apply N.ltb_lt in L. constructor; [constructor; auto|]. constructor; auto. eapply Forall_impl; [|exact F]. cbn. lia.
    + apply N.ltb_ge in L. assert (x <> y) by (intros ->; apply NI; left; auto).
      constructor; [apply IH; intros I; apply NI; right; auto|]. apply Forall_forall. intros z I. apply put_in in I. destruct I as [->|I]; [lia|].
      rewrite Forall_forall in F. apply F; auto.
Qed.
Lemma asc_filter : forall f l, asc l -> asc (filter f l).
Proof.
  intros f l A. induction A as [|y l A IH F]; cbn; [constructor|]. destruct (f y); auto. constructor; auto.
  apply Forall_forall. intros z I. apply filter_In in I. rewrite Forall_forall in F. apply F; tauto.
Qed.
Lemma asc_nodup : forall l, asc l -> NoDup l.
Proof.
  intros l A. induction A as [|y l A IH F]; constructor; auto. intros I. rewrite Forall_forall in F. specialize (F y I). lia.
Qed.
Lemma asc_snoc : forall l x, asc l -> (forall y, In y l -> y < x) -> asc (l ++ [x]).
Proof.
  intros l x A. induction A as [|y l A IH F]; intros H; cbn; [constructor; constructor|]. constructor.
  - apply IH. intros z I. apply H; right; auto.
  - apply Forall_app. split; auto. constructor; [apply H; left; auto | constructor].
Qed.
Lemma asc_last : forall l x y, asc (l ++ [y]) -> y < x -> forall z, In z (l ++ [y]) -> z < x.
Proof.
  intros l. induction l as [|a l IH]; intros x y A L z I; cbn in *.
  - destruct I as [<-|[]]; auto.
  - inversion A as [|? ? A' F]; subst. destruct I as [<-|I]; [|apply (IH x y A' L z I)].
    rewrite Forall_forall in F. pose proof (F y ltac:(apply in_or_app; right; left; auto)). lia.
Qed.

(** Inserting and removing at one queue. *)
Definition inserts (x : N) (f : og -> option og) : Prop :=
  forall g, asc (vec g) -> ~ In x (vec g) -> exists g', f g = Some g' /\ asc (vec g') /\ (forall y, In y (vec g') <-> y = x \/ In y (vec g)).
Lemma og_insert_ok : forall x, inserts x (og_insert x).
Proof.
  intros x g A NI. unfold og_insert. apply memb_false in NI. rewrite NI. apply memb_false in NI. eexists. split; [reflexivity|]. cbn [vec].
  split; [apply asc_put; auto | intros y; apply put_in].
Qed.
Lemma og_append_ok : forall x, inserts x (og_append x).
Proof.
  intros x g A NI. unfold og_append. destruct (List.rev (vec g)) as [|y r] eqn:R; [apply og_insert_ok; auto|].
  destruct (y <? x) eqn:L; [|apply og_insert_ok; auto]. apply N.ltb_lt in L. eexists. split; [reflexivity|]. cbn [vec].
  assert (vec g = List.rev r ++ [y]) as V by (rewrite <- (rev_involutive (vec g)), R; reflexivity). split.
  - apply asc_snoc; auto. rewrite V in A |- *. intros z I. eapply asc_last; eauto.
  - intros z. rewrite in_app_iff. cbn. intuition.
Qed.
Lemma og_remove_ok : forall x g, asc (vec g) -> In x (vec g) ->
  exists g', og_remove x g = Some g' /\ asc (vec g') /\ (forall y, In y (vec g') <-> y <> x /\ In y (vec g)).
Proof.
  intros x g A I. unfold og_remove. apply memb_spec in I. rewrite I. eexists. split; [reflexivity|]. cbn [vec]. split; [apply asc_filter; auto|].
  intros y. rewrite filter_In, negb_true_iff, N.eqb_neq. tauto.
Qed.
Lemma desc_no_get : forall l z, Forall (fun y => (y < z)%Z) (map fst l) -> ord_get z l = og_new.
Proof.
  intros l z F. induction l as [|(y, g) l IH]; cbn in *; [reflexivity|]. inversion F; subst. destruct (z =? y)%Z eqn:E; [apply Z.eqb_eq in E; lia | auto].
Qed.
Lemma ord_get_asc : forall l z, ok_ord l -> asc (vec (ord_get z l)).
Proof.
  intros l z (_ & F). induction l as [|(y, g) l IH]; cbn; [constructor|]. inversion F; subst. destruct (z =? y)%Z; auto.
Qed.
Lemma ok_tail : forall e l, ok_ord (e :: l) -> ok_ord l.
Proof. intros e l (D & F). cbn in D. inversion D; subst. inversion F; subst. split; auto. Qed.
Lemma ord_upd_ok : forall x f l z, inserts x f -> ok_ord l -> ~ In x (vec (ord_get z l)) ->
  exists l', ord_upd z f l = Some l' /\ ok_ord l' /\ (forall y, In y (map fst l') <-> y = z \/ In y (map fst l)) /\
    (forall y a, In a (vec (ord_get y l')) <-> (y = z /\ a = x) \/ In a (vec (ord_get y l))).
Proof.
  intros x f l z F. induction l as [|(y, g) l IH]; intros O NI; cbn [ord_upd ord_get] in *.
  - destruct (F og_new) as (g' & E & A & I); [constructor | auto|]. rewrite E. eexists. split; [reflexivity|]. split; [|split].
    + split; [constructor; constructor | constructor; auto].
    + intros w. cbn. intuition.
    + intros w a. cbn [ord_get]. destruct (w =? z)%Z eqn:Ez; [apply Z.eqb_eq in Ez; subst w; rewrite I; cbn; tauto|]. apply Z.eqb_neq in Ez. cbn. intuition.
  - destruct O as (D & FA). cbn in D. inversion D as [|? ? D' Fy]; subst. inversion FA as [|? ? Ag FA']; subst.
    destruct (z =? y)%Z eqn:Ey.
    + apply Z.eqb_eq in Ey. subst y. destruct (F g Ag NI) as (g' & E & A & I). rewrite E. eexists. split; [reflexivity|]. split; [|split].
      * split; [cbn; constructor; auto | constructor; auto].
      * intros w. cbn. intuition.
      * intros w a. cbn [ord_get]. destruct (w =? z)%Z eqn:Ez; [apply Z.eqb_eq in Ez; subst w; rewrite I; tauto|]. apply Z.eqb_neq in Ez. intuition.
    + apply Z.eqb_neq in Ey. destruct (y <? z)%Z eqn:L.
      * apply Z.ltb_lt in L. destruct (F og_new) as (g' & E & A & I); [constructor | auto|]. rewrite E. eexists. split; [reflexivity|].
        assert (Forall (fun v => (v < z)%Z) (map fst ((y, g) :: l))) as Fz by (cbn; constructor; auto; eapply Forall_impl; [|exact Fy]; cbn; lia).
        split; [|split].
        -- split; [cbn [map fst]; constructor; auto | constructor; auto].
        -- intros w. cbn. intuition.
        -- intros w a. change (ord_get w ((z, g') :: (y, g) :: l)) with (if (w =? z)%Z then g' else ord_get w ((y, g) :: l)).
           change (if (w =? y)%Z then g else ord_get w l) with (ord_get w ((y, g) :: l)).
           destruct (w =? z)%Z eqn:Ez.
           ++ apply Z.eqb_eq in Ez. subst w. rewrite I, (desc_no_get ((y, g) :: l)); auto. cbn. tauto.
           ++ apply Z.eqb_neq in Ez. intuition.
      * apply Z.ltb_ge in L. destruct IH as (l' & E & (D1 & F1) & K & I); [split; auto | auto|]. rewrite E. eexists. split; [reflexivity|]. split; [|split].
        -- split; [|constructor; auto]. cbn. constructor; auto. apply Forall_forall. intros v Iv. apply K in Iv. destruct Iv as [->|Iv]; [lia|].
           rewrite Forall_forall in Fy. apply Fy; auto.
        -- intros w. cbn. rewrite K. intuition.
        -- intros w a. cbn [ord_get]. destruct (w =? y)%Z eqn:Ez; [|apply I]. apply Z.eqb_eq in Ez. subst w. clear - Ey. intuition congruence.
Qed.
Lemma ord_remove_ok : forall x l z, ok_ord l -> In x (vec (ord_get z l)) ->
  exists l', ord_remove z x l = Some l' /\ ok_ord l' /\ (forall y, In y (map fst l') -> In y (map fst l)) /\
    (forall y a, In a (vec (ord_get y l')) <-> In a (vec (ord_get y l)) /\ ~ (y = z /\ a = x)).
Proof.
  intros x l z. induction l as [|(y, g) l IH]; intros O I0; cbn [ord_remove ord_get] in *; [destruct I0|].
  destruct O as (D & FA). cbn in D. inversion D as [|? ? D' Fy]; subst. inversion FA as [|? ? Ag FA']; subst.
  destruct (z =? y)%Z eqn:Ey.
  - apply Z.eqb_eq in Ey. subst y. destruct (og_remove_ok x g Ag I0) as (g' & E & A & I). rewrite E.
    assert (ord_get z l = og_new) as Nz by (apply desc_no_get; auto).
    destruct (vec g') as [|b v] eqn:V.
    + eexists. split; [reflexivity|]. split; [split; auto|]. split; [cbn; auto|].
      intros w a. cbn [ord_get]. destruct (w =? z)%Z eqn:Ez.
      * apply Z.eqb_eq in Ez. subst w. rewrite Nz. cbn. split; [tauto|]. intros (H & N). exfalso. apply (proj2 (I a)). split; auto. 
      * apply Z.eqb_neq in Ez. tauto.
    + eexists. split; [reflexivity|]. split; [split; [cbn; constructor; auto | constructor; auto; cbn [snd]; rewrite V; auto]|]. split; [cbn; auto|].
      intros w a. cbn [ord_get]. destruct (w =? z)%Z eqn:Ez.
      * apply Z.eqb_eq in Ez. subst w. rewrite V, I. tauto.
      * apply Z.eqb_neq in Ez. tauto.
  - apply Z.eqb_neq in Ey. destruct IH as (l' & E & (D1 & F1) & K & I); [split; auto | auto|]. rewrite E. eexists. split; [reflexivity|]. split; [|split].
    + split; [|constructor; auto]. cbn. constructor; auto. apply Forall_forall. intros v Iv. apply K in Iv. rewrite Forall_forall in Fy. apply Fy; auto.
    + cbn. intros w [H|H]; auto.
    + intros w a. cbn [ord_get]. destruct (w =? y)%Z eqn:Ez; [|apply I]. apply Z.eqb_eq in Ez. subst w. clear - Ey. intuition congruence.
Qed.
Lemma q_upd_ok : forall x f q o, inserts x f -> ok_q q -> ~ In x (vec (q_get o q)) ->
  exists q', q_upd o f q = Some q' /\ ok_q q' /\ (forall o' a, In a (vec (q_get o' q')) <-> (o' = o /\ a = x) \/ In a (vec (q_get o' q))).
Proof.
  intros x f q [z|] F (O & R) NI; cbn [q_upd q_get] in *.
  - destruct (ord_upd_ok x f (ordered q) z F O NI) as (l & E & O' & _ & I). rewrite E. eexists. split; [reflexivity|]. split; [split; auto|].
    intros [y|] a; cbn [q_get ordered regular]; [rewrite I|]; clear; intuition congruence.
  - destruct (F (regular q) R NI) as (g & E & A & I). rewrite E. eexists. split; [reflexivity|]. split; [split; auto|].
    intros [y|] a; cbn [q_get ordered regular]; [|rewrite I]; clear; intuition congruence.
Qed.
Lemma q_remove_ok : forall x q o, ok_q q -> In x (vec (q_get o q)) ->
  exists q', q_remove o x q = Some q' /\ ok_q q' /\ (forall o' a, In a (vec (q_get o' q')) <-> In a (vec (q_get o' q)) /\ ~ (o' = o /\ a = x)).
Proof.
  intros x q [z|] (O & R) I0; cbn [q_remove q_get] in *.
  - destruct (ord_remove_ok x (ordered q) z O I0) as (l & E & O' & _ & I). rewrite E. eexists. split; [reflexivity|]. split; [split; auto|].
    intros [y|] a; cbn [q_get ordered regular]; [rewrite I; assert (Some y = Some z <-> y = z) by (split; congruence); tauto | assert (None <> Some z) by discriminate; tauto].
  - destruct (og_remove_ok x (regular q) R I0) as (g & E & A & I). rewrite E. eexists. split; [reflexivity|]. split; [split; auto|].
    intros [y|] a; cbn [q_get ordered regular]; [assert (Some y <> None) by discriminate; tauto | rewrite I; tauto].
Qed.
Lemma grp_get_ok : forall gs h, ok_groups gs -> ok_q (grp_get h gs).
Proof.
  intros gs h (_ & F). induction gs as [|(g, q) gs IH]; cbn; [split; [split; constructor | constructor]|]. inversion F; subst. destruct (g =? h); auto.
Qed.
Lemma grp_none : forall gs h, ~ In h (map fst gs) -> grp_get h gs = q_new.
Proof.
  intros gs h. induction gs as [|(g, q) gs IH]; cbn; auto. intros NI. destruct (g =? h) eqn:E; [apply N.eqb_eq in E; intuition | apply IH; intuition].
Qed.
Lemma q_new_get : forall o, vec (q_get o q_new) = [].
Proof. intros [z|]; reflexivity. Qed.
Lemma grp_upd_ok : forall x f gs h o, inserts x f -> ok_groups gs -> ~ In x (gvec gs h o) ->
  exists gs', grp_upd h (q_upd o f) gs = Some gs' /\ ok_groups gs' /\ (forall g, In g (map fst gs') <-> g = h \/ In g (map fst gs)) /\
    (forall g o' a, In a (gvec gs' g o') <-> (g = h /\ o' = o /\ a = x) \/ In a (gvec gs g o')).
Proof.
  intros x f gs h o F. unfold gvec. induction gs as [|(g, q) gs IH]; intros (ND & OK) NI; cbn [grp_upd grp_get] in *.
  - destruct (q_upd_ok x f q_new o F) as (q' & E & O & I); [split; [split; constructor | constructor] | auto|]. rewrite E. eexists. split; [reflexivity|].
    split; [split; [constructor; [intros [] | constructor] | constructor; auto]|]. split; [cbn; intuition|].
    intros g o' a. cbn [grp_get]. destruct (h =? g) eqn:Eg; [apply N.eqb_eq in Eg; subst g; rewrite I; tauto|]. apply N.eqb_neq in Eg. intuition; congruence.
  - inversion ND as [|? ? N1 ND']; subst. inversion OK as [|? ? Oq OK']; subst. destruct (g =? h) eqn:Eh.
    + apply N.eqb_eq in Eh. subst g. destruct (q_upd_ok x f q o F Oq NI) as (q' & E & O & I). rewrite E. eexists. split; [reflexivity|].
      split; [split; [constructor; auto | constructor; auto]|]. split; [cbn; intuition|].
      intros g o' a. cbn [grp_get]. destruct (h =? g) eqn:Eg; [apply N.eqb_eq in Eg; subst g; rewrite I; tauto|]. apply N.eqb_neq in Eg. intuition; congruence.
    + apply N.eqb_neq in Eh. destruct (IH (conj ND' OK') NI) as (gs' & E & (ND1 & OK1) & K & I). rewrite E. eexists. split; [reflexivity|].
      split; [split; [cbn; constructor; auto; rewrite K; intuition | constructor; auto]|]. split; [cbn; intros y; rewrite K; intuition|].
      intros y o' a. cbn [grp_get]. destruct (g =? y) eqn:Eg; [apply N.eqb_eq in Eg; subst y; intuition|]. apply I.
Qed.
Lemma grp_mod_ok : forall x gs h o, ok_groups gs -> In x (gvec gs h o) ->
  exists gs', grp_mod h (q_remove o x) gs = Some gs' /\ ok_groups gs' /\ map fst gs' = map fst gs /\
    (forall g o' a, In a (gvec gs' g o') <-> In a (gvec gs g o') /\ ~ (g = h /\ o' = o /\ a = x)).
Proof.
  intros x gs h o. unfold gvec. induction gs as [|(g, q) gs IH]; intros (ND & OK) I0; cbn [grp_mod grp_get] in *.
  - rewrite q_new_get in I0. destruct I0.
  - inversion ND as [|? ? N1 ND']; subst. inversion OK as [|? ? Oq OK']; subst. destruct (g =? h) eqn:Eh.
    + apply N.eqb_eq in Eh. subst g. destruct (q_remove_ok x q o Oq I0) as (q' & E & O & I). rewrite E. eexists. split; [reflexivity|].
      split; [split; [constructor; auto | constructor; auto]|]. split; [reflexivity|].
      intros g o' a. cbn [grp_get]. destruct (h =? g) eqn:Eg; [apply N.eqb_eq in Eg; subst g; rewrite I; tauto|]. apply N.eqb_neq in Eg. intuition; congruence.
    + apply N.eqb_neq in Eh. destruct (IH (conj ND' OK') I0) as (gs' & E & (ND1 & OK1) & K & I). rewrite E. eexists. split; [reflexivity|].
      split; [split; [cbn; constructor; auto; rewrite K; auto | constructor; auto]|]. split; [cbn; rewrite K; auto|].
      intros y o' a. cbn [grp_get]. destruct (g =? y) eqn:Eg; [apply N.eqb_eq in Eg; subst y; intuition|]. apply I.
Qed.
Lemma q_empty_get : forall q o, q_empty q = true -> vec (q_get o q) = [].
Proof.
  intros [l g] o. unfold q_empty. cbn [regular ordered]. destruct (vec g) eqn:V; [|discriminate]. destruct l; [|discriminate]. intros _. destruct o; cbn; auto.
Qed.
Lemma prune_ok : forall f gs, (forall e, f e = false -> q_empty (snd e) = true) -> ok_groups gs ->
  ok_groups (filter f gs) /\ (forall g o a, In a (gvec (filter f gs) g o) <-> In a (gvec gs g o)).
Proof.
  intros f gs P. unfold gvec. induction gs as [|(g, q) gs IH]; intros (ND & OK); cbn [filter]; [split; [split; auto | tauto]|].
  inversion ND as [|? ? N1 ND']; subst. inversion OK as [|? ? Oq OK']; subst. destruct (IH (conj ND' OK')) as ((ND1 & OK1) & I).
  assert (forall y, In y (map fst (filter f gs)) -> In y (map fst gs)) as K.
  { intros y Iy. apply in_map_iff in Iy. destruct Iy as (e & <- & Ie). apply filter_In in Ie. apply in_map, Ie. }
  destruct (f (g, q)) eqn:E.
  - split; [split; [cbn; constructor; auto | constructor; auto]|]. intros y o a. cbn [grp_get]. destruct (g =? y); [tauto | apply I].
  - split; [split; auto|]. intros y o a. cbn [grp_get]. destruct (g =? y) eqn:Eg; [|apply I]. apply N.eqb_eq in Eg. subst y.
    rewrite (q_empty_get q); [|apply (P (g, q)); auto]. rewrite (grp_none (filter f gs)); [rewrite q_new_get; tauto | auto].
Qed.

(** Where a stream is queued. *)
Definition place (l : list strm) (x : N) : option (N * option Z) :=
  match get x l with Some t => if m_fair t then Some (gid t, m_order t) else None | None => None end.
Definition qinv (P : N -> option (N * option Z)) (gs : list (N * pgq)) : Prop :=
  ok_groups gs /\ forall x h o, In x (gvec gs h o) <-> P x = Some (h, o).
Lemma qinv_ext : forall P Q gs, (forall x, P x = Q x) -> qinv P gs -> qinv Q gs.
Proof. intros P Q gs E (O & I). split; auto. intros. rewrite I, E. tauto. Qed.
Lemma qinv_insert : forall P gs x h o f, inserts x f -> qinv P gs -> P x = None ->
  exists gs', grp_upd h (q_upd o f) gs = Some gs' /\ qinv (fun y => if y =? x then Some (h, o) else P y) gs'.
Proof.
  intros P gs x h o f F (O & I) Nx. destruct (grp_upd_ok x f gs h o F O) as (gs' & E & O' & _ & J); [rewrite I, Nx; discriminate|].
  exists gs'. split; auto. split; auto. intros y g o'. rewrite J, I. destruct (y =? x) eqn:Ey.
  - apply N.eqb_eq in Ey. subst y. rewrite Nx. split; [intros [(-> & -> & _)|H]; [auto | discriminate] | intros H; inv H; auto].
  - apply N.eqb_neq in Ey. intuition; congruence.
Qed.
Lemma qinv_remove : forall P gs x h o, qinv P gs -> P x = Some (h, o) ->
  exists gs', grp_mod h (q_remove o x) gs = Some gs' /\ map fst gs' = map fst gs /\ qinv (fun y => if y =? x then None else P y) gs'.
Proof.
  intros P gs x h o (O & I) Px. destruct (grp_mod_ok x gs h o O) as (gs' & E & O' & K & J); [apply I; auto|].
  exists gs'. split; auto. split; auto. split; auto. intros y g o'. rewrite J, I. destruct (y =? x) eqn:Ey.
  - apply N.eqb_eq in Ey. subst y. rewrite Px. split; [intros (H & NH); exfalso; apply NH; inv H; auto | discriminate].
  - apply N.eqb_neq in Ey. intuition; congruence.
Qed.
Lemma qinv_prune : forall P f gs, (forall e, f e = false -> q_empty (snd e) = true) -> qinv P gs -> qinv P (filter f gs).
Proof. intros P f gs H (O & I). destruct (prune_ok f gs H O) as (O' & J). split; auto. intros. rewrite J. apply I. Qed.

(** The list of streams. *)
Lemma get_upd : forall x y f l, (forall t, m_id (f t) = m_id t) -> get x (upd y f l) = if x =? y then option_map f (get x l) else get x l.
Proof.
  intros x y f l Hf. induction l as [|t l IH]; cbn; [destruct (x =? y); auto|]. destruct (m_id t =? y) eqn:Ey.
  - rewrite Hf. destruct (m_id t =? x) eqn:Ex; [|auto]. apply N.eqb_eq in Ey, Ex. subst x y. rewrite N.eqb_refl. reflexivity.
  - destruct (m_id t =? x) eqn:Ex; [|auto]. apply N.eqb_eq in Ex. subst x. rewrite Ey. reflexivity.
Qed.
Lemma get_some : forall x l t, get x l = Some t -> In t l /\ m_id t = x.
Proof. intros x l t H. unfold get in H. apply List.find_some in H. destruct H as (I & E). apply N.eqb_eq in E. auto. Qed.
Lemma get_none : forall x l, get x l = None <-> ~ In x (map m_id l).
Proof.
  intros x l. unfold get. induction l as [|t l IH]; cbn; [tauto|]. destruct (m_id t =? x) eqn:E.
  - apply N.eqb_eq in E. split; [discriminate | intros H; exfalso; apply H; auto].
  - apply N.eqb_neq in E. rewrite IH. intuition.
Qed.
Lemma get_in : forall l t, NoDup (map m_id l) -> In t l -> get (m_id t) l = Some t.
Proof.
  intros l t. unfold get. induction l as [|u l IH]; intros ND I; [destruct I|]. cbn in ND. inversion ND; subst. cbn. destruct (m_id u =? m_id t) eqn:E.
  - apply N.eqb_eq in E. destruct I as [->|I]; auto. exfalso. apply H1. rewrite E. apply in_map; auto.
  - apply N.eqb_neq in E. destruct I as [->|I]; [congruence | auto].
Qed.
Lemma get_app : forall x l t, get x (l ++ [t]) = match get x l with Some u => Some u | None => if m_id t =? x then Some t else None end.
Proof. intros x l t. unfold get. induction l as [|u l IH]; cbn; [destruct (m_id t =? x); auto|]. destruct (m_id u =? x); auto. Qed.
Lemma get_filter : forall x f l, get x (filter (fun t => f (m_id t)) l) = if f x then get x l else None.
Proof.
  intros x f l. unfold get. induction l as [|u l IH]; cbn; [destruct (f x); auto|]. destruct (f (m_id u)) eqn:F; cbn; destruct (m_id u =? x) eqn:E; auto.
  - apply N.eqb_eq in E. subst x. rewrite F. auto.
  - apply N.eqb_eq in E. subst x. rewrite IH, F. auto.
Qed.
Lemma ids_upd : forall x f l, (forall t, m_id (f t) = m_id t) -> map m_id (upd x f l) = map m_id l.
Proof. intros x f l H. unfold upd. rewrite map_map. apply map_ext. intros t. destruct (m_id t =? x); auto. Qed.

Record inv (s : sched) : Prop := {
  i_nd : NoDup (map m_id (streams s));
  i_grp : forall t g, In t (streams s) -> m_group t = Some g -> g <> 0 /\ m_fair t = true;
  i_q : qinv (place (streams s)) (groups s)
}.
Lemma inv_new : inv s_new.
Proof.
  split; cbn; [constructor | intros t g [] |]. split; [split; constructor|]. intros x h o. unfold gvec. cbn. rewrite q_new_get. unfold place. cbn. split; [tauto | discriminate].
Qed.
Lemma in_upd : forall t x f l, In t (upd x f l) -> (In t l /\ m_id t <> x) \/ exists u, In u l /\ m_id u = x /\ t = f u.
Proof.
  intros t x f l I. unfold upd in I. apply in_map_iff in I. destruct I as (u & E & Iu). destruct (m_id u =? x) eqn:Ex.
  - apply N.eqb_eq in Ex. right. exists u. auto.
  - apply N.eqb_neq in Ex. subst t. auto.
Qed.
Lemma upd_twice : forall x f g l, (forall t, m_id (f t) = m_id t) -> upd x g (upd x f l) = upd x (fun t => g (f t)) l.
Proof.
  intros x f g l H. unfold upd. rewrite map_map. apply map_ext. intros t. destruct (m_id t =? x) eqn:E; [rewrite H, E; auto | rewrite E; auto].
Qed.
Lemma upd_change : forall x f f' l, (forall t, In t l -> m_id t = x -> f t = f' t) -> upd x f l = change x f' l.
Proof. intros x f f' l H. unfold upd, change. apply map_ext_in. intros t I. destruct (m_id t =? x) eqn:E; auto. apply N.eqb_eq in E. auto. Qed.
Lemma change_id : forall x f l, (forall t, In t l -> m_id t = x -> f t = t) -> change x f l = l.
Proof. intros x f l H. unfold change. rewrite <- (map_id l) at 2. apply map_ext_in. intros t I. destruct (m_id t =? x) eqn:E; auto. apply N.eqb_eq in E. auto. Qed.

Lemma insert_ok : forall W (s : sched) x, inv s -> inv (insert x s) /\ @call_ok W (KInsert x) (streams s) (streams (insert x s)) Rok.
Proof.
  intros W s x I. unfold insert. destruct (get x (streams s)) as [t|] eqn:G.
  - split; auto. apply C_insert_old. apply get_some in G. destruct G as (J & <-). apply in_map; auto.
  - pose proof (proj1 (get_none _ _) G) as NK. split.
    + destruct I as [ND GR Q]. split; cbn [streams groups with_streams].
      * rewrite map_app. cbn [map m_id]. apply nodup_snoc; auto.
      * intros t g J E. apply in_app_or in J. destruct J as [J|[<-|[]]]; [eauto | discriminate].
      * apply (qinv_ext (place (streams s))); auto. intros y. unfold place. rewrite get_app. destruct (get y (streams s)) eqn:Gy; auto. cbn [m_id].
        destruct (x =? y); auto.
    + apply C_insert. auto.
Qed.
Lemma place_fair : forall s x t, get x (streams s) = Some t -> m_fair t = true -> place (streams s) x = Some (gid t, m_order t).
Proof. intros s x t G F. unfold place. rewrite G, F. reflexivity. Qed.
Lemma place_unfair : forall s x t, get x (streams s) = Some t -> m_fair t = false -> place (streams s) x = None.
Proof. intros s x t G F. unfold place. rewrite G, F. reflexivity. Qed.
Lemma place_upd : forall l x f t y, (forall u, m_id (f u) = m_id u) -> get x l = Some t ->
  place (upd x f l) y = if y =? x then (if m_fair (f t) then Some (gid (f t), m_order (f t)) else None) else place l y.
Proof.
  intros l x f t y Hf G. unfold place. rewrite get_upd by auto. destruct (y =? x) eqn:E; auto. apply N.eqb_eq in E. subst y. rewrite G. reflexivity.
Qed.
Lemma remove_from_ok : forall P s x h o, qinv P (groups s) -> P x = Some (h, o) ->
  exists s', remove_from_group h x o s = Some s' /\ streams s' = streams s /\ qinv (fun y => if y =? x then None else P y) (groups s').
Proof.
  intros P s x h o Q Px. destruct (qinv_remove P (groups s) x h o Q Px) as (gs & E & K & Q'). unfold remove_from_group. rewrite E. eexists.
  split; [reflexivity|]. cbn [streams groups]. split; auto. apply qinv_prune; auto. intros e H. apply negb_false_iff, andb_true_iff in H. tauto.
Qed.
Lemma insert_into_ok : forall P s x h o, qinv P (groups s) -> P x = None ->
  exists s', insert_into_group h x o s = Some s' /\ streams s' = streams s /\ qinv (fun y => if y =? x then Some (h, o) else P y) (groups s').
Proof.
  intros P s x h o Q Px. destruct (qinv_insert P (groups s) x h o (og_insert x) (og_insert_ok x) Q Px) as (gs & E & Q'). unfold insert_into_group. rewrite E. eexists.
  split; [reflexivity|]. cbn [streams groups with_groups]. auto.
Qed.
Lemma known_get : forall x l t, get x l = Some t -> known x l.
Proof. intros x l t G. apply get_some in G. destruct G as (I & <-). apply in_map; auto. Qed.
Lemma fair_get : forall x l t, get x l = Some t -> m_fair t = true -> fair_at l x.
Proof. intros x l t G F. apply get_some in G. destruct G as (I & <-). destruct t as [i f o g]. cbn in *. subst f. exists o, g. auto. Qed.
Lemma unfair_get : forall x l t, NoDup (map m_id l) -> get x l = Some t -> m_fair t = false -> ~ fair_at l x.
Proof. intros x l t ND G F (o & g & I). apply (get_in l _ ND) in I. cbn [m_id] in I. rewrite G in I. inv I. discriminate. Qed.

Lemma fairness_ok : forall W (s : sched) x b, inv s ->
  exists s' r, set_fairness x b s = Some (s', r) /\ inv s' /\ @call_ok W (KFair x b) (streams s) (streams s') r /\ (r = Rok <-> known x (streams s)).
Proof.
  intros W s x b I. destruct I as [ND GR Q] eqn:EI. clear EI. unfold set_fairness. destruct (get x (streams s)) as [t|] eqn:G.
  2:{ do 2 eexists. split; [reflexivity|]. split; [split; auto|]. pose proof (proj1 (get_none _ _) G) as NK. split; [apply (C_unknown x); [exact NK | destruct b; auto]|].
      split; [discriminate | intros K; destruct (NK K)]. }
  pose proof (known_get _ _ _ G) as K. pose proof (get_some _ _ _ G) as (It & Idt).
  assert (forall u, In u (streams s) -> m_id u = x -> u = t) as Uq.
  { intros u Iu Eu. apply (get_in _ _ ND) in Iu. rewrite Eu, G in Iu. inv Iu. auto. }
  destruct (m_fair t) eqn:F; destruct b; cbn [negb andb].
  - do 2 eexists. split; [reflexivity|]. cbn [streams groups with_streams]. assert (upd x (set_fair true) (streams s) = streams s) as Eu.
    { rewrite (upd_change x _ (set_fair true)) by auto. apply change_id. intros u Iu E. rewrite (Uq u Iu E). destruct t; cbn in *; subst; auto. }
    rewrite Eu. split; [split; cbn [streams groups with_streams]; rewrite ?Eu; auto|]. split; [|tauto].
    replace (streams s) with (change x (fun e => mkStrm x true (m_order e) (m_group e)) (streams s)) at 2; [apply C_fair; auto|].
    apply change_id. intros u Iu E. rewrite (Uq u Iu E). destruct t; cbn in *; subst; auto.
  - set (s1 := with_streams (upd x (set_fair false) (streams s)) s).
    destruct (remove_from_ok (place (streams s)) s1 x (match m_group t with Some g => g | None => NULL_GROUP end) (m_order t)) as (s2 & E & S2 & Q2);
      [exact Q | apply (place_fair s x t G F)|]. rewrite E. do 2 eexists. split; [reflexivity|]. cbn [streams groups with_streams]. rewrite S2. cbn [s1 streams with_streams].
    rewrite (upd_twice x (set_fair false) (set_group None)) by (intros []; reflexivity). split; [split; cbn [streams groups with_streams]|].
    + rewrite ids_upd by (intros []; reflexivity). auto.
    + intros u g Iu Eg. apply in_upd in Iu. destruct Iu as [(Iu & _)|(v & Iv & _ & ->)]; [eauto | discriminate].
    + eapply qinv_ext; [|exact Q2]. intros y. rewrite (place_upd _ _ _ t) by (auto; intros []; reflexivity). destruct (y =? x); auto.
    + split; [|tauto]. rewrite (upd_change x _ (fun e => mkStrm x false (m_order e) None)); [apply C_unfair; auto|].
      intros u Iu E'. destruct u; cbn in *; subst; auto.
  - destruct (m_group t) as [g|] eqn:Eg; [exfalso; destruct (GR t g It Eg); congruence|].
    set (s1 := with_streams (upd x (set_fair true) (streams s)) s).
    destruct (qinv_insert (place (streams s)) (groups s1) x NULL_GROUP (m_order t) (og_append x) (og_append_ok x) Q (place_unfair s x t G F)) as (gs & E & Q2). rewrite E.
    do 2 eexists. split; [reflexivity|]. subst s1. cbn [streams groups with_groups with_streams] in *. split; [split; cbn [streams groups with_groups with_streams]|].
    + rewrite ids_upd by (intros []; reflexivity). auto.
    + intros u g Iu Eu. apply in_upd in Iu. destruct Iu as [(Iu & _)|(v & Iv & Ev & ->)]; [eauto|]. rewrite (Uq v Iv Ev) in Eu. cbn in Eu. congruence.
    + eapply qinv_ext; [|exact Q2]. intros y. rewrite (place_upd _ _ _ t) by (auto; intros []; reflexivity). destruct (y =? x); auto. cbn. unfold gid. cbn. rewrite Eg. auto.
    + split; [|tauto]. rewrite (upd_change x _ (fun e => mkStrm x true (m_order e) (m_group e))); [apply C_fair; auto|].
      intros u Iu E'. destruct u; cbn in *; subst; auto.
  - do 2 eexists. split; [reflexivity|]. cbn [streams groups with_streams]. assert (upd x (set_fair false) (streams s) = streams s) as Eu.
    { rewrite (upd_change x _ (set_fair false)) by auto. apply change_id. intros u Iu E. rewrite (Uq u Iu E). destruct t; cbn in *; subst; auto. }
    rewrite Eu. split; [split; cbn [streams groups with_streams]; rewrite ?Eu; auto|]. split; [|tauto].
    replace (streams s) with (change x (fun e => mkStrm x false (m_order e) None) (streams s)) at 2; [apply C_unfair; auto|].
    apply change_id. intros u Iu E. rewrite (Uq u Iu E). destruct t as [i f o g]; cbn in *. subst. destruct g as [g|]; auto. destruct (GR _ g It eq_refl). discriminate.
Qed.

Lemma opt_eqb_N : forall a b, opt_eqb N.eqb a b = true <-> a = b.
Proof. intros [a|] [b|]; cbn; try (split; congruence). rewrite N.eqb_eq. split; congruence. Qed.
Lemma opt_eqb_Z : forall a b, opt_eqb Z.eqb a b = true <-> a = b.
Proof. intros [a|] [b|]; cbn; try (split; congruence). rewrite Z.eqb_eq. split; congruence. Qed.

Lemma sendgroup_ok : forall W (s : sched) x g, inv s ->
  exists s' r, set_sendgroup x g s = Some (s', r) /\ inv s' /\ @call_ok W (KGroup x g) (streams s) (streams s') r.
Proof.
  intros W s x g I. destruct I as [ND GR Q] eqn:EI. clear EI. unfold set_sendgroup. destruct (get x (streams s)) as [t|] eqn:G.
  2:{ do 2 eexists. split; [reflexivity|]. split; [split; auto|]. apply (C_unknown x); [apply get_none; auto | right; right; left; eauto]. }
  pose proof (known_get _ _ _ G) as K. pose proof (get_some _ _ _ G) as (It & Idt).
  assert (forall u, In u (streams s) -> m_id u = x -> u = t) as Uq.
  { intros u Iu Eu. apply (get_in _ _ ND) in Iu. rewrite Eu, G in Iu. inv Iu. auto. }
  destruct (opt_eqb N.eqb g (Some NULL_GROUP)) eqn:E0.
  { apply opt_eqb_N in E0. subst g. do 2 eexists. split; [reflexivity|]. split; [split; auto|]. apply C_group_zero; auto. }
  assert (g <> Some 0) as N0 by (intros ->; discriminate).
  destruct (opt_eqb N.eqb (m_group t) g) eqn:E1.
  { apply opt_eqb_N in E1. do 2 eexists. split; [reflexivity|]. split; [split; auto|]. destruct g as [g|].
    - destruct (GR t g It E1) as (Ng & F). replace (streams s) with (change x (fun e => mkStrm x true (m_order e) (Some g)) (streams s)) at 2;
        [apply C_group; [apply (fair_get x _ t); auto | auto]|]. apply change_id. intros u Iu Eu. rewrite (Uq u Iu Eu). destruct t; cbn in *; subst; auto.
    - replace (streams s) with (change x (fun e => mkStrm x (m_fair e) (m_order e) None) (streams s)) at 2; [apply C_ungroup; auto|].
      apply change_id. intros u Iu Eu. rewrite (Uq u Iu Eu). destruct t; cbn in *; subst; auto. }
  destruct (match g with Some _ => negb (m_fair t) | None => false end) eqn:E2.
  { destruct g as [g|]; [|discriminate]. apply negb_true_iff in E2. do 2 eexists. split; [reflexivity|]. split; [split; auto|]. apply C_group_unfair; auto. eapply unfair_get; eauto. }
  assert (m_fair t = true) as F.
  { destruct g as [g|]; [apply negb_false_iff in E2; auto|]. destruct (m_group t) as [h|] eqn:Eh; [apply (GR t h It Eh) | discriminate]. }
  assert (queue_of (m_group t) (m_fair t) = Some (gid t)) as E3 by (unfold queue_of, gid; rewrite F; destruct (m_group t); auto). rewrite E3.
  destruct (remove_from_ok (place (streams s)) s x (gid t) (m_order t) Q (place_fair s x t G F)) as (s1 & E & S1 & Q1). rewrite E.
  set (s2 := with_streams (upd x (set_group g) (streams s1)) s1).
  set (h := match g with Some g => g | None => 0 end).
  assert (queue_of g (m_fair t) = Some h) as E4 by (unfold queue_of, h; rewrite F; destruct g; auto). rewrite E4.
  destruct (insert_into_ok (fun y => if y =? x then None else place (streams s) y) s2 x h (m_order t)) as (s3 & E' & S3 & Q3); [exact Q1 | rewrite N.eqb_refl; auto|]. rewrite E'.
  do 2 eexists. split; [reflexivity|]. rewrite S3. cbn [s2 streams with_streams]. rewrite S1. split; [split|].
  - rewrite S3. cbn [s2 streams with_streams]. rewrite S1, ids_upd by (intros []; reflexivity). auto.
  - rewrite S3. cbn [s2 streams with_streams]. rewrite S1. intros u g' Iu Eu. apply in_upd in Iu. destruct Iu as [(Iu & _)|(v & Iv & Ev & ->)]; [eauto|].
    cbn in Eu. subst g. rewrite (Uq v Iv Ev). cbn. split; auto. congruence.
  - rewrite S3. cbn [s2 streams with_streams]. rewrite S1. eapply qinv_ext; [|exact Q3]. intros y. cbn beta. rewrite (place_upd _ _ _ t) by (auto; intros []; reflexivity).
    destruct (y =? x); auto. cbn. rewrite F. unfold gid. cbn. subst h. destruct g; auto.
  - destruct g as [g|].
    + rewrite (upd_change x _ (fun e => mkStrm x true (m_order e) (Some g))); [apply C_group; [apply (fair_get x _ t); auto | congruence]|].
      intros u Iu Eu. rewrite (Uq u Iu Eu). destruct t; cbn in *; subst; auto.
    + rewrite (upd_change x _ (fun e => mkStrm x (m_fair e) (m_order e) None)); [apply C_ungroup; auto|].
      intros u Iu Eu. rewrite (Uq u Iu Eu). destruct t; cbn in *; subst; auto.
Qed.

Lemma get_change : forall x y f l, (forall t, m_id t = y -> m_id (f t) = y) -> get x (change y f l) = if x =? y then option_map f (get x l) else get x l.
Proof.
  intros x y f l Hf. unfold get, change. induction l as [|t l IH]; cbn; [destruct (x =? y); auto|]. destruct (m_id t =? y) eqn:Ey.
  - apply N.eqb_eq in Ey. rewrite (Hf t Ey). rewrite Ey. rewrite (N.eqb_sym y x). destruct (x =? y) eqn:Ex; auto.
  - destruct (m_id t =? x) eqn:Ex; [|auto]. apply N.eqb_eq in Ex. subst x. rewrite Ey. reflexivity.
Qed.
Lemma sendorder_ok : forall W (s : sched) x o, inv s ->
  exists s' r, set_sendorder x o s = Some (s', r) /\ inv s' /\ @call_ok W (KOrder x o) (streams s) (streams s') r.
Proof.
  intros W s x o I. unfold set_sendorder. destruct (fairness_ok W s x true I) as (s1 & r & E & I1 & C & K). rewrite E.
  assert ((known x (streams s) /\ change x (fun e => mkStrm x true (m_order e) (m_group e)) (streams s) = streams s1 /\ r = Rok) \/
    (~ known x (streams s) /\ streams s1 = streams s /\ r = RInvalidStreamId)) as [(Kx & E3 & ->)|(U & E3 & ->)].
  { clear - C. inversion C as [| | ? ? Kx E1 E2 E3| | | | | | | ? ? ? U V E1 E2 E3| |]; subst; auto. right.
    destruct V as [V|[V|[(?&V)|(?&V)]]]; inv V; auto. }
  - destruct I1 as [ND GR Q]. destruct (get x (streams s)) as [t0|] eqn:G0; [|exfalso; apply get_none in G0; auto].
    pose proof (get_change x x (fun e => mkStrm x true (m_order e) (m_group e)) (streams s) ltac:(auto)) as G. rewrite E3, N.eqb_refl, G0 in G. cbn [option_map] in G. rewrite G.
    cbn [m_order m_group]. set (t := mkStrm x true (m_order t0) (m_group t0)) in *.
    assert (forall u, In u (streams s1) -> m_id u = x -> u = t) as Uq.
    { intros u Iu Eu. apply (get_in _ _ ND) in Iu. rewrite Eu, G in Iu. apply some_inj in Iu. auto. }
    assert (change x (fun e => mkStrm x true o (m_group e)) (streams s) = change x (fun e => mkStrm x true o (m_group e)) (streams s1)) as Ec.
    { rewrite <- E3. unfold change. rewrite map_map. apply map_ext. intros u. destruct (m_id u =? x) eqn:Eu; cbn [m_id]; [rewrite N.eqb_refl; auto | rewrite Eu; auto]. }
    destruct (opt_eqb Z.eqb (m_order t0) o) eqn:Eo.
    { apply opt_eqb_Z in Eo. do 2 eexists. split; [reflexivity|]. split; [split; auto|].
      replace (streams s1) with (change x (fun e => mkStrm x true o (m_group e)) (streams s)); [apply C_order; auto|]. rewrite Ec. apply change_id.
      intros u Iu Eu. rewrite (Uq u Iu Eu). subst t. cbn. rewrite Eo. auto. }
    change (match m_group t0 with Some g => g | None => NULL_GROUP end) with (gid t).
    destruct (qinv_remove (place (streams s1)) (groups s1) x (gid t) (m_order t0) Q) as (gs & Er & _ & Qr); [apply (place_fair s1 x t G); auto|]. rewrite Er.
    match goal with |- context [insert_into_group _ _ _ ?z] => set (s2 := z) end.
    destruct (insert_into_ok (fun y => if y =? x then None else place (streams s1) y) s2 x (gid t) o) as (s3 & E' & S3 & Q3); [exact Qr | rewrite N.eqb_refl; auto|]. rewrite E'.
    do 2 eexists. split; [reflexivity|]. rewrite S3. cbn [s2 streams with_streams with_groups]. split; [split|].
    + rewrite S3. cbn [s2 streams with_streams with_groups]. rewrite ids_upd by (intros []; reflexivity). auto.
    + rewrite S3. cbn [s2 streams with_streams with_groups]. intros u g' Iu Eu. apply in_upd in Iu. destruct Iu as [(Iu & _)|(v & Iv & Ev & ->)]; [eauto|].
      cbn in Eu |- *. eauto.
    + rewrite S3. cbn [s2 streams with_streams with_groups]. eapply qinv_ext; [|exact Q3]. intros y. cbn beta. rewrite (place_upd _ _ _ t) by (auto; intros []; reflexivity).
      destruct (y =? x); auto.
    + rewrite (upd_change x _ (fun e => mkStrm x true o (m_group e))), <- Ec; [apply C_order; auto|].
      intros u Iu Eu. rewrite (Uq u Iu Eu). reflexivity.
  - do 2 eexists. split; [reflexivity|]. split; auto. rewrite E3. apply (C_unknown x); [auto | right; right; right; eauto].
Qed.
Lemma drop_ok : forall ts P gs, qinv P gs -> NoDup (map m_id ts) ->
  (forall t, In t ts -> P (m_id t) = if m_fair t then Some (gid t, m_order t) else None) ->
  exists gs', drop_all ts gs = Some gs' /\ qinv (fun y => if memb y (map m_id ts) then None else P y) gs'.
Proof.
  induction ts as [|t ts IH]; intros P gs Q ND H; cbn [drop_all map].
  - exists gs. split; auto.
  - cbn in ND. inversion ND as [|? ? NI ND']; subst. pose proof (H t (or_introl eq_refl)) as Pt. destruct (m_fair t).
    + destruct (qinv_remove P gs (m_id t) (gid t) (m_order t) Q Pt) as (g1 & E & _ & Q1). unfold gid in E. unfold NULL_GROUP. rewrite E.
      destruct (IH _ _ Q1 ND') as (g2 & E2 & Q2).
      { intros u Iu. destruct (m_id u =? m_id t) eqn:Eu; [apply N.eqb_eq in Eu; exfalso; apply NI; rewrite <- Eu; apply in_map; auto | apply H; right; auto]. }
      exists g2. split; auto. eapply qinv_ext; [|exact Q2]. intros y. cbn beta. cbn [memb existsb]. fold (memb y (map m_id ts)). destruct (y =? m_id t); destruct (memb y (map m_id ts)); auto.
    + destruct (IH _ _ Q ND') as (g2 & E2 & Q2); [intros u Iu; apply H; right; auto|].
      exists g2. split; auto. eapply qinv_ext; [|exact Q2]. intros y. cbn beta. cbn [memb existsb]. fold (memb y (map m_id ts)). destruct (memb y (map m_id ts)); [destruct (y =? m_id t); auto|].
      destruct (y =? m_id t) eqn:Ey; auto. apply N.eqb_eq in Ey. subst y. auto.
Qed.
Lemma nodup_filter_ids : forall f l, NoDup (map m_id l) -> NoDup (map m_id (filter f l)).
Proof.
  intros f l. induction l as [|t l IH]; cbn; intros ND; auto. inversion ND; subst. destruct (f t); auto. cbn. constructor; auto.
  intros I. apply in_map_iff in I. destruct I as (u & E & Iu). apply filter_In in Iu. apply H1. rewrite <- E. apply in_map. tauto.
Qed.
Lemma memb_ids : forall y l L, (forall t, In t L -> m_id t = y -> True) -> memb y (map m_id (filter (fun t => memb (m_id t) l) L)) = memb y l && match get y L with Some _ => true | None => false end.
Proof.
  intros y l L _. destruct (memb y (map m_id (filter (fun t => memb (m_id t) l) L))) eqn:E.
  - apply memb_spec in E. apply in_map_iff in E. destruct E as (t & <- & I). apply filter_In in I. destruct I as (I & M). rewrite M.
    destruct (get (m_id t) L) eqn:G; auto. apply get_none in G. exfalso. apply G. apply in_map; auto.
  - symmetry. apply andb_false_iff. destruct (memb y l) eqn:M; auto. right. destruct (get y L) as [t|] eqn:G; auto. apply get_some in G. destruct G as (I & <-).
    apply memb_false in E. exfalso. apply E. apply in_map, filter_In. auto.
Qed.
Lemma ended_ok : forall W (s : sched) l, inv s ->
  exists s', remove_ended l s = Some s' /\ inv s' /\ @call_ok W (KEnded l) (streams s) (streams s') Rok.
Proof.
  intros W s l I. unfold remove_ended. set (gone := filter (fun t => memb (m_id t) l) (streams s)).
  assert (gone = [] -> filter (fun e => negb (existsb (N.eqb (m_id e)) l)) (streams s) = streams s) as Hn.
  { subst gone. intros H. change (fun e => negb (existsb (N.eqb (m_id e)) l)) with (fun e => negb (memb (m_id e) l)). clear I. induction (streams s) as [|t L IH]; auto. cbn in *.
    destruct (memb (m_id t) l); [discriminate|]. cbn. rewrite IH; auto. }
  destruct gone as [|t0 g0] eqn:Eg.
  - exists s. split; auto. split; auto. rewrite <- (Hn eq_refl) at 2. apply C_ended.
  - rewrite <- Eg. clear Hn. destruct I as [ND GR Q].
    destruct (drop_ok gone (place (streams s)) (groups s) Q) as (gs & E & Q'); [apply nodup_filter_ids; auto | |].
    { intros t It. apply filter_In in It. destruct It as (It & _). unfold place. rewrite (get_in _ _ ND It). destruct (m_fair t); auto. }
    subst gone. rewrite Eg in *. rewrite <- Eg in *. rewrite E. eexists. split; [reflexivity|]. cbn [streams groups]. split; [split; cbn [streams groups]|].
    + apply nodup_filter_ids; auto.
    + intros t g It. apply filter_In in It. apply GR; tauto.
    + apply qinv_prune; [intros e H; apply negb_false_iff in H; auto|]. eapply qinv_ext; [|exact Q']. intros y. cbn beta.
      rewrite memb_ids by auto. unfold place. rewrite (get_filter y (fun i => negb (memb i l))). destruct (memb y l); cbn; auto. destruct (get y (streams s)); auto.
    + apply C_ended.
Qed.
