(** A call of [write_frames]: its turns, and where every queue stands afterwards. *)
From Verif Require Import Base Lib SchModel SchSpec SchProofs.
From Coq Require Import ZArith Sorted Permutation.
Open Scope N_scope.
Open Scope list_scope.
Import ListNotations.

Definition ids (o : list offer) : list N := map offer_id o.
(** Going round a list from one position to another. *)
Inductive cyc {A} (c : list A) : nat -> list A -> nat -> Prop :=
| cyc_nil k : cyc c k [] k
| cyc_cons k x l k' : nth_error c k = Some x -> cyc c (Nat.modulo (S k) (length c)) l k' -> cyc c k (x :: l) k'.
Lemma cyc_app : forall A (c : list A) k l k1 m k2, cyc c k l k1 -> cyc c k1 m k2 -> cyc c k (l ++ m) k2.
Proof. intros A c k l k1 m k2 H. induction H; intros H2; cbn; auto. econstructor; eauto. Qed.
Lemma firstn_snoc : forall A (c : list A) k x, nth_error c k = Some x -> firstn (S k) c = firstn k c ++ [x].
Proof.
  intros A c. induction c as [|a c IH]; intros [|k] x H; cbn in *; try discriminate.
  - inv H. destruct c; reflexivity.
  - f_equal. apply IH. auto.
Qed.
Lemma cyc_segment : forall A (c : list A) k l k', cyc c k l k' -> (k < length c)%nat -> exists n, firstn k c ++ l ++ skipn k' c = concat (repeat c n).
Proof.
  intros A c k l k' H. induction H as [k|k x l k' E H IH]; intros L.
  - exists 1%nat. cbn. rewrite app_nil_r. apply firstn_skipn.
  - assert (length c <> 0%nat) as N0 by lia. destruct IH as (n & IH); [apply Nat.mod_upper_bound; auto|].
    destruct (Nat.eq_dec (S k) (length c)) as [Ek|Ek].
    + exists (S n). rewrite Ek, Nat.mod_same in IH by auto. cbn [firstn List.app] in IH. cbn [repeat concat]. rewrite <- IH.
      rewrite <- (firstn_all c) at 3. rewrite <- Ek, (firstn_snoc _ _ _ _ E), <- app_assoc. reflexivity.
    + exists n. rewrite Nat.mod_small in IH by lia. rewrite <- IH, (firstn_snoc _ _ _ _ E), <- app_assoc. reflexivity.
Qed.
Lemma cyc_bound : forall A (c : list A) k l k', cyc c k l k' -> (k < length c)%nat -> (k' < length c)%nat.
Proof. intros A c k l k' H. induction H; intros L; auto. apply IHcyc. apply Nat.mod_upper_bound. lia. Qed.
Lemma cyc_in : forall A (c : list A) k l k' x, cyc c k l k' -> In x l -> In x c.
Proof. intros A c k l k' x H. induction H; intros I; [destruct I|]. destruct I as [<-|I]; auto. eapply nth_error_In; eauto. Qed.
Lemma cyc_nth : forall A (c : list A) k l k' i, cyc c k l k' -> (k < length c)%nat -> (i < length l)%nat -> nth_error l i = nth_error c (Nat.modulo (k + i) (length c)).
Proof.
  intros A c k l k' i H. revert i. induction H as [k|k x l k' E H IH]; intros i L Li; [cbn in Li; lia|]. destruct i as [|i].
  - rewrite Nat.add_0_r, Nat.mod_small by auto. cbn. auto.
  - cbn. cbn in Li. rewrite IH; [|apply Nat.mod_upper_bound; lia | lia]. rewrite Nat.add_mod_idemp_l by lia. f_equal. f_equal. lia.
Qed.
Lemma cyc_covers : forall A (c : list A) k l k' x, cyc c k l k' -> (k < length c)%nat -> (length c <= length l)%nat -> In x c -> In x l.
Proof.
  intros A c k l k' x H L Le I. destruct (In_nth_error c x I) as (j & E). assert (j < length c)%nat as Lj by (apply nth_error_Some; congruence).
  set (i := Nat.modulo (j + (length c - k)) (length c)). assert (i < length c)%nat as Li by (apply Nat.mod_upper_bound; lia).
  apply (nth_error_In l i). rewrite (cyc_nth _ _ _ _ _ i H L) by lia. rewrite <- E. f_equal. unfold i. rewrite Nat.add_mod_idemp_r by lia.
  replace (k + (j + (length c - k)))%nat with (j + 1 * length c)%nat by lia. rewrite Nat.mod_add by lia. apply Nat.mod_small. auto.
Qed.
Lemma cyc_end : forall A (c : list A) k l k', cyc c k l k' -> (k < length c)%nat -> k' = Nat.modulo (k + length l) (length c).
Proof.
  intros A c k l k' H. induction H as [k|k x l k' E H IH]; intros L; cbn [length].
  - rewrite Nat.add_0_r, Nat.mod_small; auto.
  - rewrite IH by (apply Nat.mod_upper_bound; lia). rewrite Nat.add_mod_idemp_l by lia. f_equal. lia.
Qed.
Lemma in_rounds_cyc : forall c k l k', cyc c k l k' -> (c <> [] -> (k < length c)%nat) -> in_rounds c l.
Proof.
  intros c k l k' H L. destruct c as [|x c].
  - inversion H as [|? ? ? ? E]; subst; [|destruct k; discriminate]. exists 0%nat, [], []. reflexivity.
  - destruct (cyc_segment _ _ _ _ _ H) as (n & E); [apply L; discriminate|]. eexists n, _, _. exact E.
Qed.

(** Shapes of a turn. *)
Definition quiet (o : list offer) : Prop := Forall (fun v => exists x, v = Visit x false false) o.
Definition ended (o : list offer) (e : tend) : Prop :=
  match e with
  | TDone => quiet o
  | TWrote => exists o' x, o = o' ++ [Visit x true false] /\ quiet o'
  | TFull => exists o' x b, o = o' ++ [Visit x b true] /\ quiet o'
  end.
Lemma quiet_app : forall a b, quiet a -> quiet b -> quiet (a ++ b).
Proof. intros. apply Forall_app. auto. Qed.
Lemma ended_app : forall a o e, quiet a -> ended o e -> ended (a ++ o) e.
Proof.
  intros a o [] Q E; cbn in *.
  - destruct E as (o' & x & b & -> & Q'). exists (a ++ o'), x, b. rewrite app_assoc. split; auto. apply quiet_app; auto.
  - destruct E as (o' & x & -> & Q'). exists (a ++ o'), x. rewrite app_assoc. split; auto. apply quiet_app; auto.
  - apply quiet_app; auto.
Qed.
Lemma snoc_split : forall A (o' : list A) l pre v post, o' ++ [l] = pre ++ v :: post -> exists r, o' = pre ++ r.
Proof.
  intros A o'. induction o' as [|a o' IH]; intros l pre v post E.
  - exists []. destruct pre as [|b pre]; auto. cbn in E. inv E. destruct pre; discriminate.
  - destruct pre as [|b pre]; [exists (a :: o'); auto|]. cbn in E. inv E. destruct (IH _ _ _ _ H1) as (r & ->). exists r. auto.
Qed.
Lemma ended_prefix : forall o e pre v post, ended o e -> o = pre ++ v :: post -> quiet pre.
Proof.
  intros o e pre v post E ->. assert (exists o', quiet o' /\ exists r, o' = pre ++ r) as (o' & Q & r & ->).
  { destruct e; cbn in E.
    - destruct E as (o' & x & b & E & Q). exists o'. split; auto. symmetry in E. apply snoc_split in E. auto.
    - destruct E as (o' & x & E & Q). exists o'. split; auto. symmetry in E. apply snoc_split in E. auto.
    - exists (pre ++ v :: post). split; auto. eauto. }
  apply Forall_app in Q. tauto.
Qed.

Definition norm (g : og) : nat := clamp (next g) (length (vec g)).
Definition okpos (g : og) : Prop := vec g <> [] -> (next g < length (vec g))%nat.
Definition spends {W} (k : writer W) (w w' : W) (e : tend) : Prop := (room k w' <= room k w)%nat /\ (e = TWrote -> (room k w' < room k w)%nat).
Lemma scan_spec : forall W (k : writer W) p live fuel g started w r,
  takes_room k -> okpos g -> (forall x, In x (vec g) -> get x live <> None) -> (r < fuel)%nat -> (r <= length (vec g))%nat ->
  match started with None => r = length (vec g) | Some a => (a < length (vec g))%nat /\ (r < length (vec g))%nat /\ Nat.modulo (next g + r) (length (vec g)) = a end ->
  exists g' w' o e, scan k p live fuel g started w = Some (g', w', o, e) /\ vec g' = vec g /\ okpos g' /\ cyc (vec g) (next g) (ids o) (next g') /\
    ended o e /\ (e = TDone -> length o = r) /\ spends k w w' e.
Proof.
  intros W k p live fuel. induction fuel as [|f IH]; intros g started w r TR OK LV Lf Lr ST; [lia|]. cbn [scan]. unfold it_next.
  destruct (match started with Some a => Nat.eqb a (next g) | None => false end || match vec g with [] => true | _ => false end) eqn:Stop.
  - do 4 eexists. split; [reflexivity|]. split; auto. split; auto. split; [constructor|]. split; [constructor|]. split; [|split; [lia | discriminate]].
    intros _. cbn. apply orb_true_iff in Stop. destruct Stop as [Stop|Stop].
    + destruct started as [a|]; [|discriminate]. apply Nat.eqb_eq in Stop. subst a. destruct ST as (La & Lr' & E).
      destruct (Nat.lt_ge_cases (next g + r) (length (vec g))) as [L|L]; [rewrite Nat.mod_small in E by lia; lia|].
      replace (next g + r)%nat with ((next g + r - length (vec g)) + 1 * length (vec g))%nat in E by lia. rewrite Nat.mod_add in E by lia.
      rewrite Nat.mod_small in E by lia. lia.
    + destruct (vec g); [cbn in Lr; lia | discriminate].
  - apply orb_false_iff in Stop. destruct Stop as (S1 & S2). assert (vec g <> []) as NE by (destruct (vec g); discriminate). pose proof (OK NE) as Ln.
    destruct (nth_error (vec g) (next g)) as [x|] eqn:Ex; [|apply nth_error_None in Ex; lia].
    assert (In x (vec g)) as Ix by (eapply nth_error_In; eauto). pose proof (LV x Ix) as Gx. destruct (get x live) eqn:G; [|congruence]. clear Gx.
    set (g1 := mkOg (vec g) (Nat.modulo (S (next g)) (length (vec g)))).
    assert (okpos g1) as OK1 by (intros _; cbn; apply Nat.mod_upper_bound; lia).
    destruct (wr k w p x) as ((w1, wrote), full) eqn:Wr. destruct (TR _ _ _ _ _ _ Wr) as (R1 & R2).
    destruct full.
    { do 4 eexists. split; [reflexivity|]. split; [reflexivity|]. split; auto. split; [cbn [ids map offer_id next g1]; econstructor; [eauto | constructor]|].
      split; [exists [], x, wrote; split; [reflexivity | constructor]|]. split; [discriminate|]. split; [auto | discriminate]. }
    destruct wrote.
    { do 4 eexists. split; [reflexivity|]. split; [reflexivity|]. split; auto. split; [cbn [ids map offer_id next g1]; econstructor; [eauto | constructor]|].
      split; [exists [], x; split; [reflexivity | constructor]|]. split; [discriminate|]. split; [auto | intros _; apply R2; auto]. }
    assert (r <> 0%nat) as Nr.
    { intros ->. destruct started as [a|]; [|lia]. destruct ST as (_ & _ & E). rewrite Nat.add_0_r, Nat.mod_small in E by lia. subst a. rewrite Nat.eqb_refl in S1. discriminate. }
    destruct (IH g1 (match started with Some _ => started | None => Some (next g) end) w1 (r - 1)%nat TR OK1 LV ltac:(lia) ltac:(cbn; lia)) as (g' & w' & o & e & E & V & OK' & C & En & Cv & Sp).
    { cbn [vec next g1]. destruct started as [a|].
      - destruct ST as (La & Lr' & E). split; auto. split; [lia|]. rewrite Nat.add_mod_idemp_l by lia. rewrite <- E. f_equal. lia.
      - split; auto. split; [lia|]. rewrite Nat.add_mod_idemp_l by lia. subst r. replace (S (next g) + (length (vec g) - 1))%nat with (next g + 1 * length (vec g))%nat by lia.
        rewrite Nat.mod_add by lia. apply Nat.mod_small; auto. }
    rewrite E. do 4 eexists. split; [reflexivity|]. split; auto. split; auto. split; [cbn [ids map offer_id]; econstructor; [eauto | exact C]|].
    split; [change (Visit x false false :: o) with ([Visit x false false] ++ o); apply ended_app; auto; constructor; [eauto | constructor]|].
    split; [intros Ee; cbn [length]; rewrite (Cv Ee); lia|]. destruct Sp as (Sp1 & Sp2). split; [lia | intros Ee; specialize (Sp2 Ee); lia].
Qed.
Lemma quiet_in : forall o x, quiet o -> In x (ids o) -> In (Visit x false false) o.
Proof.
  intros o x Q I. unfold ids in I. apply in_map_iff in I. destruct I as (v & <- & Iv). unfold quiet in Q. rewrite Forall_forall in Q. destruct (Q v Iv) as (y & ->). auto.
Qed.
Lemma og_iter_ok : forall g, vec (og_iter g) = vec g /\ next (og_iter g) = norm g /\ okpos (og_iter g).
Proof.
  intros g. unfold og_iter, norm, clamp, okpos. destruct (Nat.leb (length (vec g)) (next g)) eqn:L; cbn [vec next]; split; auto; split; auto.
  - destruct (vec g); [congruence | cbn; lia].
  - apply Nat.leb_gt in L. auto.
Qed.
Lemma norm_ok : forall g, okpos g -> norm g = next g \/ vec g = [].
Proof.
  intros g OK. unfold norm, clamp. destruct (Nat.leb (length (vec g)) (next g)) eqn:L; auto. apply Nat.leb_le in L. right. destruct (vec g) eqn:V; auto.
  unfold okpos in OK. rewrite V in OK. specialize (OK ltac:(discriminate)). lia.
Qed.
Lemma scan_all_spec : forall W (k : writer W) p live g w, takes_room k -> (forall x, In x (vec g) -> get x live <> None) ->
  exists g' w' o e, scan_all k p live g w = Some (g', w', o, e) /\ vec g' = vec g /\ cyc (vec g) (norm g) (ids o) (norm g') /\
    ended o e /\ (forall x, In x (ids o) -> In x (vec g)) /\ (e = TDone -> forall x, In x (vec g) -> In (Visit x false false) o) /\ spends k w w' e.
Proof.
  intros W k p live g w TR LV. unfold scan_all. destruct (og_iter_ok g) as (Vi & Ni & Oi).
  destruct (scan_spec W k p live (S (length (vec g))) (og_iter g) None w (length (vec g)) TR Oi) as (g' & w' & o & e & E & V & OK' & C & En & Cv & Sp);
    rewrite ?Vi in *; auto.
  exists g', w', o, e. split; auto. split; auto. rewrite Ni in C.
  assert (cyc (vec g) (norm g) (ids o) (norm g')) as C'.
  { destruct (norm_ok g' OK') as [->|Ve]; auto. rewrite V in Ve. inversion C as [? E1 E2 E3|? ? ? ? Nx]; subst; [|rewrite Ve in Nx; destruct (norm g); discriminate].
    unfold norm at 2, clamp. rewrite V, Ve. cbn. unfold norm, clamp. rewrite Ve. cbn. constructor. }
  split; auto. split; auto. split; [intros x I; eapply cyc_in; eauto|]. split; auto. intros -> x Ix. cbn in En. apply quiet_in; auto.
  assert (norm g < length (vec g))%nat as Ln. { rewrite <- Ni. rewrite <- Vi. apply Oi. rewrite Vi. intros Z. rewrite Z in Ix. destruct Ix. }
  eapply cyc_covers; eauto. unfold ids. rewrite map_length, (Cv eq_refl). lia.
Qed.

(** Every queue's own offers go round it. *)
Definition inb (c : list N) (x : N) : bool := memb x c.
Definition RR (o : list N) : list og -> list og -> Prop :=
  Forall2 (fun g g' => vec g' = vec g /\ cyc (vec g) (norm g) (filter (inb (vec g)) o) (norm g')).
Lemma RR_app_o : forall o1 o2 l l1 l2, RR o1 l l1 -> RR o2 l1 l2 -> RR (o1 ++ o2) l l2.
Proof.
  intros o1 o2 l l1 l2 H. revert l2. induction H as [|g g1 l l1 (V & C) H IH]; intros l2 H2; inversion H2 as [|? g2 ? l2' (V2 & C2) H2']; subst; constructor; [|apply IH; auto].
  split; [congruence|]. rewrite filter_app. eapply cyc_app; [exact C|]. rewrite V in C2. auto.
Qed.
Lemma RR_app_l : forall o a a' b b', RR o a a' -> RR o b b' -> RR o (a ++ b) (a' ++ b').
Proof. intros. apply Forall2_app; auto. Qed.
Lemma filter_none : forall A (f : A -> bool) l, (forall x, In x l -> f x = false) -> filter f l = [].
Proof. intros A f l H. induction l as [|x l IH]; auto. cbn. rewrite (H x) by (left; auto). apply IH. intros; apply H; right; auto. Qed.
Lemma filter_all : forall A (f : A -> bool) l, (forall x, In x l -> f x = true) -> filter f l = l.
Proof. intros A f l H. induction l as [|x l IH]; auto. cbn. rewrite (H x) by (left; auto). f_equal. apply IH. intros; apply H; right; auto. Qed.
Lemma RR_same : forall o l, (forall g x, In g l -> In x o -> ~ In x (vec g)) -> RR o l l.
Proof.
  intros o l H. induction l as [|g l IH]; constructor.
  - split; auto. rewrite filter_none; [constructor|]. intros x Ix. apply memb_false. apply H; auto. left; auto.
  - apply IH. intros g' x I. apply H. right; auto.
Qed.
Lemma RR_vecs : forall o l l', RR o l l' -> map vec l' = map vec l.
Proof. intros o l l' H. induction H as [|g g' l l' (V & _) H IH]; cbn; congruence. Qed.

(** A group's turn, over the list of its queues. *)
Definition vv (q : pgq) : list (list N) := map vec (og_list q).
Record turn_ok (vs : list (list N)) (o : list offer) (e : tend) : Prop := {
  t_in : forall x, In x (ids o) -> In x (concat vs);
  t_end : ended o e;
  t_all : e = TDone -> forall x, In x (concat vs) -> In (Visit x false false) o;
  t_pri : forall pre v post vs1 c vs2, o = pre ++ v :: post -> vs = vs1 ++ c :: vs2 -> In (offer_id v) c -> forall x, In x (concat vs1) -> In (Visit x false false) pre
}.
Definition lives (live : list strm) (l : list og) : Prop := forall g x, In g l -> In x (vec g) -> get x live <> None.
Definition disj (l : list og) : Prop := NoDup (concat (map vec l)).
Lemma disj_app : forall a b, disj (a ++ b) -> disj a /\ disj b /\ (forall g g' x, In g a -> In g' b -> In x (vec g) -> ~ In x (vec g')).
Proof.
  intros a b D. unfold disj in *. rewrite map_app, concat_app in D.
  assert (forall A (l m : list A), NoDup (l ++ m) -> NoDup l /\ NoDup m /\ forall x, In x l -> ~ In x m) as G.
  { intros A l m. induction l as [|y l IH]; cbn; intros H; [split; [constructor | auto]|]. inversion H; subst. destruct (IH H3) as (A1 & A2 & A3).
    split; [constructor; auto; intros I; apply H2, in_or_app; auto|]. split; auto. intros x [<-|I]; auto. intros I. apply H2, in_or_app; auto. }
  destruct (G _ _ _ D) as (A1 & A2 & A3). split; auto. split; auto. intros g g' x I I' X X'. apply (A3 x); apply in_concat; eexists; split; try (apply in_map; eauto); auto.
Qed.
Lemma in_vecs : forall g l x, In g l -> In x (vec g) -> In x (concat (map vec l)).
Proof. intros g l x I X. apply in_concat. exists (vec g). split; auto. apply in_map; auto. Qed.
Lemma turn_scan : forall o e c, ended o e -> (forall x, In x (ids o) -> In x c) -> (e = TDone -> forall x, In x c -> In (Visit x false false) o) -> turn_ok [c] o e.
Proof.
  intros o e c E I A. split; cbn; rewrite ?app_nil_r; auto. intros pre v post vs1 d vs2 _ Es _ x Ix. destruct vs1 as [|d1 vs1]; [destruct Ix|]. inv Es. destruct vs1; discriminate.
Qed.
(** First the queues of [l], then those of [m]. *)
Lemma app_split : forall A (a b : list A) pre v post, a ++ b = pre ++ v :: post ->
  (exists r, a = pre ++ v :: r /\ post = r ++ b) \/ (exists p1, pre = a ++ p1 /\ b = p1 ++ v :: post).
Proof.
  intros A a. induction a as [|x a IH]; intros b pre v post E; cbn in E; [right; exists pre; auto|]. destruct pre as [|y pre].
  - cbn in E. inv E. left. exists a. auto.
  - cbn in E. inv E. destruct (IH _ _ _ _ H1) as [(r & -> & ->)|(p1 & -> & ->)]; [left; exists r; auto | right; exists p1; auto].
Qed.
Lemma turn_seq : forall vs ws o1 o2 e, NoDup (concat (vs ++ ws)) -> turn_ok vs o1 TDone -> turn_ok ws o2 e -> turn_ok (vs ++ ws) (o1 ++ o2) e.
Proof.
  intros vs ws o1 o2 e ND T1 T2. rewrite concat_app in ND. split.
  - intros x I. unfold ids in I. rewrite map_app in I. rewrite concat_app. apply in_or_app. apply in_app_or in I. destruct I as [I|I]; [left; apply (t_in _ _ _ T1); auto | right; apply (t_in _ _ _ T2); auto].
  - apply ended_app; [exact (t_end _ _ _ T1) | exact (t_end _ _ _ T2)].
  - intros -> x I. rewrite concat_app in I. apply in_or_app. apply in_app_or in I. destruct I as [I|I]; [left; apply (t_all _ _ _ T1); auto | right; apply (t_all _ _ _ T2); auto].
  - intros pre v post vs1 c vs2 Eo Ev Iv x Ix.
    assert (forall y, In y (concat vs) -> ~ In y (concat ws)) as Dj.
    { intros y A B. clear - ND A B. induction (concat vs) as [|z l IH]; [destruct A|]. cbn in ND. inversion ND; subst. destruct A as [->|A]; [apply H1, in_or_app; auto | auto]. }
    apply app_split in Eo. destruct Eo as [(r & E1 & _)|(p1 & -> & E2)].
    + (* the offer is one of the first part *)
      assert (In (offer_id v) (concat vs)) as Iv1 by (apply (t_in _ _ _ T1); unfold ids; rewrite E1, map_app; apply in_or_app; right; left; auto).
      apply app_split in Ev. destruct Ev as [(r' & E3 & _)|(p1 & -> & E3)].
      * eapply (t_pri _ _ _ T1); eauto.
      * exfalso. apply (Dj _ Iv1). rewrite E3, concat_app. apply in_or_app. right. cbn. apply in_or_app; auto.
    + assert (In (offer_id v) (concat ws)) as Iv1 by (apply (t_in _ _ _ T2); unfold ids; rewrite E2, map_app; apply in_or_app; right; left; auto).
      apply app_split in Ev. destruct Ev as [(r' & E3 & _)|(p2 & -> & E3)].
      * exfalso. apply (Dj (offer_id v)); auto. rewrite E3, concat_app. apply in_or_app. right. cbn. apply in_or_app; auto.
      * rewrite concat_app in Ix. apply in_or_app. apply in_app_or in Ix. destruct Ix as [Ix|Ix]; [left; apply (t_all _ _ _ T1); auto|].
        right. eapply (t_pri _ _ _ T2); eauto.
Qed.
Lemma turn_cut : forall vs ws o e, NoDup (concat (vs ++ ws)) -> turn_ok vs o e -> e <> TDone -> turn_ok (vs ++ ws) o e.
Proof.
  intros vs ws o e ND T Ne. rewrite concat_app in ND. split.
  - intros x I. rewrite concat_app. apply in_or_app. left. apply (t_in _ _ _ T); auto.
  - exact (t_end _ _ _ T).
  - congruence.
  - intros pre v post vs1 c vs2 Eo Ev Iv x Ix. 
    assert (In (offer_id v) (concat vs)) as Iv1 by (apply (t_in _ _ _ T); unfold ids; rewrite Eo, map_app; apply in_or_app; right; left; auto).
    assert (forall y, In y (concat vs) -> ~ In y (concat ws)) as Dj.
    { intros y A B. clear - ND A B. induction (concat vs) as [|z l IH]; [destruct A|]. cbn in ND. inversion ND; subst. destruct A as [->|A]; [apply H1, in_or_app; auto | auto]. }
    apply app_split in Ev. destruct Ev as [(r' & E3 & _)|(p1 & -> & E3)].
    + eapply (t_pri _ _ _ T); eauto.
    + exfalso. apply (Dj _ Iv1). rewrite E3, concat_app. apply in_or_app. right. cbn. apply in_or_app; auto.
Qed.
Lemma disj_nodup : forall l, disj l -> NoDup (concat (map vec l)).
Proof. auto. Qed.
Lemma RR_one : forall o g g', (forall x, In x o -> In x (vec g)) -> vec g' = vec g -> cyc (vec g) (norm g) o (norm g') -> RR o [g] [g'].
Proof. intros o g g' I V C. constructor; [|constructor]. split; auto. rewrite filter_all; auto. intros x Ix. apply memb_spec; auto. Qed.
Lemma by_order_spec : forall W (k : writer W) p live l w, takes_room k -> lives live (map snd l) -> disj (map snd l) ->
  exists l' w' o e, by_order k p live l w = Some (l', w', o, e) /\ map fst l' = map fst l /\ RR (ids o) (map snd l) (map snd l') /\
    turn_ok (map vec (map snd l)) o e /\ spends k w w' e.
Proof.
  intros W k p live l. induction l as [|(z, g) l IH]; intros w TR LV D; cbn [by_order].
  - do 4 eexists. split; [reflexivity|]. split; auto. split; [constructor|]. split; [|split; [lia | discriminate]]. split; cbn; try tauto.
    + constructor.
    + intros pre v post ? ? ? E. destruct pre; discriminate.
  - change (map snd ((z, g) :: l)) with ([g] ++ map snd l) in *. destruct (disj_app _ _ D) as (D1 & D2 & D3).
    destruct (scan_all_spec W k p live g w TR) as (g1 & w1 & o1 & e1 & E1 & V1 & C1 & En1 & In1 & Al1 & Sp1); [intros x Ix; apply (LV g x); [left; auto | auto]|].
    rewrite E1. pose proof (turn_scan o1 e1 (vec g) En1 In1 Al1) as T1. pose proof (RR_one _ _ _ In1 V1 C1) as R1.
    assert (RR (ids o1) (map snd l) (map snd l)) as R1'. { apply RR_same. intros g' x I X X'. apply (D3 g g' x (or_introl eq_refl) I (In1 x X) X'). }
    destruct e1.
    + do 4 eexists. split; [reflexivity|]. split; auto. split; [apply (RR_app_l _ [g] [g1]); auto|]. split; auto. rewrite map_app. apply turn_cut; [rewrite <- map_app; exact D | auto | discriminate].
    + do 4 eexists. split; [reflexivity|]. split; auto. split; [apply (RR_app_l _ [g] [g1]); auto|]. split; auto. rewrite map_app. apply turn_cut; [rewrite <- map_app; exact D | auto | discriminate].
    + destruct (IH w1 TR) as (l2 & w2 & o2 & e2 & E2 & K2 & R2 & T2 & Sp2); [intros g' x I X; apply (LV g' x); [right; auto | auto] | auto|].
      rewrite E2. do 4 eexists. split; [reflexivity|]. split; [cbn; congruence|]. split; [|split].
      * unfold ids. rewrite map_app. eapply RR_app_o; [apply (RR_app_l _ [g] [g1] _ _ R1 R1')|]. apply (RR_app_l _ [g1] [g1]); auto.
        apply RR_same. intros g' x I X. destruct I as [<-|[]]. rewrite V1. intros X'.
        assert (In x (concat (map vec (map snd l)))) as Xl by (apply (t_in _ _ _ T2); auto). apply in_concat in Xl. destruct Xl as (v & Iv & Xv). apply in_map_iff in Iv.
        destruct Iv as (g2 & <- & Ig2). apply (D3 g g2 x (or_introl eq_refl) Ig2 X' Xv).
      * rewrite map_app. apply turn_seq; auto.
      * destruct Sp1 as (A1 & _). destruct Sp2 as (A2 & B2). split; [lia | intros Ee; specialize (B2 Ee); lia].
Qed.
Lemma turn_spec : forall W (k : writer W) p live q w, takes_room k -> lives live (og_list q) -> disj (og_list q) ->
  exists q' w' o e, turn k p live q w = Some (q', w', o, e) /\ map fst (ordered q') = map fst (ordered q) /\ RR (ids o) (og_list q) (og_list q') /\
    turn_ok (vv q) o e /\ spends k w w' e.
Proof.
  intros W k p live q w TR LV D. unfold turn, og_list, vv in *. destruct (disj_app _ _ D) as (D1 & D2 & D3).
  destruct (by_order_spec W k p live (ordered q) w TR) as (l1 & w1 & o1 & e1 & E1 & K1 & R1 & T1 & Sp1); [intros g x I; apply LV, in_or_app; auto | auto|]. rewrite E1.
  assert (RR (ids o1) [regular q] [regular q]) as R1'.
  { apply RR_same. intros g x [<-|[]] X X'. apply (t_in _ _ _ T1) in X. apply in_concat in X. destruct X as (v & Iv & Xv). apply in_map_iff in Iv. destruct Iv as (g2 & <- & Ig2).
    apply (D3 g2 (regular q) x Ig2 (or_introl eq_refl) Xv X'). }
  assert (NoDup (concat (map vec (map snd (ordered q)) ++ map vec [regular q]))) as ND by (rewrite <- map_app; exact D).
  destruct e1.
  - do 4 eexists. split; [reflexivity|]. cbn [ordered regular]. split; auto. split; [apply RR_app_l; auto|]. split; auto. unfold vv, og_list. rewrite map_app. apply turn_cut; auto. discriminate.
  - do 4 eexists. split; [reflexivity|]. cbn [ordered regular]. split; auto. split; [apply RR_app_l; auto|]. split; auto. unfold vv, og_list. rewrite map_app. apply turn_cut; auto. discriminate.
  - destruct (scan_all_spec W k p live (regular q) w1 TR) as (g2 & w2 & o2 & e2 & E2 & V2 & C2 & En2 & In2 & Al2 & Sp2);
      [intros x Ix; apply (LV (regular q) x); [apply in_or_app; right; left; auto | auto]|]. rewrite E2.
    pose proof (turn_scan o2 e2 _ En2 In2 Al2) as T2. pose proof (RR_one _ _ _ In2 V2 C2) as R2.
    do 4 eexists. split; [reflexivity|]. cbn [ordered regular]. split; auto. split; [|split].
    + unfold ids. rewrite map_app. eapply RR_app_o; [apply RR_app_l; eauto|]. apply RR_app_l; auto. apply RR_same.
      intros g x I X X'. apply In2 in X. pose proof (RR_vecs _ _ _ R1) as Vs.
      assert (In x (concat (map vec (map snd l1)))) as Y by (apply (in_vecs g); auto). rewrite Vs in Y. apply in_concat in Y. destruct Y as (v & Iv & Xv). apply in_map_iff in Iv.
      destruct Iv as (g3 & <- & Ig3). apply (D3 g3 (regular q) x Ig3 (or_introl eq_refl) Xv X).
    + unfold vv, og_list. rewrite map_app. apply turn_seq; auto.
    + destruct Sp1 as (A1 & _). destruct Sp2 as (A2 & B2). split; [lia | intros Ee; specialize (B2 Ee); lia].
Qed.
