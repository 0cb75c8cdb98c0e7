(** Proofs about the round trip time estimator. *)
From Verif Require Import Base Lib FrameModel RttModel RttSpec.

Lemma raws_app a b : raws (a ++ b) = raws a ++ raws b. Proof. apply flat_map_app. Qed.
Lemma useds_app a b : useds (a ++ b) = useds a ++ useds b. Proof. apply flat_map_app. Qed.
Lemma frames_app a b : frames (a ++ b) = frames a ++ frames b. Proof. apply flat_map_app. Qed.

Lemma abs_distance a b : abs_diff a b = distance a b.
Proof. unfold abs_diff, distance. destruct (N.ltb_spec a b); lia. Qed.
Lemma averages_snoc l x : l <> [] -> averages (l ++ [x]) = average1 (averages l) x.
Proof. destruct l as [|y l]; [congruence|]. intros _. cbn. rewrite fold_left_app. reflexivity. Qed.
Lemma least_snoc a l x : least a (l ++ [x]) = N.min (least a l) x.
Proof. unfold least. rewrite fold_left_app. reflexivity. Qed.
Lemma least_le a l : least a l <= a /\ forall x, In x l -> least a l <= x.
Proof.
  revert a. induction l as [|y l IH]; intros a; cbn [least fold_left].
  - split; [unfold least; cbn; lia|]. intros x [].
  - destruct (IH (N.min a y)) as [A B]. unfold least in *. split; [lia|]. intros x [<-|Hx]; [lia|auto].
Qed.
Lemma least_in a l : In (least a l) (a :: l).
Proof.
  revert a. induction l as [|y l IH]; intros a; [left; reflexivity|]. unfold least in *. cbn [fold_left].
  destruct (IH (N.min a y)) as [E|E]; [|right; right; exact E]. rewrite <- E.
  destruct (N.min_spec a y) as [[_ ->]|[_ ->]]; [left; reflexivity|right; left; reflexivity].
Qed.

(** The first adjusted sample and the later raw ones. *)
Definition firsts (h : list rvent) : N * list N := (hd 0 (useds h), tl (raws h)).

(** The relation of the state to the history. *)
Definition J (t : rtt) (h : list rvent) : Prop :=
  length (raws h) = length (useds h) /\
  match t_first t with
  | None => raws h = []
  | Some _ => raws h <> [] /\ (t_smoothed t, t_var t) = averages (useds h) /\ t_latest t = last (useds h) 0 /\
      t_min t = least (hd 0 (useds h)) (tl (raws h)) /\
      Forall (fun e => match e with VSample r d u => r - d <= u <= r /\ t_min t <= u | _ => True end) h
  end.

(** The part of a step that takes a sample. *)
Lemma update_spec raw d src now t t' : rtt_update raw d src now t = Some t' ->
  source_leb (t_best t) src = true /\
  (let d' := if is_confirmed src then N.min d (pd_max (t_delay t)) else d in
   let m := N.min (t_min t) raw in
   t_latest t' = (if m + d' <=? raw then raw - d' else raw)) /\
  t_first t' = Some (match t_first t with Some f => f | None => now end) /\
  t_delay t' = t_delay t /\ t_best t' = src /\
  match t_first t with
  | None => t_min t' = t_latest t' /\ t_smoothed t' = t_latest t' /\ t_var t' = t_latest t' / 2
  | Some _ => t_min t' = N.min (t_min t) raw /\ (t_smoothed t', t_var t') = average1 (t_smoothed t, t_var t) (t_latest t')
  end.
Proof.
  unfold rtt_update. destruct (source_leb (t_best t) src) eqn:E; cbn [negb]; [|discriminate].
  assert (EM : source_max (t_best t) src = src) by (unfold source_max; rewrite E; reflexivity). rewrite EM.
  assert (ED : (if is_confirmed src && (pd_max (t_delay t) <? d) then pd_max (t_delay t) else d) = (if is_confirmed src then N.min d (pd_max (t_delay t)) else d)).
  { destruct (is_confirmed src); cbn [andb]; [|reflexivity]. destruct (N.ltb_spec (pd_max (t_delay t)) d); lia. }
  rewrite ED. set (d' := if is_confirmed src then _ else _). replace (d' + N.min (t_min t) raw) with (N.min (t_min t) raw + d') by lia.
  set (u := if _ <=? raw then _ else _). destruct (t_first t) eqn:EF.
  - intros H. apply some_inj in H. subst t'. cbn. splits; try reflexivity. unfold average1. cbn. f_equal; [f_equal; lia|].
    rewrite abs_distance. f_equal. lia.
  - cbn. intros H. apply some_inj in H. subst t'. cbn. splits; reflexivity.
Qed.

Lemma J_same t t' h h' : J t h -> raws h' = [] -> useds h' = [] ->
  t_first t' = t_first t -> (t_first t <> None -> t_smoothed t' = t_smoothed t /\ t_var t' = t_var t /\ t_min t' = t_min t /\ t_latest t' = t_latest t) ->
  (forall e, In e h' -> match e with VSample _ _ _ => False | _ => True end) ->
  J t' (h ++ h').
Proof.
  intros [A B] R U F S G. split; rewrite ?raws_app, ?useds_app, R, U, ?app_nil_r; [exact A|]. rewrite F. destruct (t_first t); [|exact B].
  destruct S as (-> & -> & -> & ->); [discriminate|]. destruct B as (B1 & B2 & B3 & B4 & B5). splits; auto.
  apply Forall_app. split; [exact B5|]. apply Forall_forall. intros e He. specialize (G e He). destruct e; tauto.
Qed.

Lemma J_sample raw d src now t t' h : J t h -> rtt_update raw d src now t = Some t' -> J t' (h ++ [VSample raw d (t_latest t')]).
Proof.
  intros [A B] H. apply update_spec in H. destruct H as (_ & L & F & _ & _ & M). cbn zeta in L. split.
  { rewrite raws_app, useds_app, !app_length. cbn. lia. }
  rewrite F, raws_app, useds_app. cbn [raws useds flat_map raw_of used_of app].
  assert (U : raw - d <= t_latest t' <= raw).
  { rewrite L. destruct (is_confirmed src); destruct (_ <=? raw); lia. }
  assert (UM : N.min (t_min t) raw <= t_latest t').
  { rewrite L. destruct (is_confirmed src); destruct (N.leb_spec (N.min (t_min t) raw + (if is_confirmed src then N.min d (pd_max (t_delay t)) else d)) raw); cbn in *; repeat dmatch; lia. }
  destruct (t_first t).
  - destruct B as (B1 & B2 & B3 & B4 & B5). destruct M as [M1 M2].
    assert (NU : useds h <> []) by (destruct (useds h), (raws h); cbn in A; congruence).
    splits.
    + intros X. apply app_eq_nil in X. destruct X as [_ X]. discriminate.
    + rewrite M2, B2. symmetry. apply averages_snoc. exact NU.
    + rewrite last_last. reflexivity.
    + rewrite M1, B4. destruct (raws h) as [|r0 rs]; [congruence|]. destruct (useds h) as [|u0 us]; [congruence|]. cbn. symmetry. apply least_snoc.
    + apply Forall_app. split; [|constructor; [|constructor]; split; [exact U|rewrite M1; exact UM]].
      eapply Forall_impl; [|exact B5]. intros [r0 d0 u0| |]; auto. intros [X Y]. split; [exact X|]. rewrite M1. lia.
  - rewrite B in *. assert (NU : useds h = []) by (destruct (useds h); cbn in A; [reflexivity|discriminate]). rewrite NU. destruct M as (M1 & M2 & M3). cbn.
    splits; try discriminate; auto; [unfold averages; cbn; congruence|].
    apply Forall_app. split; [|constructor; [|constructor]; split; [exact U|lia]].
    apply Forall_forall. intros e He. destruct e; auto.
    assert (X : In raw0 (raws h)) by (apply in_flat_map; eexists; split; [exact He|left; reflexivity]). rewrite B in X. destruct X.
Qed.

Lemma J_step t h o t' h' : J t h -> rstep t o = Some (t', h') -> J t' (h ++ h').
Proof.
  intros H. destruct o; cbn [rstep]; intros S.
  - unfold rtt_set_initial in S. destruct (GRANULARITY <=? v).
    + unfold rtt_init in S. destruct (t_first t) eqn:EF; [discriminate|]. apply some_inj, pair_equal_spec in S. destruct S as [<- <-].
      apply (J_same t); auto; cbn; try congruence. intros e [].
    + apply some_inj, pair_equal_spec in S. destruct S as [<- <-]. apply (J_same t); auto. intros e [].
  - unfold rtt_prime, rtt_set_initial in S. destruct (GRANULARITY <=? _).
    + unfold rtt_init in S. destruct (t_first t) eqn:EF; [discriminate|]. apply some_inj, pair_equal_spec in S. destruct S as [<- <-].
      apply (J_same t); auto; cbn; try congruence. intros e [].
    + apply some_inj, pair_equal_spec in S. destruct S as [<- <-]. apply (J_same t); auto. intros e [].
  - unfold rtt_process_tps in S. destruct min_us as [us|].
    + destruct (_ <? _); [apply some_inj, pair_equal_spec in S; destruct S as [<- <-]; apply (J_same t); auto; intros e [<-|[]]; exact Logic.I|].
      destruct (flex_new _ _ _ _ _ _); [|discriminate]. apply some_inj, pair_equal_spec in S. destruct S as [<- <-]. apply (J_same t); auto. intros e [].
    + apply some_inj, pair_equal_spec in S. destruct S as [<- <-]. apply (J_same t); auto. intros e [].
  - unfold rtt_sample in S. destruct (now <? sent).
    + apply some_inj, pair_equal_spec in S. destruct S as [<- <-]. apply (J_same t); auto. intros e [].
    + destruct (rtt_update _ _ _ _ _) as [t1|] eqn:E; [|discriminate]. apply some_inj, pair_equal_spec in S. destruct S as [<- <-]. eapply J_sample; eassumption.
  - unfold rtt_discard in S. destruct (t_first t).
    + apply some_inj, pair_equal_spec in S. destruct S as [<- <-]. apply (J_same t); auto. intros e [].
    + destruct (rtt_update _ _ _ _ _) as [t1|] eqn:E; [|discriminate]. apply some_inj, pair_equal_spec in S. destruct S as [<- <-]. eapply J_sample; eassumption.
  - unfold rtt_update_delay in S. destruct (pd_update _ _ _ _); [|discriminate]. apply some_inj, pair_equal_spec in S. destruct S as [<- <-]. apply (J_same t); auto. intros e [].
  - destruct (pd_write rem (t_delay t)) as [[d [b|]]|]; [| |discriminate]; apply some_inj, pair_equal_spec in S; destruct S as [<- <-]; apply (J_same t); auto.
    + intros e [<-|[]]. exact Logic.I.
    + intros e [].
  - apply some_inj, pair_equal_spec in S. destruct S as [<- <-]. apply (J_same t); auto. intros e [].
  - apply some_inj, pair_equal_spec in S. destruct S as [<- <-]. apply (J_same t); auto. intros e [].
Qed.
Lemma J_runs ops : forall t h t' h', J t h -> rruns t ops = Some (t', h') -> J t' (h ++ h').
Proof.
  induction ops as [|o ops IH]; intros t h t' h' H R; cbn in R.
  - apply some_inj, pair_equal_spec in R. destruct R as [<- <-]. rewrite app_nil_r. exact H.
  - destruct (rstep t o) as [[t1 h1]|] eqn:E; [|discriminate]. destruct (rruns t1 ops) as [[t2 h2]|] eqn:E2; [|discriminate].
    apply some_inj, pair_equal_spec in R. destruct R as [<- <-]. rewrite app_assoc. eapply IH; [|exact E2]. eapply J_step; eassumption.
Qed.
Lemma J_reached i ops t h : rreached i ops t h -> J t h.
Proof. intros R. apply (J_runs ops (rtt_new i) [] t h); [|exact R]. split; reflexivity. Qed.
Lemma rruns_app a b t : rruns t (a ++ b) =
  match rruns t a with None => None | Some (t', h) => match rruns t' b with None => None | Some (t'', h') => Some (t'', h ++ h') end end.
Proof.
  revert t. induction a as [|o a IH]; intros t; cbn.
  - destruct (rruns t b) as [[]|]; reflexivity.
  - destruct (rstep t o) as [[t1 h1]|]; [|reflexivity]. rewrite IH. destruct (rruns t1 a) as [[t2 h2]|]; [|reflexivity].
    destruct (rruns t2 b) as [[t3 h3]|]; [|reflexivity]. rewrite app_assoc. reflexivity.
Qed.

(** The averages lie between the samples. *)
Lemma averages_bounds l lo hi : l <> [] -> (forall x, In x l -> lo <= x <= hi) ->
  lo <= fst (averages l) <= hi /\ snd (averages l) <= hi.
Proof.
  induction l as [|x l IH] using rev_ind; [congruence|]. intros _ B. destruct l as [|y l].
  - cbn. specialize (B x (or_introl eq_refl)). split; [lia|]. dlia.
  - rewrite averages_snoc by discriminate. destruct IH as [A C]; [discriminate|intros z Hz; apply B; apply in_or_app; left; exact Hz|].
    specialize (B x ltac:(apply in_or_app; right; left; reflexivity)). destruct (averages (y :: l)) as [s v]. unfold average1, distance. cbn [fst snd] in *.
    split; [split|]; dlia.
Qed.
Lemma extremes (l : list N) : l <> [] -> exists lo hi, In lo l /\ In hi l /\ forall x, In x l -> lo <= x <= hi.
Proof.
  induction l as [|x l IH]; [congruence|]. intros _. destruct l as [|y l].
  - exists x, x. splits; try (left; reflexivity). intros z [<-|[]]. lia.
  - destruct IH as (lo & hi & A & B & C); [discriminate|]. exists (N.min x lo), (N.max x hi). splits.
    + destruct (N.min_spec x lo) as [[_ ->]|[_ ->]]; [left; reflexivity|right; exact A].
    + destruct (N.max_spec x hi) as [[_ ->]|[_ ->]]; [right; exact B|left; reflexivity].
    + intros z [<-|Hz]; [lia|]. specialize (C z Hz). lia.
Qed.
