(** Proofs about the send-side range tracker. *)
From Verif Require Import Base Lib RtModel RtSpec.

Fixpoint chain (lo : N) (ps : option bool) (l : umap) : Prop :=
  match l with
  | [] => True
  | (o, (n, s)) :: r => 0 < n /\ lo <= o /\ (o = lo -> ps <> Some s) /\ chain (o + n) (Some s) r
  end.
Fixpoint endof (lo : N) (l : umap) : N := match l with [] => lo | (o, (n, _)) :: r => endof (o + n) r end.
Fixpoint stof (ps : option bool) (l : umap) : option bool := match l with [] => ps | (_, (_, s)) :: r => stof (Some s) r end.
Fixpoint at_ (l : umap) (b : N) : bstate :=
  match l with
  | [] => None
  | (o, (n, s)) :: r => if (o <=? b) && (b <? o + n) then Some s else at_ r b
  end.
Definition below (k : N) (l : umap) : Prop := Forall (fun e => fst e < k) l.
Definition above (k : N) (l : umap) : Prop := Forall (fun e => k <= fst e) l.

Lemma chain_app l1 : forall lo ps l2, chain lo ps (l1 ++ l2) <-> chain lo ps l1 /\ chain (endof lo l1) (stof ps l1) l2.
Proof.
  induction l1 as [|[o [n s]] l1 IH]; intros lo ps l2; cbn [app chain endof stof]; [tauto|].
  rewrite IH. tauto.
Qed.
Lemma endof_app l1 : forall lo l2, endof lo (l1 ++ l2) = endof (endof lo l1) l2.
Proof. induction l1 as [|[o [n s]] l1 IH]; intros; cbn [app endof]; auto. Qed.
Lemma stof_app l1 : forall ps l2, stof ps (l1 ++ l2) = stof (stof ps l1) l2.
Proof. induction l1 as [|[o [n s]] l1 IH]; intros; cbn [app stof]; auto. Qed.
Lemma endof_ge l : forall lo ps, chain lo ps l -> lo <= endof lo l.
Proof.
  induction l as [|[o [n s]] l IH]; intros lo ps H; cbn [endof]; [lia|].
  cbn [chain] in H. destruct H as (? & ? & _ & H). specialize (IH _ _ H). lia.
Qed.
Lemma chain_above l : forall lo ps, chain lo ps l -> above lo l.
Proof.
  induction l as [|[o [n s]] l IH]; intros lo ps H; [constructor|].
  cbn [chain] in H. destruct H as (? & ? & _ & H). constructor; [cbn; lia|].
  specialize (IH _ _ H). eapply Forall_impl; [|exact IH]. cbn. intros; lia.
Qed.
Lemma chain_below_end l : forall lo ps, chain lo ps l -> forall e, In e l -> fst e + fst (snd e) <= endof lo l /\ 0 < fst (snd e).
Proof.
  induction l as [|[o [n s]] l IH]; intros lo ps H e Hi; [destruct Hi|].
  cbn [chain] in H. destruct H as (? & ? & _ & H). cbn [endof].
  destruct Hi as [<-|Hi]; [cbn; split; [apply endof_ge with (1 := H)|lia]|]. apply (IH _ _ H _ Hi).
Qed.
Lemma chain_keys_lt l lo ps k : chain lo ps l -> endof lo l <= k -> below k l.
Proof.
  intros H Hk. apply Forall_forall. intros e He. pose proof (chain_below_end l lo ps H e He). lia.
Qed.
(** A chain may start earlier, or at the same place after another state. *)
Lemma chain_lower l lo lo' ps ps' : chain lo ps l -> lo' < lo -> chain lo' ps' l.
Proof.
  destruct l as [|[o [n s]] l]; cbn [chain]; [tauto|]. intros (? & ? & ? & ?) ?. splits; auto; try lia.
Qed.
Lemma chain_st l lo ps ps' : chain lo ps l -> (forall s, ps' = Some s -> ps = Some s) -> chain lo ps' l.
Proof.
  destruct l as [|[o [n s]] l]; cbn [chain]; [tauto|]. intros (? & ? & H & ?) Hs. splits; auto.
  intros E E2. apply (H E). apply Hs. exact E2.
Qed.
Lemma chain_above' l lo lo' ps ps' : chain lo ps l -> above lo' l -> (lo' = endof lo' l -> True) ->
  (forall o n s r, l = (o, (n, s)) :: r -> o = lo' -> ps' <> Some s) -> chain lo' ps' l.
Proof.
  destruct l as [|[o [n s]] l]; cbn [chain]; [tauto|]. intros (? & ? & H & ?) Ha _ Hs. inv Ha. splits; auto.
  intros E E2. exact (Hs _ _ _ _ eq_refl E E2).
Qed.

Lemma at_app l1 l2 b : at_ (l1 ++ l2) b = match at_ l1 b with Some s => Some s | None => at_ l2 b end.
Proof.
  induction l1 as [|[o [n s]] l1 IH]; cbn [app at_]; [reflexivity|]. destruct (_ && _); auto.
Qed.
Lemma at_above l b : above (b + 1) l -> at_ l b = None.
Proof.
  induction l as [|[o [n s]] l IH]; intros H; [reflexivity|]. inv H. cbn [fst at_] in *.
  destruct (o <=? b) eqn:E; [lia|]. cbn [andb]. auto.
Qed.
Lemma at_low l lo ps b : chain lo ps l -> b < lo -> at_ l b = None.
Proof.
  intros H Hb. apply at_above. apply chain_above in H. eapply Forall_impl; [|exact H]. cbn. intros; lia.
Qed.
Lemma at_high l lo ps b : chain lo ps l -> endof lo l <= b -> at_ l b = None.
Proof.
  revert lo ps. induction l as [|[o [n s]] l IH]; intros lo ps H Hb; [reflexivity|].
  cbn [chain] in H. destruct H as (? & ? & _ & H). cbn [endof at_] in *. pose proof (endof_ge _ _ _ H).
  destruct (b <? o + n) eqn:E; [lia|]. rewrite andb_false_r. eapply IH; eauto.
Qed.

Ltac tup := f_equal; try (f_equal; lia); try lia.

(** Sorted association lists *)
Lemma insert_mid k v A B : below k A -> above (k + 1) B -> u_insert k v (A ++ B) = A ++ (k, v) :: B.
Proof.
  intros HA HB. induction A as [|e A IH]; cbn [app u_insert].
  - destruct B as [|e B]; [reflexivity|]. inv HB. cbn [u_insert]. destruct (k <? fst e) eqn:E; [reflexivity|lia].
  - inv HA. destruct (k <? fst e) eqn:E; [lia|]. destruct (k =? fst e) eqn:E2; [lia|]. rewrite IH by assumption. reflexivity.
Qed.
Lemma insert_at k v v0 A B : below k A -> u_insert k v (A ++ (k, v0) :: B) = A ++ (k, v) :: B.
Proof.
  intros HA. induction A as [|e A IH]; cbn [app u_insert].
  - cbn [fst]. rewrite N.ltb_irrefl, N.eqb_refl. reflexivity.
  - inv HA. destruct (k <? fst e) eqn:E; [lia|]. destruct (k =? fst e) eqn:E2; [lia|]. rewrite IH by assumption. reflexivity.
Qed.
Lemma remove_none k l : Forall (fun e => fst e <> k) l -> u_remove k l = l.
Proof.
  unfold u_remove. induction l as [|e l IH]; intros H; [reflexivity|]. inv H. cbn [filter].
  destruct (fst e =? k) eqn:E; [lia|]. cbn [negb]. rewrite IH; auto.
Qed.
Lemma below_ne k l : below k l -> Forall (fun e => fst e <> k) l.
Proof. intros H. eapply Forall_impl; [|exact H]. cbn; intros; lia. Qed.
Lemma above_ne k l : above (k + 1) l -> Forall (fun e => fst e <> k) l.
Proof. intros H. eapply Forall_impl; [|exact H]. cbn; intros; lia. Qed.
Lemma remove_app k a b : u_remove k (a ++ b) = u_remove k a ++ u_remove k b.
Proof. unfold u_remove. apply filter_app. Qed.
Lemma remove_mid k v A B : below k A -> above (k + 1) B -> u_remove k (A ++ (k, v) :: B) = A ++ B.
Proof.
  intros. rewrite remove_app. rewrite (remove_none k A) by (apply below_ne; auto).
  unfold u_remove at 1. cbn [filter fst]. rewrite N.eqb_refl. cbn [negb].
  fold (u_remove k B). rewrite (remove_none k B) by (apply above_ne; auto). reflexivity.
Qed.
Lemma get_mid k v A B : below k A -> u_get k (A ++ (k, v) :: B) = Some v.
Proof.
  intros H. unfold u_get. rewrite filter_app.
  replace (filter (fun e => fst e =? k) A) with (@nil entry).
  - cbn [app filter fst]. rewrite N.eqb_refl. reflexivity.
  - symmetry. induction A as [|e A IH]; [reflexivity|]. inv H. cbn [filter]. destruct (fst e =? k) eqn:E; [lia|]. auto.
Qed.
Lemma get_none k l : Forall (fun e => fst e <> k) l -> u_get k l = None.
Proof.
  intros H. unfold u_get. replace (filter (fun e => fst e =? k) l) with (@nil entry); [reflexivity|].
  symmetry. induction l as [|e l IH]; [reflexivity|]. inv H. cbn [filter]. destruct (fst e =? k) eqn:E; [lia|]. auto.
Qed.
Lemma filter_all {A} (f : A -> bool) l : Forall (fun e => f e = true) l -> filter f l = l.
Proof. induction l as [|e l IH]; intros H; [reflexivity|]. inv H. cbn [filter]. rewrite H2. f_equal; auto. Qed.
Lemma filter_none {A} (f : A -> bool) l : Forall (fun e => f e = false) l -> filter f l = [].
Proof. induction l as [|e l IH]; intros H; [reflexivity|]. inv H. cbn [filter]. rewrite H2. auto. Qed.
Lemma u_last_snoc l e : u_last (l ++ [e]) = Some e.
Proof. induction l as [|a l IH]; [reflexivity|]. cbn [app]. cbn [u_last]. destruct (l ++ [e]) eqn:E; [destruct l; discriminate|]. exact IH. Qed.
Lemma removelast_snoc {A} (l : list A) e : removelast (l ++ [e]) = l.
Proof. rewrite removelast_app by discriminate. cbn. apply app_nil_r. Qed.

Lemma split_key l lo ps k : chain lo ps l -> exists A B, l = A ++ B /\ below k A /\ above k B.
Proof.
  revert lo ps. induction l as [|[o [n s]] l IH]; intros lo ps H; [exists [], []; splits; constructor|].
  destruct (N.lt_ge_cases o k) as [Ho|Ho].
  - cbn [chain] in H. destruct H as (? & ? & _ & H). destruct (IH _ _ H) as (A & B & -> & HA & HB).
    exists ((o, (n, s)) :: A), B. splits; auto. constructor; auto.
  - exists [], ((o, (n, s)) :: l). splits; [reflexivity|constructor|].
    apply chain_above in H as Ha. inv Ha. constructor; [exact Ho|].
    cbn [chain] in H. destruct H as (? & ? & _ & H). apply chain_above in H. eapply Forall_impl; [|exact H]. cbn; intros; lia.
Qed.
Lemma snoc_cases {A} (l : list A) : l = [] \/ exists l' e, l = l' ++ [e].
Proof. destruct l as [|x l]; [auto|]. right. destruct (@exists_last _ (x :: l) ltac:(discriminate)) as (l' & e & ->). eauto. Qed.

(** The three parts of a map around [off, en). *)
Lemma split3 l lo ps off en : chain lo ps l -> off <= en ->
  exists A C B, l = A ++ C ++ B /\ below off A /\ above off C /\ below en C /\ above en B.
Proof.
  intros H Ho. destruct (split_key l lo ps off H) as (A & R & -> & HA & HR).
  apply chain_app in H. destruct H as [_ H]. destruct (split_key R _ _ en H) as (C & B & -> & HC & HB).
  apply Forall_app in HR. exists A, C, B. splits; auto. tauto.
Qed.
Lemma above_weaken k k' l : above k l -> k' <= k -> above k' l.
Proof. intros H ?. eapply Forall_impl; [|exact H]. cbn; intros; lia. Qed.
Lemma below_weaken k k' l : below k l -> k <= k' -> below k' l.
Proof. intros H ?. eapply Forall_impl; [|exact H]. cbn; intros; lia. Qed.
Lemma range3 A C B off en : below off A -> above off C -> below en C -> above en B ->
  u_range off en (A ++ C ++ B) = C.
Proof.
  intros HA HC1 HC2 HB. unfold u_range. rewrite !filter_app.
  rewrite (filter_none _ A), (filter_all _ C), (filter_none _ B), app_nil_r; [reflexivity| | |].
  - eapply Forall_impl; [|exact HB]. cbn; intros; lia.
  - apply Forall_forall. intros e He. pose proof (proj1 (Forall_forall _ _) HC1 e He). pose proof (proj1 (Forall_forall _ _) HC2 e He). cbn in *. lia.
  - eapply Forall_impl; [|exact HA]. cbn; intros; lia.
Qed.
Lemma before_last A R off e : below off (A ++ [e]) -> above off R -> u_before off ((A ++ [e]) ++ R) = Some e.
Proof.
  intros HA HR. unfold u_before. rewrite filter_app, (filter_all _ (A ++ [e])), (filter_none _ R), app_nil_r.
  - apply u_last_snoc.
  - eapply Forall_impl; [|exact HR]. cbn; intros; lia.
  - eapply Forall_impl; [|exact HA]. cbn; intros; lia.
Qed.
Lemma before_none R off : above off R -> u_before off R = None.
Proof.
  intros HR. unfold u_before. rewrite (filter_none _ R); [reflexivity|].
  eapply Forall_impl; [|exact HR]. cbn; intros; lia.
Qed.
(** Removing all the keys of the middle part. *)
Lemma remove_part C : forall A B lo ps, chain lo ps C -> below lo A -> above (endof lo C) B ->
  fold_left (fun m k => u_remove k m) (map fst C) (A ++ C ++ B) = A ++ B.
Proof.
  induction C as [|[o [n s]] C IH]; intros A B lo ps H HA HB; [reflexivity|].
  cbn [chain] in H. destruct H as (? & ? & _ & H). cbn [map fst fold_left]. cbn [endof] in HB.
  pose proof (endof_ge _ _ _ H).
  change (A ++ ((o, (n, s)) :: C) ++ B) with (A ++ (o, (n, s)) :: (C ++ B)). rewrite remove_mid.
  - apply (IH A B (o + n) (Some s)); auto. eapply below_weaken; [exact HA|lia].
  - eapply below_weaken; [exact HA|lia].
  - apply Forall_app. split; [|eapply above_weaken; [exact HB|lia]].
    apply chain_above in H. eapply above_weaken; [exact H|lia].
Qed.
Lemma chain_in_mid l1 e l2 lo ps : chain lo ps (l1 ++ e :: l2) -> chain lo ps (l1 ++ l2).
Proof.
  rewrite !chain_app. intros [H1 H2]. split; [exact H1|]. destruct e as [o [n s]]. cbn [chain] in H2.
  destruct H2 as (? & ? & ? & H2). eapply chain_lower; [exact H2|lia].
Qed.

(** ** mark_acked *)
Lemma acked_tail_spec A C B off len lo ps :
  chain lo ps (A ++ C ++ B) -> below off A -> above off C -> below (off + len) C -> above (off + len) B -> 0 < len ->
  exists B2 en2, acked_tail off len (A ++ C ++ B) = (A ++ B2, en2 - off, en2) /\ off + len <= en2 /\
    chain en2 (Some true) B2 /\
    (forall b, off + len <= b -> at_ (C ++ B) b = if b <? en2 then Some true else at_ B2 b) /\
    (C = [] -> off + len < endof lo A -> B2 = B /\ en2 = off + len).
Proof.
  intros H HA HC1 HC2 HB Hl. set (en := off + len) in *.
  assert (HAc := H). apply chain_app in HAc. destruct HAc as [HA0 HCB].
  assert (HCB' := HCB). apply chain_app in HCB'. destruct HCB' as [HC HB0].
  unfold acked_tail. fold en. rewrite range3 by assumption.
  assert (Rm : forall C' B', chain (endof lo A) (stof ps A) C' -> above off C' -> above (endof (endof lo A) C') B' ->
     fold_left (fun m k => u_remove k m) (map fst C') (A ++ C' ++ B') = A ++ B').
  { intros C' B' X1 X2 X3. destruct C' as [|[o [n s]] C']; [reflexivity|].
    apply remove_part with (lo := o) (ps := None).
    - cbn [chain] in *. destruct X1 as (? & ? & ? & ?). splits; auto; try lia; discriminate.
    - inv X2. cbn in *. eapply below_weaken; [exact HA|lia].
    - exact X3. }
  assert (None_at : above (en + 1) B -> 
    exists B2 en2, match u_get en (A ++ C ++ B) with
  | Some (extra, s) =>
      let '(m1, len1, en1) := if s then (u_remove en (A ++ C ++ B), len + extra, en + extra) else (A ++ C ++ B, len, en) in
      (fold_left (fun m k => u_remove k m) (map fst C) m1, len1, en1)
  | None =>
      match u_last C with
      | None => (A ++ C ++ B, len, en)
      | Some (o, (n, s)) =>
          let m1 := u_remove o (A ++ C ++ B) in
          let remainder := o + n - en in
          let '(m2, len2, en2) :=
            if 0 <? remainder then
              if s then (m1, len + remainder, en + remainder) else (u_insert en (remainder, false) m1, len, en)
            else (m1, len, en) in
          (fold_left (fun m k => u_remove k m) (removelast (map fst C)) m2, len2, en2)
      end
  end = (A ++ B2, en2 - off, en2) /\ en <= en2 /\
    chain en2 (Some true) B2 /\
    (forall b, en <= b -> at_ (C ++ B) b = if b <? en2 then Some true else at_ B2 b) /\
    (C = [] -> en < endof lo A -> B2 = B /\ en2 = en)).
  { intros HB2.
  rewrite get_none.
  2:{ apply Forall_app; split; [apply below_ne; eapply below_weaken; [exact HA|lia]|
      apply Forall_app; split; [apply below_ne; exact HC2|apply above_ne; exact HB2]]. }
  destruct (snoc_cases C) as [->|(C' & [o [n s]] & ->)].
  all: try (cbn [u_last app map] in *; exists B, en; splits; auto; try lia; [tup| |];
    [eapply chain_above' with (1 := HB0); auto; intros ? ? ? ? -> ->; inv HB2; cbn in *; lia|
     intros b Hb; destruct (b <? en) eqn:E; [lia|]; reflexivity]).
  all: rewrite u_last_snoc, map_app; cbn [map fst]; rewrite removelast_snoc.
  all: rewrite chain_app in HC; destruct HC as [HC' HCo]; cbn [chain] in HCo; destruct HCo as (Hn & Hoe & Hos & _).
  all: rewrite endof_app in HB0; cbn [endof] in HB0; rewrite stof_app in HB0; cbn [stof] in HB0.
  all: assert (Ho : off <= o < en) by (apply Forall_app in HC1; apply Forall_app in HC2; destruct HC1 as [_ X]; destruct HC2 as [_ Y]; inv X; inv Y; cbn in *; lia).
  all: assert (HAC' : below o (A ++ C')) by (apply Forall_app; split; [eapply below_weaken; [exact HA|lia]|eapply chain_keys_lt; [exact HC'|exact Hoe]]).
  all: assert (ERm : u_remove o (A ++ (C' ++ [(o, (n, s))]) ++ B) = A ++ C' ++ B) by
    (rewrite <- !app_assoc; cbn [app]; rewrite app_assoc, remove_mid; [rewrite <- app_assoc; reflexivity|exact HAC'|eapply above_weaken; [exact HB2|lia]]).
  all: rewrite ERm; clear ERm.
  all: assert (HC1' : above off C') by (apply Forall_app in HC1; tauto).
  all: assert (HC2' : below en C') by (apply Forall_app in HC2; tauto).
  all: pose proof (endof_ge _ _ _ HC').
  all: assert (HBe := chain_above _ _ _ HB0).
  all: destruct (0 <? o + n - en) eqn:Er; [destruct s|].
  all: try (rewrite Rm; auto; [|eapply above_weaken; [exact HBe|lia]]).
  all: try (rewrite app_assoc; rewrite insert_mid; [rewrite <- app_assoc; rewrite Rm; auto; [|constructor; [cbn; lia|eapply above_weaken; [exact HBe|lia]]]|
      apply Forall_app; split; [eapply below_weaken; [exact HA|lia]|exact HC2']|exact HB2]).
  all: try (exists B, (en + (o + n - en)); splits; [tup|lia|
     replace (en + (o + n - en)) with (o + n) by lia; exact HB0| |intros X; destruct C'; discriminate];
     intros b Hb; rewrite !at_app; rewrite (at_high C' _ _ b HC') by lia; cbn [at_];
     destruct (b <? en + (o + n - en)) eqn:E;
     [replace ((o <=? b) && (b <? o + n)) with true by lia; reflexivity|
      replace ((o <=? b) && (b <? o + n)) with false by lia; reflexivity]).
  all: try (exists ((en, (o + n - en, false)) :: B), en; splits; [tup|lia|
     cbn [chain]; splits; try lia; [discriminate|]; replace (en + (o + n - en)) with (o + n) by lia; exact HB0| |intros X; destruct C'; discriminate];
     intros b Hb; rewrite !at_app; rewrite (at_high C' _ _ b HC') by lia; cbn [at_];
     destruct (b <? en) eqn:E; [lia|]; destruct (b <? o + n) eqn:E2;
     [replace ((o <=? b) && true) with true by lia; replace ((en <=? b) && (b <? en + (o + n - en))) with true by lia; reflexivity|
      rewrite andb_false_r; replace ((en <=? b) && (b <? en + (o + n - en))) with false by lia; reflexivity]).
  all: exists B, en; splits; [tup|lia|
     eapply chain_above' with (1 := HB0); [eapply above_weaken; [exact HB2|lia]|auto|]; intros ? ? ? ? -> ->; inv HB2; cbn in *; lia| |intros X; destruct C'; discriminate].
  all: intros b Hb; rewrite !at_app; rewrite (at_high C' _ _ b HC') by lia; cbn [at_]; destruct (b <? en) eqn:E; [lia|];
     replace ((o <=? b) && (b <? o + n)) with false by lia; reflexivity.
  }
  destruct B as [|[ko [kn ks]] B']; [apply None_at; constructor|].
  destruct (N.eq_dec ko en) as [->|Hne].
  2:{ apply None_at. inv HB. cbn in *. constructor; [cbn; lia|]. cbn [chain] in HB0. destruct HB0 as (? & ? & ? & HB1).
      apply chain_above in HB1. eapply Forall_impl; [|exact HB1]. cbn; intros; lia. }
  { clear None_at.
    replace (u_get en (A ++ C ++ (en, (kn, ks)) :: B')) with (Some (kn, ks)).
    2:{ rewrite app_assoc. rewrite get_mid; [reflexivity|]. apply Forall_app. split; [|exact HC2]. eapply below_weaken; [exact HA|lia]. }
    cbn [chain] in HB0. destruct HB0 as (Hkn & Hke & Hks & HB1).
    destruct ks.
    - exists B', (en + kn). replace (u_remove en (A ++ C ++ (en, (kn, true)) :: B')) with (A ++ C ++ B').
      2:{ rewrite !app_assoc. rewrite remove_mid; [reflexivity| |].
          - apply Forall_app. split; [eapply below_weaken; [exact HA|lia]|exact HC2].
          - apply chain_above in HB1. eapply above_weaken; [exact HB1|lia]. }
      rewrite Rm; auto.
      2:{ apply chain_above in HB1. eapply above_weaken; [exact HB1|]. lia. }
      splits.
      + tup.
      + lia.
      + exact HB1.
      + intros b Hb. rewrite at_app. rewrite (at_high C _ _ b HC) by lia. cbn [at_].
        destruct (b <? en + kn) eqn:E.
        * destruct (en <=? b) eqn:E2; [reflexivity|lia].
        * rewrite andb_false_r. reflexivity.
      + intros -> Hx. cbn [endof] in *. lia.
    - exists ((en, (kn, false)) :: B'), en. rewrite Rm; auto.
      2:{ constructor; [cbn; lia|]. apply chain_above in HB1. eapply above_weaken; [exact HB1|lia]. }
      splits.
      + tup.
      + lia.
      + cbn [chain]. splits; auto; try lia. discriminate.
      + intros b Hb. rewrite at_app. rewrite (at_high C _ _ b HC) by lia. destruct (b <? en) eqn:E; [lia|]. reflexivity.
      + intros _ _. split; reflexivity. }
Qed.

Definition rt_wf (t : rt) : Prop :=
  chain (rt_acked t) (Some true) (rt_used t) /\
  (forall x, rt_cache t = Some x -> x = unmarked_from (rt_acked t) (rt_used t)).

Lemma coalesce_spec l : forall a lo ps, chain lo ps l -> lo < a ->
  let '(a', l') := coalesce a l in
  a <= a' /\ chain a' (Some true) l' /\ (forall b, a <= b -> at_ l b = if b <? a' then Some true else at_ l' b).
Proof.
  induction l as [|[o [n s]] l IH]; intros a lo ps H Ha; cbn [coalesce].
  { splits; [lia|constructor|]. intros b Hb. destruct (b <? a) eqn:E; [lia|reflexivity]. }
  cbn [chain] in H. destruct H as (Hn & Ho & Hs & H).
  destruct (o <? a) eqn:E1.
  - destruct (0 <? o + n - a) eqn:E2.
    + destruct s.
      * splits; [lia| |].
        -- replace (a + (o + n - a)) with (o + n) by lia. exact H.
        -- intros b Hb. cbn [at_]. replace (o <=? b) with true by lia. cbn [andb].
           replace (a + (o + n - a)) with (o + n) by lia. destruct (b <? o + n) eqn:E; reflexivity.
      * replace (u_insert a (o + n - a, false) l) with ((a, (o + n - a, false)) :: l).
        2:{ symmetry. apply (insert_mid a _ [] l); [constructor|]. apply chain_above in H. eapply above_weaken; [exact H|lia]. }
        splits; [lia| |].
        -- cbn [chain]. splits; try lia; [discriminate|]. replace (a + (o + n - a)) with (o + n) by lia. exact H.
        -- intros b Hb. cbn [at_]. replace (o <=? b) with true by lia. replace (a <=? b) with true by lia.
           replace (a + (o + n - a)) with (o + n) by lia. cbn [andb]. destruct (b <? a) eqn:E; [lia|]. reflexivity.
    + destruct (N.eq_dec (o + n) a) as [Hx|Hx].
      * (* the next entry may start exactly at a *)
        destruct l as [|[o2 [n2 s2]] l2].
        { cbn [coalesce]. splits; [lia|constructor|]. intros b Hb. cbn [at_].
          replace ((o <=? b) && (b <? o + n)) with false by lia. destruct (b <? a) eqn:E; [lia|reflexivity]. }
        cbn [chain] in H. destruct H as (Hn2 & Ho2 & Hs2 & H2).
        cbn [coalesce]. destruct (o2 <? a) eqn:E3; [lia|]. destruct (o2 =? a) eqn:E4.
        -- destruct s2.
           ++ splits; [lia| |].
              ** replace (a + n2) with (o2 + n2) by lia. exact H2.
              ** intros b Hb. cbn [at_]. replace ((o <=? b) && (b <? o + n)) with false by lia.
                 replace (a + n2) with (o2 + n2) by lia. replace (o2 <=? b) with true by lia. cbn [andb]. destruct (b <? o2 + n2); reflexivity.
           ++ splits; [lia| |].
              ** cbn [chain]. splits; try lia; [discriminate|exact H2].
              ** intros b Hb. cbn [at_]. replace ((o <=? b) && (b <? o + n)) with false by lia. destruct (b <? a) eqn:E; [lia|reflexivity].
        -- splits; [lia| |].
           ++ cbn [chain]. splits; try lia. exact H2.
           ++ intros b Hb. cbn [at_]. replace ((o <=? b) && (b <? o + n)) with false by lia. destruct (b <? a) eqn:E; [lia|reflexivity].
      * specialize (IH a (o + n) (Some s) H ltac:(lia)). destruct (coalesce a l) as [a' l'].
        destruct IH as (I1 & I2 & I3). splits; auto. intros b Hb. cbn [at_].
        replace ((o <=? b) && (b <? o + n)) with false by lia. apply I3. exact Hb.
  - destruct (o =? a) eqn:E2.
    + destruct s.
      * splits; [lia| |].
        -- replace (a + n) with (o + n) by lia. exact H.
        -- intros b Hb. cbn [at_]. replace (o <=? b) with true by lia. replace (a + n) with (o + n) by lia. cbn [andb]. destruct (b <? o + n); reflexivity.
      * splits; [lia| |].
        -- cbn [chain]. splits; try lia; [discriminate|exact H].
        -- intros b Hb. destruct (b <? a) eqn:E; [lia|reflexivity].
    + splits; [lia| |].
      * cbn [chain]. splits; try lia. exact H.
      * intros b Hb. destruct (b <? a) eqn:E; [lia|reflexivity].
Qed.

Lemma state_at t b : state_of t b = if b <? rt_acked t then Some true else at_ (rt_used t) b.
Proof.
  unfold state_of. destruct (b <? rt_acked t); [reflexivity|].
  induction (rt_used t) as [|[o [n s]] l IH]; cbn [find at_ fst snd]; [reflexivity|].
  destruct (_ && _); [reflexivity|exact IH].
Qed.

Lemma mark_acked_spec off0 len0 t : rt_wf t ->
  rt_wf (rt_mark_acked off0 len0 t) /\
  forall b, state_of (rt_mark_acked off0 len0 t) b = if coversb off0 len0 b then Some true else state_of t b.
Proof.
  intros [H Hc]. unfold rt_mark_acked.
  set (off := N.max (rt_acked t) off0). set (len := off0 + len0 - off).
  assert (Hcov : forall b, rt_acked t <= b -> coversb off0 len0 b = (off <=? b) && (b <? off + len)).
  { intros b Hb. unfold coversb, len. destruct (off0 <=? b) eqn:E1, (b <? off0 + len0) eqn:E2, (off <=? b) eqn:E3, (b <? off + (off0 + len0 - off)) eqn:E4; subst off; cbn; lia. }
  assert (Hlow : forall b, b < rt_acked t -> coversb off0 len0 b = false \/ state_of t b = Some true).
  { intros b Hb. right. rewrite state_at. replace (b <? rt_acked t) with true by lia. reflexivity. }
  assert (Hoff : rt_acked t <= off) by (subst off; lia).
  assert (Lift : forall a' l', rt_acked t <= a' -> chain a' (Some true) l' ->
     (forall b, rt_acked t <= b -> (if b <? a' then Some true else at_ l' b) = if (off <=? b) && (b <? off + len) then Some true else at_ (rt_used t) b) ->
     rt_wf (mkRt a' l' None) /\ forall b, state_of (mkRt a' l' None) b = if coversb off0 len0 b then Some true else state_of t b).
  { intros a' l' L1 L2 L3. split.
    - split; [exact L2|]. cbn. discriminate.
    - intros b. rewrite !state_at. cbn [rt_acked rt_used]. destruct (N.lt_ge_cases b (rt_acked t)) as [Hb|Hb].
      + replace (b <? a') with true by lia. replace (b <? rt_acked t) with true by lia. destruct (coversb _ _ _); reflexivity.
      + rewrite L3 by exact Hb. rewrite Hcov by exact Hb. replace (b <? rt_acked t) with false by lia. reflexivity. }
  destruct (len =? 0) eqn:E0.
  { split; [split; auto|]. intros b. destruct (N.lt_ge_cases b (rt_acked t)) as [Hb|Hb].
    - destruct (Hlow b Hb) as [-> | ->]; [reflexivity|]. destruct (coversb _ _ _); reflexivity.
    - rewrite Hcov by exact Hb. replace ((off <=? b) && (b <? off + len)) with false by lia. reflexivity. }
  destruct (off =? rt_acked t) eqn:E1.
  { pose proof (coalesce_spec (rt_used t) (rt_acked t + len) (rt_acked t) (Some true) H ltac:(lia)) as S.
    destruct (coalesce (rt_acked t + len) (rt_used t)) as [a l]. destruct S as (S1 & S2 & S3).
    apply Lift; [lia|exact S2|]. intros b Hb.
    destruct (N.lt_ge_cases b (rt_acked t + len)) as [Hb2|Hb2].
    - replace (b <? a) with true by lia. replace ((off <=? b) && (b <? off + len)) with true by lia. reflexivity.
    - replace ((off <=? b) && (b <? off + len)) with false by lia. symmetry. apply S3. exact Hb2. }
  destruct (split3 (rt_used t) _ _ off (off + len) H ltac:(lia)) as (A & C & B & EU & HA & HC1 & HC2 & HB).
  rewrite EU in *.
  destruct (acked_tail_spec A C B off len _ _ H HA HC1 HC2 HB ltac:(lia)) as (B2 & en2 & -> & Hen2 & HB2 & Hat & Hsmall).
  assert (HAc := H). rewrite chain_app in HAc. destruct HAc as [HA0 HCB].
  assert (HB2a := chain_above _ _ _ HB2).
  (* bytes of the middle part *)
  assert (HCBlow : forall b, b < off -> at_ (C ++ B) b = None).
  { intros b Hb. apply at_above. apply Forall_app. split; [eapply above_weaken; [exact HC1|lia]|eapply above_weaken; [exact HB|lia]]. }
  assert (HB2low : forall b, b < en2 -> at_ B2 b = None) by (intros b Hb; eapply at_low; [exact HB2|exact Hb]).
  destruct (snoc_cases A) as [->|(A' & [po [pn ps]] & ->)].
  - cbn [app] in *. rewrite before_none by (eapply above_weaken; [exact HB2a|lia]).
    assert (EI : u_insert off (en2 - off, true) B2 = (off, (en2 - off, true)) :: B2).
    { apply (insert_mid off _ [] B2); [constructor|]. eapply above_weaken; [exact HB2a|lia]. }
    rewrite EI. apply Lift; [lia| |].
    + cbn [chain]. splits; try lia. replace (off + (en2 - off)) with en2 by lia. exact HB2.
    + intros b Hb. replace (b <? rt_acked t) with false by lia. cbn [at_]. replace (off + (en2 - off)) with en2 by lia.
      destruct (N.lt_ge_cases b off) as [X|X].
      * replace (off <=? b) with false by lia. cbn [andb]. rewrite HCBlow, HB2low by lia. reflexivity.
      * replace (off <=? b) with true by lia. cbn [andb]. destruct (b <? off + len) eqn:E.
        -- replace (b <? en2) with true by lia. reflexivity.
        -- rewrite Hat by lia. destruct (b <? en2); reflexivity.
  - rewrite before_last; [|exact HA|eapply above_weaken; [exact HB2a|lia]].
    rewrite chain_app in HA0. destruct HA0 as [HA1 HA2]. cbn [chain] in HA2. destruct HA2 as (Hpn & Hpo & Hps & _).
    rewrite endof_app in *. cbn [endof] in *. rewrite stof_app in HCB. cbn [stof] in HCB.
    assert (Hpoff : po < off) by (apply Forall_app in HA; destruct HA as [_ X]; inv X; cbn in *; lia).
    assert (HA'k : below po A') by (eapply chain_keys_lt; [exact HA1|exact Hpo]).
    assert (HCBa := chain_above _ _ _ HCB).
    assert (Hbig : off + len < po + pn -> C = [] /\ B2 = B /\ en2 = off + len).
    { intros Hx. assert (C = []) as EC.
      { destruct C as [|e C]; [reflexivity|]. inv HC2. apply Forall_app in HCBa. destruct HCBa as [X _]. inv X. cbn in *. lia. }
      split; [exact EC|]. exact (Hsmall EC Hx). }
    destruct (off <=? po + pn) eqn:E2; [destruct ps|].
    + (* merge with the preceding acked range *)
      rewrite <- !app_assoc. cbn [app]. rewrite insert_at by exact HA'k.
      apply Lift; [lia| |].
      * rewrite chain_app. split; [exact HA1|]. cbn [chain]. splits; auto; try lia.
        replace (po + (N.max (po + pn) en2 - po)) with (N.max (po + pn) en2) by lia.
        destruct (N.lt_ge_cases (off + len) (po + pn)) as [Hx|Hx].
        -- destruct (Hbig Hx) as (-> & -> & ->). replace (N.max (po + pn) (off + len)) with (po + pn) by lia. exact HCB.
        -- destruct (N.lt_ge_cases en2 (po + pn)) as [Hy|Hy]; [lia|]. replace (N.max (po + pn) en2) with en2 by lia. exact HB2.
      * intros b Hb. replace (b <? rt_acked t) with false by lia. rewrite !at_app.
        cbn [at_]. replace (po + (N.max (po + pn) en2 - po)) with (N.max (po + pn) en2) by lia.
        destruct (N.lt_ge_cases b po) as [X|X].
        { replace (po <=? b) with false by lia. replace (off <=? b) with false by lia. cbn [andb].
          rewrite HB2low by lia. rewrite <- at_app. rewrite HCBlow by lia. destruct (at_ A' b); reflexivity. }
        rewrite (at_high A' _ _ b HA1) by lia. replace (po <=? b) with true by lia. cbn [andb].
        destruct (b <? po + pn) eqn:E.
        { replace (b <? N.max (po + pn) en2) with true by lia. destruct (_ && _); reflexivity. }
        destruct (b <? off + len) eqn:E3.
        { replace (b <? N.max (po + pn) en2) with true by lia. replace (off <=? b) with true by lia. reflexivity. }
        replace ((off <=? b) && false) with false by (rewrite andb_false_r; reflexivity).
        rewrite <- at_app. rewrite Hat by lia. replace (b <? N.max (po + pn) en2) with (b <? en2) by (destruct (b <? en2) eqn:?, (b <? N.max (po + pn) en2) eqn:?; lia).
        reflexivity.
    + (* cut the preceding sent range *)
      rewrite <- !app_assoc. cbn [app]. rewrite insert_at by exact HA'k.
      destruct (en2 <? po + pn) eqn:E3.
      * destruct (Hbig ltac:(lia)) as (EC & -> & ->). subst C. cbn [app] in *.
        assert (HBa2 := chain_above _ _ _ HCB).
        replace (u_insert (off + len) (po + pn - (off + len), false) (A' ++ (po, (off - po, false)) :: B))
          with (A' ++ (po, (off - po, false)) :: (off + len, (po + pn - (off + len), false)) :: B).
        2:{ symmetry. change (A' ++ (po, (off - po, false)) :: B) with (A' ++ [(po, (off - po, false))] ++ B). rewrite app_assoc.
            rewrite insert_mid; [rewrite <- app_assoc; reflexivity| |eapply above_weaken; [exact HBa2|lia]].
            apply Forall_app. split; [eapply below_weaken; [exact HA'k|lia]|constructor; [cbn; lia|constructor]]. }
        assert (EI : forall B3, above (off + len) B3 -> u_insert off (off + len - off, true) (A' ++ (po, (off - po, false)) :: B3) = A' ++ (po, (off - po, false)) :: (off, (len, true)) :: B3).
        { intros B3 HB3. change (A' ++ (po, (off - po, false)) :: B3) with (A' ++ [(po, (off - po, false))] ++ B3). rewrite app_assoc.
          rewrite insert_mid; [rewrite <- app_assoc; cbn [app]; repeat f_equal; lia| |eapply above_weaken; [exact HB3|lia]].
          apply Forall_app. split; [eapply below_weaken; [exact HA'k|lia]|constructor; [cbn; lia|constructor]]. }
        rewrite EI by (constructor; [cbn; lia|exact HB2a]).
        apply Lift; [lia| |].
        -- rewrite chain_app. split; [exact HA1|]. cbn [chain]. splits; auto; try lia; try discriminate.
           replace (off + len + (po + pn - (off + len))) with (po + pn) by lia. exact HCB.
        -- intros b Hb. replace (b <? rt_acked t) with false by lia. rewrite !at_app. cbn [at_].
           destruct (N.lt_ge_cases b po) as [X|X].
           { replace (po <=? b) with false by lia. replace (off <=? b) with false by lia. replace (off + len <=? b) with false by lia. cbn [andb]. destruct (at_ A' b); reflexivity. }
           rewrite (at_high A' _ _ b HA1) by lia. replace (po <=? b) with true by lia. cbn [andb].
           destruct (b <? off) eqn:E4.
           { replace (b <? po + (off - po)) with true by lia. replace (b <? po + pn) with true by lia. replace (off <=? b) with false by lia. reflexivity. }
           replace (b <? po + (off - po)) with false by lia. replace (off <=? b) with true by lia. cbn [andb].
           destruct (b <? off + len) eqn:E5; [reflexivity|]. replace (off + len <=? b) with true by lia. cbn [andb].
           replace (off + len + (po + pn - (off + len))) with (po + pn) by lia. destruct (b <? po + pn); reflexivity.
      * assert (EI : u_insert off (en2 - off, true) (A' ++ (po, (off - po, false)) :: B2) = A' ++ (po, (off - po, false)) :: (off, (en2 - off, true)) :: B2).
        { change (A' ++ (po, (off - po, false)) :: B2) with (A' ++ [(po, (off - po, false))] ++ B2). rewrite app_assoc.
          rewrite insert_mid; [rewrite <- app_assoc; reflexivity| |eapply above_weaken; [exact HB2a|lia]].
          apply Forall_app. split; [eapply below_weaken; [exact HA'k|lia]|constructor; [cbn; lia|constructor]]. }
        rewrite EI. apply Lift; [lia| |].
        -- rewrite chain_app. split; [exact HA1|]. cbn [chain]. splits; auto; try lia; try discriminate.
           replace (off + (en2 - off)) with en2 by lia. exact HB2.
        -- intros b Hb. replace (b <? rt_acked t) with false by lia. rewrite !at_app. cbn [at_].
           replace (off + (en2 - off)) with en2 by lia. replace (po + (off - po)) with off by lia.
           destruct (N.lt_ge_cases b po) as [X|X].
           { replace (po <=? b) with false by lia. replace (off <=? b) with false by lia. cbn [andb].
             rewrite HB2low by lia. rewrite <- at_app. rewrite HCBlow by lia. destruct (at_ A' b); reflexivity. }
           rewrite (at_high A' _ _ b HA1) by lia. replace (po <=? b) with true by lia. cbn [andb].
           destruct (b <? off) eqn:E4.
           { replace (b <? po + pn) with true by lia. replace (off <=? b) with false by lia. reflexivity. }
           replace (off <=? b) with true by lia. cbn [andb].
           destruct (b <? off + len) eqn:E5.
           { replace (b <? en2) with true by lia. reflexivity. }
           destruct (b <? po + pn) eqn:E6.
           { destruct (N.lt_ge_cases (off + len) (po + pn)) as [Y|Y]; [destruct (Hbig Y) as (_ & _ & ?); lia|lia]. }
           rewrite <- at_app, Hat by lia. destruct (b <? en2); reflexivity.
    + (* separate from the preceding range *)
      rewrite <- !app_assoc. cbn [app].
      assert (EI : u_insert off (en2 - off, true) (A' ++ (po, (pn, ps)) :: B2) = A' ++ (po, (pn, ps)) :: (off, (en2 - off, true)) :: B2).
      { change (A' ++ (po, (pn, ps)) :: B2) with (A' ++ [(po, (pn, ps))] ++ B2). rewrite app_assoc.
        rewrite insert_mid; [rewrite <- app_assoc; reflexivity| |eapply above_weaken; [exact HB2a|lia]].
        apply Forall_app. split; [eapply below_weaken; [exact HA'k|lia]|constructor; [cbn; lia|constructor]]. }
      rewrite EI. apply Lift; [lia| |].
      * rewrite chain_app. split; [exact HA1|]. cbn [chain]. splits; auto; try lia.
        replace (off + (en2 - off)) with en2 by lia. exact HB2.
      * intros b Hb. replace (b <? rt_acked t) with false by lia. rewrite !at_app. cbn [at_].
        replace (off + (en2 - off)) with en2 by lia.
        destruct (N.lt_ge_cases b off) as [X|X].
        { replace (off <=? b) with false by lia. cbn [andb]. rewrite HB2low by lia. rewrite <- (at_app C B), HCBlow by lia. destruct (at_ A' b); [reflexivity|]. destruct (_ && _); reflexivity. }
        rewrite (at_high A' _ _ b HA1) by lia. replace (off <=? b) with true by lia. cbn [andb].
        replace (b <? po + pn) with false by lia. rewrite andb_false_r.
        destruct (b <? off + len) eqn:E5.
        { replace (b <? en2) with true by lia. reflexivity. }
        rewrite <- at_app, Hat by lia. destruct (b <? en2); reflexivity.
Qed.

(** ** mark_sent *)
Definition sent_over (s : bstate) : bstate := match s with Some true => Some true | _ => Some false end.

Lemma sent_loop_spec C : forall P stale off len lo ps B T,
  T = off + len -> 0 < len ->
  chain lo ps (P ++ stale ++ C ++ B) -> below off P -> endof lo P <= off -> (endof lo P = off -> stof ps P <> Some false) ->
  (stale = [] \/ exists x, stale = [(off, (x, false))] /\ off + x <= T) ->
  above off C -> below T C -> chain T (Some false) B ->
  lo <= off ->
  exists m', sent_loop (map fst C) off len (P ++ stale ++ C ++ B) = Some m' /\ chain lo ps m' /\
    forall b, at_ m' b = if (off <=? b) && (b <? T) then sent_over (at_ (P ++ stale ++ C ++ B) b) else at_ (P ++ stale ++ C ++ B) b.
Proof.
  induction C as [|[o [n s]] C IH]; intros P stale off len lo ps B T HT Hl H HP HPe HPs Hst HCa HCb HB Hlo.
  - cbn [map app sent_loop]. rewrite chain_app in H. destruct H as [HcP H].
    assert (HBa := chain_above _ _ _ HB).
    assert (EI : u_insert off (len, false) (P ++ stale ++ B) = P ++ (off, (len, false)) :: B).
    { destruct Hst as [->|(x & -> & Hx)]; cbn [app].
      - apply insert_mid; [exact HP|]. eapply above_weaken; [exact HBa|lia].
      - apply insert_at. exact HP. }
    exists (P ++ (off, (len, false)) :: B). rewrite EI. splits; [reflexivity| |].
    + rewrite chain_app. split; [exact HcP|]. cbn [chain]. splits; auto. rewrite <- HT. exact HB.
    + intros b. rewrite !at_app. cbn [at_]. rewrite <- HT.
      destruct (N.lt_ge_cases b off) as [X|X].
      * replace (off <=? b) with false by lia. cbn [andb].
        destruct Hst as [->|(x & -> & Hx)]; cbn [at_]; [reflexivity|]. replace (off <=? b) with false by lia. reflexivity.
      * replace (off <=? b) with true by lia. cbn [andb]. rewrite (at_high P _ _ b HcP) by lia.
        destruct (b <? T) eqn:E.
        -- rewrite (at_low B _ _ b HB) by lia. destruct Hst as [->|(x & -> & Hx)]; cbn [at_]; [reflexivity|].
           destruct (_ && _); reflexivity.
        -- destruct Hst as [->|(x & -> & Hx)]; cbn [at_]; [reflexivity|]. replace (b <? off + x) with false by lia. rewrite andb_false_r. reflexivity.
  - cbn [map fst sent_loop].
    assert (Ho : off <= o < T) by (inv HCa; inv HCb; cbn in *; lia).
    assert (H' := H). rewrite !chain_app in H'. destruct H' as (HcP & HcS & (HcC & HcB)). cbn [chain] in HcC. destruct HcC as (Hn & Hoe & Hos & HcC).
    cbn [endof stof] in HcB.
    assert (HbP : below o (P ++ stale)).
    { apply Forall_app. split; [eapply below_weaken; [exact HP|lia]|].
      eapply chain_keys_lt; [exact HcS|exact Hoe]. }
    assert (Hstx : stale = [] \/ off < o).
    { destruct Hst as [->|(x & -> & Hx)]; [auto|]. right. cbn [chain endof] in *. lia. }
    assert (HaR : above (o + 1) (C ++ B)).
    { apply Forall_app. pose proof (endof_ge _ _ _ HcC). split; [apply chain_above in HcC; eapply above_weaken; [exact HcC|lia]|apply chain_above in HcB; eapply above_weaken; [exact HcB|lia]]. }
    replace (u_get o (P ++ stale ++ ((o, (n, s)) :: C) ++ B)) with (Some (n, s)).
    2:{ symmetry. rewrite app_assoc. cbn [app]. apply get_mid. exact HbP. }
    assert (HCa' : above (o + n) C) by (apply chain_above in HcC; exact HcC).
    destruct s.
    + (* an acked range *)
      set (chunk := o - off).
      set (pre := if 0 <? chunk then [(off, (chunk, false))] else []).
      assert (EM : (if 0 <? chunk then u_insert off (chunk, false) (P ++ stale ++ ((o, (n, true)) :: C) ++ B) else P ++ stale ++ ((o, (n, true)) :: C) ++ B)
                   = P ++ pre ++ (o, (n, true)) :: C ++ B).
      { unfold pre. destruct (0 <? chunk) eqn:Ec.
        - destruct Hst as [->|(x & -> & Hx)]; cbn [app].
          + rewrite insert_mid; [reflexivity|exact HP|]. constructor; [cbn; subst chunk; lia|eapply above_weaken; [exact HaR|lia]].
          + rewrite insert_at by exact HP. reflexivity.
        - destruct Hstx as [->|X]; [reflexivity|subst chunk; lia]. }
      rewrite EM.
      assert (HcM : chain lo ps (P ++ pre ++ (o, (n, true)) :: C ++ B)).
      { rewrite chain_app. split; [exact HcP|]. unfold pre. destruct (0 <? chunk) eqn:Ec.
        - cbn [app chain]. splits; auto; try (subst chunk; lia); try discriminate. rewrite chain_app. auto.
        - cbn [app chain]. assert (o = off) by (subst chunk; lia).
          assert (Es : stale = []) by (destruct Hstx as [->|X]; [reflexivity|lia]).
          rewrite Es in *. cbn [endof stof] in *. splits; auto; try lia. rewrite chain_app. auto. }
      assert (Hat1 : forall b, at_ (P ++ pre ++ (o, (n, true)) :: C ++ B) b =
         if (off <=? b) && (b <? N.min T (o + n)) then sent_over (at_ (P ++ stale ++ ((o, (n, true)) :: C) ++ B) b) else at_ (P ++ stale ++ ((o, (n, true)) :: C) ++ B) b).
      { intros b. change (((o, (n, true)) :: C) ++ B) with ((o, (n, true)) :: C ++ B). rewrite !at_app. cbn [at_].
        assert (Hpre : at_ pre b = if (off <=? b) && (b <? o) then Some false else None).
        { unfold pre. destruct (0 <? chunk) eqn:Ec; cbn [at_].
          - replace (off + chunk) with o by (subst chunk; lia). reflexivity.
          - destruct (off <=? b) eqn:?, (b <? o) eqn:?; cbn; try reflexivity. subst chunk; lia. }
        assert (Hstale : at_ stale b = None \/ (at_ stale b = Some false /\ off <= b < o)).
        { destruct Hst as [->|(x & -> & Hx)]; cbn [at_]; [auto|]. cbn [endof] in Hoe.
          destruct ((off <=? b) && (b <? off + x)) eqn:E; [right; split; [reflexivity|lia]|auto]. }
        rewrite Hpre.
        destruct (N.lt_ge_cases b off) as [X|X].
        { replace (off <=? b) with false by lia. cbn [andb]. destruct Hstale as [-> | [_ ?]]; [reflexivity|lia]. }
        replace (off <=? b) with true by lia. cbn [andb]. rewrite (at_high P _ _ b HcP) by lia.
        destruct (b <? o) eqn:E1.
        { replace (b <? N.min T (o + n)) with true by lia. replace (o <=? b) with false by lia. cbn [andb].
          rewrite (at_above (C ++ B) b) by (eapply above_weaken; [exact HaR|lia]).
          destruct Hstale as [-> | [-> _]]; reflexivity. }
        destruct Hstale as [-> | [_ ?]]; [|lia]. replace (o <=? b) with true by lia. cbn [andb].
        destruct (b <? o + n) eqn:E2.
        { destruct (b <? N.min T (o + n)); reflexivity. }
        replace (b <? N.min T (o + n)) with false by lia. reflexivity. }
      destruct (len - (chunk + n) =? 0) eqn:E0.
      * exists (P ++ pre ++ (o, (n, true)) :: C ++ B). splits; [reflexivity|exact HcM|].
        intros b. rewrite Hat1. assert (T <= o + n) by (subst chunk; lia). replace (N.min T (o + n)) with T by lia. reflexivity.
      * assert (Hxx : off + (chunk + n) = o + n) by (subst chunk; lia). rewrite Hxx.
        assert (HT2 : T = o + n + (len - (chunk + n))) by (subst chunk; lia).
        replace (P ++ pre ++ (o, (n, true)) :: C ++ B) with ((P ++ pre ++ [(o, (n, true))]) ++ [] ++ C ++ B) in * by (rewrite <- !app_assoc; reflexivity).
        destruct (IH (P ++ pre ++ [(o, (n, true))]) [] (o + n) (len - (chunk + n)) lo ps B T HT2 ltac:(lia)) as (m' & E & Hm & Hat); auto.
        -- apply Forall_app. split; [eapply below_weaken; [exact HP|lia]|]. apply Forall_app. split.
           ++ unfold pre. destruct (0 <? chunk); constructor; [cbn; lia|constructor].
           ++ constructor; [cbn; lia|constructor].
        -- rewrite !endof_app. cbn [endof]. lia.
        -- rewrite !stof_app. cbn [stof]. discriminate.
        -- inv HCb. assumption.
        -- lia.
        -- exists m'. splits; [exact E|exact Hm|]. intros b. rewrite Hat, Hat1.
           replace (N.min T (o + n)) with (o + n) by lia.
           destruct (o + n <=? b) eqn:E1.
           ++ replace (b <? o + n) with false by lia. rewrite andb_false_r. replace (off <=? b) with true by lia. reflexivity.
           ++ cbn [andb]. replace (b <? o + n) with true by lia. replace (b <? T) with true by lia. reflexivity.
    + (* a sent range *)
      set (over := o + n - (off + len)).
      assert (HT2 : T + over = off + (len + over)) by lia.
      assert (Hov : over = 0 \/ (C = [] /\ T + over = o + n)).
      { destruct (N.eq_dec over 0) as [Z|Z]; [auto|]. right. split; [|subst over; lia].
        destruct C as [|e C]; [reflexivity|]. inv HCa'. inv HCb. inv H5. cbn in *. subst over. lia. }
      assert (HB' : chain (T + over) (Some false) B).
      { destruct Hov as [-> | [-> ->]]; [rewrite N.add_0_r; exact HB|]. exact HcB. }
      assert (HCb' : below (T + over) C) by (inv HCb; eapply below_weaken; [eassumption|lia]).
      assert (HCa2 : above off C) by (eapply above_weaken; [exact HCa'|lia]).
      assert (Hb0 : forall b, T <= b < T + over -> at_ (P ++ stale ++ ((o, (n, false)) :: C) ++ B) b = Some false).
      { intros b Hb. destruct Hov as [Z | [EC EO]]; [lia|]. rewrite !at_app. rewrite (at_high P _ _ b HcP) by lia.
        rewrite (at_high stale _ _ b HcS) by lia. cbn [at_]. replace ((o <=? b) && (b <? o + n)) with true by lia. reflexivity. }
      destruct (o =? off) eqn:Eo.
      * assert (o = off) by lia. subst o. assert (Es : stale = []) by (destruct Hstx as [->|X]; [reflexivity|lia]). rewrite Es in *. cbn [app] in *.
        destruct (IH P [(off, (n, false))] off (len + over) lo ps B (T + over) HT2 ltac:(lia) H HP HPe HPs) as (m' & E & Hm & Hat); auto.
        { right. exists n. split; [reflexivity|subst over; lia]. }
        exists m'. splits; [exact E|exact Hm|]. intros b. rewrite Hat.
        change (at_ (P ++ [(off, (n, false))] ++ C ++ B) b) with (at_ (P ++ (off, (n, false)) :: C ++ B) b).
        destruct (off <=? b) eqn:E1; [|reflexivity]. cbn [andb]. destruct (b <? T) eqn:E2.
        -- replace (b <? T + over) with true by lia. reflexivity.
        -- destruct (b <? T + over) eqn:E3; [|reflexivity]. rewrite Hb0 by lia. reflexivity.
      * replace (u_remove o (P ++ stale ++ ((o, (n, false)) :: C) ++ B)) with (P ++ stale ++ C ++ B).
        2:{ symmetry. rewrite !(app_assoc P stale). cbn [app]. apply remove_mid; [exact HbP|exact HaR]. }
        destruct (IH P stale off (len + over) lo ps B (T + over) HT2 ltac:(lia)) as (m' & E & Hm & Hat); auto.
        { rewrite !(app_assoc P stale). eapply chain_in_mid. rewrite <- (app_assoc P stale). exact H. }
        { destruct Hst as [->|(x & -> & Hx)]; [auto|]. right. exists x. split; [reflexivity|lia]. }
        exists m'. splits; [exact E|exact Hm|]. intros b. rewrite Hat.
        assert (Hrm : at_ (P ++ stale ++ ((o, (n, false)) :: C) ++ B) b = if (o <=? b) && (b <? o + n) then Some false else at_ (P ++ stale ++ C ++ B) b).
        { change (((o, (n, false)) :: C) ++ B) with ((o, (n, false)) :: C ++ B). rewrite !at_app. cbn [at_]. rewrite <- at_app. destruct ((o <=? b) && (b <? o + n)) eqn:E1; [|reflexivity].
          rewrite (at_high P _ _ b HcP) by lia. rewrite (at_high stale _ _ b HcS) by lia. reflexivity. }
        rewrite Hrm. destruct ((o <=? b) && (b <? o + n)) eqn:E1.
        -- assert (at_ (P ++ stale ++ C ++ B) b = None) as ->.
           { rewrite !at_app. rewrite (at_high P _ _ b HcP) by lia. rewrite (at_high stale _ _ b HcS) by lia.
             rewrite <- at_app. apply at_above. apply Forall_app. pose proof (endof_ge _ _ _ HcC).
             split; [eapply above_weaken; [exact HCa'|lia]|apply chain_above in HcB; eapply above_weaken; [exact HcB|lia]]. }
           replace ((off <=? b) && (b <? T + over)) with true by (subst over; lia).
           destruct ((off <=? b) && (b <? T)); reflexivity.
        -- destruct (off <=? b) eqn:E2; [|reflexivity]. cbn [andb]. destruct (b <? T) eqn:E3.
           ++ replace (b <? T + over) with true by lia. reflexivity.
           ++ destruct (b <? T + over) eqn:E4; [|reflexivity]. specialize (Hb0 b ltac:(lia)). rewrite Hrm in Hb0. try rewrite E1 in Hb0. rewrite Hb0. reflexivity.
Qed.

Lemma mark_sent_spec off0 len0 t : rt_wf t ->
  exists t', rt_mark_sent off0 len0 t = Some t' /\ rt_wf t' /\ rt_acked t' = rt_acked t /\
  forall b, state_of t' b = if coversb off0 len0 b then sent_over (state_of t b) else state_of t b.
Proof.
  intros [H Hc]. unfold rt_mark_sent.
  set (off := N.max (rt_acked t) off0). set (len := off0 + len0 - off).
  assert (Hcov : forall b, rt_acked t <= b -> coversb off0 len0 b = (off <=? b) && (b <? off + len)).
  { intros b Hb. unfold coversb, len. destruct (off0 <=? b) eqn:E1, (b <? off0 + len0) eqn:E2, (off <=? b) eqn:E3, (b <? off + (off0 + len0 - off)) eqn:E4; subst off; cbn; lia. }
  assert (Hoff : rt_acked t <= off) by (subst off; lia).
  assert (Lift : forall l' c, chain (rt_acked t) (Some true) l' -> (forall x, c = Some x -> x = unmarked_from (rt_acked t) l') ->
     (forall b, rt_acked t <= b -> at_ l' b = if (off <=? b) && (b <? off + len) then sent_over (at_ (rt_used t) b) else at_ (rt_used t) b) ->
     rt_wf (mkRt (rt_acked t) l' c) /\ rt_acked (mkRt (rt_acked t) l' c) = rt_acked t /\
     forall b, state_of (mkRt (rt_acked t) l' c) b = if coversb off0 len0 b then sent_over (state_of t b) else state_of t b).
  { intros l' c L1 L2 L3. splits.
    - split; [exact L1|exact L2].
    - reflexivity.
    - intros b. rewrite !state_at. cbn [rt_acked rt_used]. destruct (N.lt_ge_cases b (rt_acked t)) as [Hb|Hb].
      + replace (b <? rt_acked t) with true by lia. destruct (coversb _ _ _); reflexivity.
      + rewrite L3 by exact Hb. rewrite Hcov by exact Hb. replace (b <? rt_acked t) with false by lia. reflexivity. }
  destruct (len =? 0) eqn:E0.
  { exists t. split; [reflexivity|]. destruct t as [a u c]. apply Lift; auto. cbn [rt_acked rt_used] in *. intros b Hb.
    replace ((off <=? b) && (b <? off + len)) with false by lia. reflexivity. }
  assert (Een : off0 + len0 = off + len) by lia. rewrite Een.
  destruct (split3 (rt_used t) _ _ off (off + len) H ltac:(lia)) as (A & C & B & EU & HA & HC1 & HC2 & HB).
  rewrite EU in *. rewrite range3 by assumption.
  assert (H' := H). rewrite !chain_app in H'. destruct H' as (HcA & HcC & HcB).
  (* merge with the following sent range *)
  assert (Hnext : exists B1 T, (match u_get (off + len) (A ++ C ++ B) with
      | Some (extra, false) => (u_remove (off + len) (A ++ C ++ B), len + extra)
      | _ => (A ++ C ++ B, len) end) = (A ++ C ++ B1, T - off) /\ off + len <= T /\
      chain T (Some false) B1 /\ chain (rt_acked t) (Some true) (A ++ C ++ B1) /\
      (T = off + len -> B1 = B) /\ (off + len < T -> endof (endof (rt_acked t) A) C <= off + len) /\
      (forall b, at_ (A ++ C ++ B) b = if (off + len <=? b) && (b <? T) then Some false else at_ (A ++ C ++ B1) b)).
  { destruct B as [|[ko [kn ks]] B'].
    - exists [], (off + len). rewrite get_none.
      2:{ rewrite app_nil_r. apply Forall_app. split; apply below_ne; auto. eapply below_weaken; [exact HA|lia]. }
      splits; auto; try constructor; try lia; [tup|]. intros b. replace ((off + len <=? b) && (b <? off + len)) with false by lia. reflexivity.
    - assert (HAC : below (off + len) (A ++ C)) by (apply Forall_app; split; [eapply below_weaken; [exact HA|lia]|exact HC2]).
      destruct (N.eq_dec ko (off + len)) as [->|Hne].
      + rewrite app_assoc, get_mid by exact HAC. rewrite <- app_assoc.
        cbn [chain] in HcB. destruct HcB as (Hkn & Hke & Hks & HcB).
        destruct ks.
        * exists ((off + len, (kn, true)) :: B'), (off + len). splits; auto; try lia; [tup| |].
          -- cbn [chain]. splits; auto; try lia. discriminate.
          -- intros b. replace ((off + len <=? b) && (b <? off + len)) with false by lia. reflexivity.
        * exists B', (off + len + kn).
          assert (HaB : above (off + len + 1) B') by (apply chain_above in HcB; eapply above_weaken; [exact HcB|lia]).
          replace (u_remove (off + len) (A ++ C ++ (off + len, (kn, false)) :: B')) with (A ++ C ++ B').
          2:{ rewrite !app_assoc. symmetry. apply remove_mid; auto. }
          splits; auto; try lia; [tup| |].
          -- rewrite app_assoc. eapply chain_in_mid. rewrite <- app_assoc. exact H.
          -- intros b. rewrite !app_assoc, !at_app. cbn [at_]. destruct ((off + len <=? b) && (b <? off + len + kn)) eqn:E; [|reflexivity].
             rewrite (at_high A _ _ b HcA), (at_high C _ _ b HcC) by (pose proof (endof_ge _ _ _ HcC); lia). reflexivity.
      + rewrite get_none.
        2:{ rewrite app_assoc. apply Forall_app. split; [apply below_ne; exact HAC|]. inv HB. cbn in *. cbn [chain] in HcB.
            destruct HcB as (? & ? & ? & X). apply chain_above in X. constructor; [cbn; lia|]. eapply Forall_impl; [|exact X]. cbn; intros; lia. }
        exists ((ko, (kn, ks)) :: B'), (off + len). splits; auto; try lia; [tup| |].
        * inv HB. cbn in *. cbn [chain] in *. destruct HcB as (? & ? & ? & X). splits; auto; lia.
        * intros b. replace ((off + len <=? b) && (b <? off + len)) with false by lia. reflexivity. }
  destruct Hnext as (B1 & T & -> & HT & HB1 & HM & HTeq & HTgt & HatN).
  assert (HB1a := chain_above _ _ _ HB1).
  assert (HC2' : below T C) by (eapply below_weaken; [exact HC2|lia]).
  (* reduce to the loop *)
  assert (Fin : forall P stale off1, A ++ C ++ B1 = P ++ stale ++ C ++ B1 -> off1 < T ->
     below off1 P -> endof (rt_acked t) P <= off1 -> (endof (rt_acked t) P = off1 -> stof (Some true) P <> Some false) ->
     (stale = [] \/ exists x, stale = [(off1, (x, false))] /\ off1 + x <= T) -> above off1 C -> rt_acked t <= off1 ->
     (forall b, rt_acked t <= b -> (if (off1 <=? b) && (b <? T) then sent_over (at_ (A ++ C ++ B1) b) else at_ (A ++ C ++ B1) b) =
                if (off <=? b) && (b <? off + len) then sent_over (at_ (A ++ C ++ B) b) else at_ (A ++ C ++ B) b) ->
     exists t', match sent_loop (map fst C) off1 (T - off1) (A ++ C ++ B1) with Some m' => Some (mkRt (rt_acked t) m' None) | None => None end = Some t' /\
        rt_wf t' /\ rt_acked t' = rt_acked t /\ forall b, state_of t' b = if coversb off0 len0 b then sent_over (state_of t b) else state_of t b).
  { intros P stale off1 EP Ho1 F1 F2 F3 F4 F5 F6 F7.
    destruct (sent_loop_spec C P stale off1 (T - off1) (rt_acked t) (Some true) B1 T ltac:(lia) ltac:(lia)) as (m' & E & Hm & Hat); auto.
    { rewrite <- EP. exact HM. }
    rewrite EP, E. exists (mkRt (rt_acked t) m' None). split; [reflexivity|]. apply Lift; [exact Hm|discriminate|].
    intros b Hb. rewrite Hat, <- EP. apply F7. exact Hb. }
  assert (Same : forall b, rt_acked t <= b -> (if (off <=? b) && (b <? T) then sent_over (at_ (A ++ C ++ B1) b) else at_ (A ++ C ++ B1) b) =
                if (off <=? b) && (b <? off + len) then sent_over (at_ (A ++ C ++ B) b) else at_ (A ++ C ++ B) b).
  { intros b Hb. rewrite HatN. destruct ((off + len <=? b) && (b <? T)) eqn:E1.
    - replace ((off <=? b) && (b <? T)) with true by lia. replace ((off <=? b) && (b <? off + len)) with false by lia.
      assert (at_ (A ++ C ++ B1) b = None) as ->; [|reflexivity].
      rewrite !at_app. specialize (HTgt ltac:(lia)). pose proof (endof_ge _ _ _ HcC).
      rewrite (at_high A _ _ b HcA), (at_high C _ _ b HcC), (at_low B1 _ _ b HB1) by lia. reflexivity.
    - replace ((off <=? b) && (b <? T)) with ((off <=? b) && (b <? off + len)) by (destruct (off <=? b) eqn:?, (b <? T) eqn:?, (b <? off + len) eqn:?; cbn in *; lia). reflexivity. }
  assert (HaCB : above off (C ++ B1)) by (apply Forall_app; split; [exact HC1|eapply above_weaken; [exact HB1a|lia]]).
  destruct (snoc_cases A) as [->|(A' & [po [pn ps]] & ->)].
  - cbn [app] in *. rewrite before_none by exact HaCB.
    apply (Fin [] [] off); auto; try lia; try constructor. cbn [stof endof]. discriminate.
  - rewrite before_last; [|exact HA|exact HaCB].
    assert (HcA2 := HcA). rewrite chain_app in HcA2. destruct HcA2 as [HA1 HA2]. cbn [chain] in HA2. destruct HA2 as (Hpn & Hpo & Hps & _).
    rewrite endof_app in *. cbn [endof] in *. rewrite stof_app in *. cbn [stof] in *.
    assert (Hpoff : po < off) by (apply Forall_app in HA; destruct HA as [_ X]; inv X; cbn in *; lia).
    assert (HA'k : below po A') by (eapply chain_keys_lt; [exact HA1|exact Hpo]).
    assert (HaC := chain_above _ _ _ HcC).
    assert (Hat1 : forall b, po <= b < po + pn -> at_ ((A' ++ [(po, (pn, ps))]) ++ C ++ B1) b = Some ps /\ at_ ((A' ++ [(po, (pn, ps))]) ++ C ++ B) b = Some ps).
    { intros b Hb. rewrite !at_app. rewrite (at_high A' _ _ b HA1) by lia. cbn [at_]. replace ((po <=? b) && (b <? po + pn)) with true by lia. split; reflexivity. }
    destruct (off <=? po + pn) eqn:E1.
    2:{ apply (Fin (A' ++ [(po, (pn, ps))]) [] off); auto; try lia; rewrite endof_app; cbn [endof]; lia. }
    destruct (T - off - (po + pn - off) =? 0) eqn:E2.
    + eexists. split; [reflexivity|]. assert (ET : T = off + len).
      { destruct (N.eq_dec T (off + len)) as [X|X]; [exact X|]. specialize (HTgt ltac:(lia)). pose proof (endof_ge _ _ _ HcC). lia. }
      apply Lift; [exact HM|discriminate|]. intros b Hb. rewrite HatN. rewrite ET.
      replace ((off + len <=? b) && (b <? off + len)) with false by lia.
      destruct ((off <=? b) && (b <? off + len)) eqn:E3; [|reflexivity]. destruct (Hat1 b ltac:(lia)) as [-> _]. destruct ps; reflexivity.
    + destruct ps.
      * replace (T - off - (po + pn - off)) with (T - (po + pn)) by lia. replace (off + (po + pn - off)) with (po + pn) by lia.
        apply (Fin (A' ++ [(po, (pn, true))]) [] (po + pn)); auto; try lia.
        -- eapply below_weaken; [exact HA|lia].
        -- rewrite endof_app; cbn [endof]; lia.
        -- rewrite stof_app. cbn [stof]. discriminate.
        -- intros b Hb. rewrite <- Same by exact Hb. destruct ((off <=? b) && (b <? T)) eqn:E3.
           ++ destruct ((po + pn <=? b) && (b <? T)) eqn:E4; [reflexivity|]. destruct (Hat1 b ltac:(lia)) as [-> _]. reflexivity.
           ++ replace ((po + pn <=? b) && (b <? T)) with false by lia. reflexivity.
      * replace (T - off - (po + pn - off) + pn) with (T - po) by lia.
        apply (Fin A' [(po, (pn, false))] po); auto; try lia.
        -- rewrite <- !app_assoc. reflexivity.
        -- right. exists pn. split; [reflexivity|lia].
        -- eapply above_weaken; [exact HC1|lia].
        -- pose proof (endof_ge _ _ _ HA1). lia.
        -- intros b Hb. rewrite <- Same by exact Hb. destruct ((off <=? b) && (b <? T)) eqn:E3.
           ++ replace ((po <=? b) && (b <? T)) with true by lia. reflexivity.
           ++ destruct ((po <=? b) && (b <? T)) eqn:E4; [|reflexivity]. destruct (Hat1 b ltac:(lia)) as [-> _]. reflexivity.
Qed.

(** ** unmark_range *)
Lemma chain_filter f l : forall lo ps, chain lo ps l -> chain lo ps (filter f l).
Proof.
  induction l as [|[o [n s]] l IH]; intros lo ps H; [constructor|]. cbn [chain filter] in *. destruct H as (? & ? & ? & H).
  destruct (f _); [cbn [chain]; splits; auto|]. eapply chain_lower; [apply IH; exact H|lia].
Qed.
Lemma fold_remove ks : forall m, fold_left (fun m k => u_remove k m) ks m = filter (fun e => negb (existsb (N.eqb (fst e)) ks)) m.
Proof.
  induction ks as [|k ks IH]; intros m; cbn [fold_left existsb].
  - induction m as [|e m IHm]; [reflexivity|]. cbn [filter negb] in *. congruence.
  - rewrite IH. unfold u_remove. induction m as [|e m IHm]; [reflexivity|]. cbn [filter]. destruct (fst e =? k) eqn:E; cbn [negb orb].
    + exact IHm.
    + cbn [filter]. destruct (existsb _ ks); cbn [negb]; congruence.
Qed.
Definition is_acked (e : entry) : bool := snd (snd e).
Definition is_sent (e : entry) : bool := negb (snd (snd e)).
Lemma walk_inner off en R C : forall m rm add, Forall (fun e => off <= fst e /\ fst e + fst (snd e) <= en) C ->
  unmark_walk off en (C ++ R) m rm add = unmark_walk off en R m (rm ++ map fst (filter is_sent C)) add.
Proof.
  induction C as [|[o [n s]] C IH]; intros m rm add H; cbn [app unmark_walk filter map].
  - rewrite app_nil_r. reflexivity.
  - inv H. cbn [fst snd] in *. destruct (o <? off) eqn:E; [lia|]. unfold is_sent at 1. cbn [snd]. destruct s; cbn [negb].
    + apply IH. assumption.
    + destruct (en <? o + n) eqn:E2; [lia|]. rewrite IH by assumption. cbn [map fst]. rewrite <- app_assoc. reflexivity.
Qed.
Lemma existsb_in k ks : existsb (N.eqb k) ks = true <-> In k ks.
Proof.
  rewrite existsb_exists. split; [intros (x & Hx & E); apply N.eqb_eq in E; subst; exact Hx|]. intros H. exists k. split; [exact H|apply N.eqb_refl].
Qed.
Lemma filter_out (ks : list N) (l : umap) : (forall k, In k ks -> Forall (fun e => fst e <> k) l) -> filter (fun e => negb (existsb (N.eqb (fst e)) ks)) l = l.
Proof.
  intros H. induction l as [|e l IH]; [reflexivity|]. cbn [filter].
  destruct (existsb (N.eqb (fst e)) ks) eqn:E.
  - apply existsb_in in E. specialize (H _ E). inv H. congruence.
  - cbn [negb]. rewrite IH; [reflexivity|]. intros k Hk. specialize (H k Hk). inv H. assumption.
Qed.
(** Removing the keys of the sent entries keeps the acked ones. *)
Lemma filter_sent_keys C : forall lo ps ks, chain lo ps C -> (forall k, In k ks <-> In k (map fst (filter is_sent C))) ->
  filter (fun e => negb (existsb (N.eqb (fst e)) ks)) C = filter is_acked C.
Proof.
  intros lo ps ks H Hk. apply filter_ext_in. intros [o [n s]] Hi.
  destruct (existsb (N.eqb (fst (o, (n, s)))) ks) eqn:E; unfold is_acked; cbn [negb snd fst] in *.
  - apply existsb_in in E. apply Hk in E. apply in_map_iff in E. destruct E as ([o2 [n2 s2]] & E1 & E2). apply filter_In in E2. destruct E2 as [E2 E3].
    cbn [fst] in E1. subst o2.
    assert ((n, s) = (n2, s2)).
    { clear - H Hi E2. revert lo ps H Hi E2. induction C as [|[a [b c]] C IH]; intros lo ps H Hi E2; [destruct Hi|]. cbn [chain] in H. destruct H as (? & ? & ? & H).
      pose proof (chain_above _ _ _ H) as Ha. unfold above in Ha. rewrite Forall_forall in Ha.
      destruct Hi as [Hi|Hi], E2 as [E2|E2].
      - congruence.
      - injection Hi as -> -> ->. specialize (Ha _ E2). cbn in Ha. lia.
      - injection E2 as -> -> ->. specialize (Ha _ Hi). cbn in Ha. lia.
      - eapply IH; eauto. }
    unfold is_sent in E3. cbn in E3. assert (s = s2) by congruence. subst s2. destruct s; [discriminate|reflexivity].
  - destruct s; [reflexivity|]. assert (X : In o ks); [|apply existsb_in in X; congruence].
    apply Hk. apply in_map_iff. exists (o, (n, false)). split; [reflexivity|]. apply filter_In. split; [exact Hi|reflexivity].
Qed.
Lemma at_filter_acked l : forall lo ps b, chain lo ps l -> at_ (filter is_acked l) b = match at_ l b with Some true => Some true | _ => None end.
Proof.
  induction l as [|[o [n s]] l IH]; intros lo ps b H; [reflexivity|]. cbn [chain] in H. destruct H as (Hn & Ho & Hs & H).
  cbn [filter at_]. unfold is_acked at 1. cbn [snd]. destruct ((o <=? b) && (b <? o + n)) eqn:E.
  - destruct s; cbn [at_]; [rewrite E; reflexivity|]. apply (at_low _ (o + n) (Some false)); [apply chain_filter; exact H|lia].
  - destruct s; cbn [at_]; [rewrite E|]; eapply IH; exact H.
Qed.

(** The walk over the ranges that start in the lost range. *)
Lemma walk_C off en lo ps C R m : chain lo ps C -> above off C -> below en C ->
  exists C1 tl rm add,
    unmark_walk off en (List.rev C ++ R) m [] None = unmark_walk off en R m rm add /\
    (forall k, In k rm <-> In k (map fst (filter is_sent C))) /\
    match add with None => tl = [] | Some (k, v) => tl = [(k, v)] /\ k = en end /\
    C1 = filter is_acked C /\
    chain lo ps (C1 ++ tl) /\ endof lo (C1 ++ tl) <= endof lo C /\ (endof lo (C1 ++ tl) = endof lo C -> stof ps (C1 ++ tl) = stof ps C) /\
    (forall b, at_ (C1 ++ tl) b = if b <? en then match at_ C b with Some true => Some true | _ => None end else at_ C b).
Proof.
  intros H H1 H2. destruct (snoc_cases C) as [->|(C' & [o [n s]] & ->)].
  { exists [], [], [], None. splits; auto; try (intros; split; intros []); [cbn; lia|]. intros b. destruct (b <? en); reflexivity. }
  rewrite rev_app_distr. cbn [List.rev app]. assert (H' := H). rewrite chain_app in H'. destruct H' as [HC' HCo]. cbn [chain] in HCo. destruct HCo as (Hn & Hoe & Hos & _).
  assert (Ho : off <= o < en) by (apply Forall_app in H1; apply Forall_app in H2; destruct H1 as [_ X]; destruct H2 as [_ Y]; inv X; inv Y; cbn in *; lia).
  assert (Hin : Forall (fun e => off <= fst e /\ fst e + fst (snd e) <= en) (List.rev C')).
  { apply Forall_forall. intros e He. apply in_rev in He. apply Forall_app in H1. destruct H1 as [H1 _]. unfold above in H1. rewrite Forall_forall in H1.
    pose proof (H1 _ He). pose proof (chain_below_end _ _ _ HC' e He). lia. }
  assert (Hks : forall k pre, In k (pre ++ map fst (filter is_sent (List.rev C'))) <-> In k pre \/ In k (map fst (filter is_sent C'))).
  { intros k pre. rewrite in_app_iff. rewrite <- !(in_rev (map fst (filter is_sent C'))) || idtac. split; (intros [X|X]; [auto|right]); apply in_map_iff in X; destruct X as (e & E1 & E2);
    apply filter_In in E2; apply in_map_iff; exists e; (split; [exact E1|]); apply filter_In; (split; [|tauto]); destruct E2 as [E2 _]; apply in_rev; try rewrite rev_involutive; exact E2. }
  assert (Hlow : forall b, at_ (filter is_acked C') b = match at_ C' b with Some true => Some true | _ => None end) by (intros; eapply at_filter_acked; exact HC').
  assert (HfC := chain_filter is_acked _ _ _ HC').
  assert (Hfe : forall l0 lo0 ps0, chain lo0 ps0 l0 -> endof lo0 (filter is_acked l0) <= endof lo0 l0 /\ (endof lo0 (filter is_acked l0) = endof lo0 l0 -> stof ps0 (filter is_acked l0) = stof ps0 l0)).
  { clear. induction l0 as [|[o [n s]] l0 IH]; intros lo0 ps0 H; [split; [cbn; lia|reflexivity]|]. cbn [chain filter] in *. destruct H as (? & ? & ? & H).
    destruct (is_acked _); cbn [endof stof]; [apply IH; exact H|].
    destruct (IH _ _ H) as [I1 I2]. pose proof (endof_ge _ _ _ H).
    assert (X : endof lo0 (filter is_acked l0) < endof (o + n) l0 \/ endof lo0 (filter is_acked l0) = endof (o + n) (filter is_acked l0) /\ exists e r, filter is_acked l0 = e :: r).
    { destruct (filter is_acked l0) as [|[x [y z]] r]; [left; cbn [endof]; lia|]. right. split; [reflexivity|eauto]. }
    destruct X as [X|[X (e & r & X2)]]; [split; lia|]. rewrite X. split; [exact I1|]. intros E. specialize (I2 E). rewrite X2 in *. destruct e as [x [y z]]. cbn [stof] in *. exact I2. }
  destruct (Hfe _ _ _ HC') as [Hfe1 Hfe2].
  cbn [unmark_walk]. destruct (o <? off) eqn:E0; [lia|]. destruct s.
  - rewrite walk_inner by exact Hin. exists (filter is_acked (C' ++ [(o, (n, true))])), [], ([] ++ map fst (filter is_sent (List.rev C'))), None.
    rewrite !filter_app. cbn [filter is_acked is_sent snd negb]. rewrite !app_nil_r. splits; auto.
    + intros k. rewrite Hks. split; [intros [[]|?]; assumption|auto].
    + rewrite chain_app. split; [exact HfC|]. cbn [chain]. splits; auto; try lia. intros E. rewrite Hfe2 by lia. apply Hos. lia.
    + rewrite !endof_app. cbn [endof]. lia.
    + intros _. rewrite !stof_app. reflexivity.
    + intros b. rewrite !at_app. rewrite Hlow. cbn [at_]. destruct (b <? en) eqn:E1.
      * destruct (at_ C' b) as [[|]|] eqn:E2; [reflexivity| |].
        -- destruct (_ && _) eqn:E3; [|reflexivity]. assert (at_ C' b = None) by (eapply at_high; [exact HC'|lia]). congruence.
        -- destruct (_ && _); reflexivity.
      * rewrite (at_high C' _ _ b HC') by lia. destruct (_ && _); reflexivity.
  - destruct (en <? o + n) eqn:E1.
    + rewrite walk_inner by exact Hin. exists (filter is_acked (C' ++ [(o, (n, false))])), [(en, (o + n - en, false))], (([] ++ [o]) ++ map fst (filter is_sent (List.rev C'))), (Some (en, (o + n - en, false))).
      rewrite !filter_app. cbn [filter is_acked is_sent snd negb]. rewrite !app_nil_r, map_app. cbn [map fst]. splits; auto.
      * intros k. rewrite Hks. rewrite (in_app_iff (map fst (filter is_sent C')) [o]). cbn [app In]. tauto.
      * rewrite chain_app. split; [exact HfC|]. cbn [chain]. splits; auto; try lia.
      * rewrite !endof_app. cbn [endof]. lia.
      * intros _. rewrite !stof_app. reflexivity.
      * intros b. rewrite !at_app. rewrite Hlow. cbn [at_]. destruct (b <? en) eqn:E2.
        -- replace ((en <=? b) && (b <? en + (o + n - en))) with false by lia. destruct (at_ C' b) as [[|]|]; try reflexivity. destruct (_ && _); reflexivity.
        -- rewrite (at_high C' _ _ b HC') by lia. replace (en + (o + n - en)) with (o + n) by lia. replace (en <=? b) with true by lia. replace (o <=? b) with true by lia. reflexivity.
    + rewrite walk_inner by exact Hin. exists (filter is_acked (C' ++ [(o, (n, false))])), [], (([] ++ [o]) ++ map fst (filter is_sent (List.rev C'))), None.
      rewrite !filter_app. cbn [filter is_acked is_sent snd negb]. rewrite !app_nil_r, map_app. cbn [map fst]. splits; auto.
      * intros k. rewrite Hks. rewrite (in_app_iff (map fst (filter is_sent C')) [o]). cbn [app In]. tauto.
      * rewrite !endof_app. cbn [endof]. lia.
      * rewrite !endof_app. cbn [endof]. lia.
      * intros b. rewrite !at_app. rewrite Hlow. cbn [at_]. destruct (b <? en) eqn:E2.
        -- destruct (at_ C' b) as [[|]|]; try reflexivity. destruct (_ && _); reflexivity.
        -- rewrite (at_high C' _ _ b HC') by lia. replace (b <? o + n) with false by lia. rewrite andb_false_r. reflexivity.
Qed.

Definition lose1 (s : bstate) : bstate := match s with Some true => Some true | _ => None end.

(** A byte in flight lies in an entry; the run does not continue into another entry. *)
Lemma at_entry l : forall lo ps b s, chain lo ps l -> at_ l b = Some s ->
  exists A o n B, l = A ++ (o, (n, s)) :: B /\ o <= b < o + n.
Proof.
  induction l as [|[o [n s]] l IH]; intros lo ps b s0 H E; [discriminate|]. cbn [chain at_] in *. destruct H as (? & ? & ? & H).
  destruct ((o <=? b) && (b <? o + n)) eqn:E1.
  - injection E as <-. exists [], o, n, l. split; [reflexivity|lia].
  - destruct (IH _ _ _ _ H E) as (A & o2 & n2 & B & -> & Hb). exists ((o, (n, s)) :: A), o2, n2, B. auto.
Qed.
Lemma run_stops A o n s B lo ps : chain lo ps (A ++ (o, (n, s)) :: B) -> at_ (A ++ (o, (n, s)) :: B) (o + n) <> Some s.
Proof.
  rewrite chain_app. intros [HA H]. cbn [chain] in H. destruct H as (Hn & Ho & Hs & H). rewrite at_app.
  rewrite (at_high A _ _ _ HA) by lia. cbn [at_]. replace (o + n <? o + n) with false by lia. rewrite andb_false_r.
  destruct B as [|[o2 [n2 s2]] B]; [discriminate|]. cbn [chain at_] in *. destruct H as (H1 & H2 & H3 & H).
  destruct (N.eq_dec o2 (o + n)) as [E|E].
  - replace ((o2 <=? o + n) && (o + n <? o2 + n2)) with true by lia. specialize (H3 E). congruence.
  - replace (o2 <=? o + n) with false by lia. cbn [andb]. rewrite (at_low B _ _ _ H) by lia. discriminate.
Qed.

Lemma unmark_spec off len t : rt_wf t ->
  exists t', rt_unmark off len t = Some t' /\ rt_wf t' /\ rt_acked t' = rt_acked t /\
  forall b, (covers off len b -> state_of t' b = lose1 (state_of t b)) /\
            (0 < len -> loses_too (state_of t) off len b -> state_of t' b = None) /\
            (~ covers off len b -> (0 < len -> ~ loses_too (state_of t) off len b) -> state_of t' b = state_of t b).
Proof.
  intros [H Hc]. unfold rt_unmark. destruct (len =? 0) eqn:E0.
  { exists t. splits; [reflexivity|split; assumption|reflexivity|]. intros b. unfold covers. splits; try lia; reflexivity. }
  destruct (split3 (rt_used t) _ _ off (off + len) H ltac:(lia)) as (A & C & B & EU & HA & HC1 & HC2 & HB).
  assert (H' := H). rewrite EU in H'. rewrite !chain_app in H'. destruct H' as (HcA & HcC & HcB).
  assert (EF : filter (fun e => fst e <? off + len) (rt_used t) = A ++ C).
  { rewrite EU, app_assoc, filter_app. rewrite (filter_all _ (A ++ C)), (filter_none _ B); [apply app_nil_r| |].
    - unfold above in HB. rewrite Forall_forall in HB |- *. intros e He. specialize (HB e He). lia.
    - apply Forall_app. unfold below in *. split; eapply Forall_impl; try eassumption; cbn; intros; lia. }
  rewrite EF, rev_app_distr.
  destruct (walk_C off (off + len) _ _ C (List.rev A) (rt_used t) HcC HC1 HC2) as (C1 & tl & rm & add & -> & Hrm & Hadd & HC1e & HcT & HeT & HsT & HatT).
  assert (HatB : forall b, b < off + len -> at_ B b = None).
  { intros b Hb. apply at_above. eapply above_weaken; [exact HB|lia]. }
  assert (Hrm2 : forall k, In k rm -> off <= k < off + len).
  { intros k Hk. apply Hrm in Hk. apply in_map_iff in Hk. destruct Hk as (e & <- & He). apply filter_In in He. destruct He as [He _].
    unfold above, below in *. rewrite Forall_forall in HC1, HC2. specialize (HC1 _ He). specialize (HC2 _ He). lia. }
  (* the end of the walk *)
  assert (Hwalk : exists A1, (forall rm add, unmark_walk off (off + len) (List.rev A) (rt_used t) rm add = Some (A1 ++ C ++ B, rm, add)) /\
     below off A1 /\ chain (rt_acked t) (Some true) A1 /\ endof (rt_acked t) A1 <= endof (rt_acked t) A /\
     (endof (rt_acked t) A1 = endof (rt_acked t) A -> A1 = A) /\
     (A1 = A \/ endof (rt_acked t) A1 <= off) /\
     (forall b, at_ A1 b = if b <? off then at_ A b else match at_ A b with Some false => None | x => x end)).
  { destruct (snoc_cases A) as [->|(A' & [po [pn ps]] & ->)].
    - exists []. splits; auto; try constructor; try lia; try (rewrite EU; reflexivity). intros b. destruct (b <? off); reflexivity.
    - rewrite rev_app_distr. cbn [List.rev app unmark_walk]. assert (HcA2 := HcA). rewrite chain_app in HcA2. destruct HcA2 as [HA1 HA2]. cbn [chain] in HA2. destruct HA2 as (Hpn & Hpo & Hps & _).
      assert (Hpoff : po < off) by (apply Forall_app in HA; destruct HA as [_ X]; inv X; cbn in *; lia).
      assert (HA'k : below po A') by (eapply chain_keys_lt; [exact HA1|exact Hpo]).
      destruct (po <? off) eqn:E1; [|lia].
      destruct ((off <? po + pn) && negb ps) eqn:E2.
      + apply andb_prop in E2. destruct E2 as [E2 E3]. destruct ps; [discriminate|].
        exists (A' ++ [(po, (off - po, false))]). splits.
        * intros rm0 add0. rewrite EU. rewrite <- !app_assoc. cbn [app]. rewrite insert_at by exact HA'k. reflexivity.
        * apply Forall_app. split; [eapply below_weaken; [exact HA'k|lia]|constructor; [cbn; lia|constructor]].
        * rewrite chain_app. split; [exact HA1|]. cbn [chain]. splits; auto; lia.
        * rewrite !endof_app. cbn [endof]. lia.
        * rewrite !endof_app. cbn [endof]. lia.
        * right. rewrite !endof_app. cbn [endof]. lia.
        * intros b. rewrite !at_app. cbn [at_]. replace (po + (off - po)) with off by lia. destruct (b <? off) eqn:E4.
          -- replace (b <? po + pn) with true by lia. reflexivity.
          -- rewrite (at_high A' _ _ b HA1) by lia. rewrite andb_false_r. destruct (_ && _); reflexivity.
      + exists (A' ++ [(po, (pn, ps))]). splits; auto; try lia; try (intros; rewrite EU; reflexivity).
        intros b. destruct (b <? off) eqn:E4; [reflexivity|]. rewrite !at_app. cbn [at_]. rewrite (at_high A' _ _ b HA1) by lia.
        destruct ((po <=? b) && (b <? po + pn)) eqn:E5; [|reflexivity]. destruct ps; [reflexivity|]. cbn [negb] in E2. lia. }
  destruct Hwalk as (A1 & HW & HA1b & HA1c & HA1e & HA1eq & HA1o & HatA1). rewrite HW.
  rewrite fold_remove, !filter_app.
  rewrite (filter_out rm A1).
  2:{ intros k Hk. apply Hrm2 in Hk. eapply Forall_impl; [|exact HA1b]. cbn; intros; lia. }
  rewrite (filter_out rm B).
  2:{ intros k Hk. apply Hrm2 in Hk. eapply Forall_impl; [|exact HB]. cbn; intros; lia. }
  rewrite (filter_sent_keys C _ _ rm HcC Hrm). rewrite <- HC1e.
  assert (HC1k : below (off + len) C1).
  { rewrite HC1e. apply Forall_forall. intros e He. apply filter_In in He. unfold below in HC2. rewrite Forall_forall in HC2. apply HC2. tauto. }
  assert (EM : (match add with Some (k, v) => u_insert k v (A1 ++ C1 ++ B) | None => A1 ++ C1 ++ B end) = A1 ++ (C1 ++ tl) ++ B /\ (tl = [] \/ exists v, tl = [(off + len, v)])).
  { destruct add as [[k v]|].
    - destruct Hadd as [-> ->]. split; [|eauto]. rewrite app_assoc, insert_mid.
      + rewrite <- !app_assoc. reflexivity.
      + apply Forall_app. split; [eapply below_weaken; [exact HA1b|lia]|exact HC1k].
      + (* nothing in B starts at off+len, since the last of C reaches beyond *)
        rewrite chain_app in HcT. destruct HcT as [X1 X2]. destruct v as [vn vs]. cbn [chain] in X2. destruct X2 as (X2 & X3 & X4 & _).
        apply chain_above in HcB. eapply above_weaken; [exact HcB|]. rewrite endof_app in HeT. cbn [endof] in HeT. lia.
    - subst tl. rewrite app_nil_r. auto. }
  destruct EM as [-> Htl].
  assert (HM : chain (rt_acked t) (Some true) (A1 ++ (C1 ++ tl) ++ B)).
  { assert (X : chain (endof (rt_acked t) A) (stof (Some true) A) ((C1 ++ tl) ++ B)).
    { rewrite chain_app. split; [exact HcT|].
      destruct (N.eq_dec (endof (endof (rt_acked t) A) (C1 ++ tl)) (endof (endof (rt_acked t) A) C)) as [E|E].
      - rewrite E, (HsT E). exact HcB.
      - eapply chain_lower; [exact HcB|lia]. }
    rewrite chain_app. split; [exact HA1c|].
    destruct (N.eq_dec (endof (rt_acked t) A1) (endof (rt_acked t) A)) as [E|E].
    - rewrite (HA1eq E). exact X.
    - eapply chain_lower; [exact X|lia]. }
  assert (HAC : forall b, at_ A b <> None -> at_ C b = None /\ at_ B b = None).
  { intros b Hx. assert (b < endof (rt_acked t) A).
    { destruct (N.lt_ge_cases b (endof (rt_acked t) A)) as [Z|Z]; [exact Z|]. exfalso. apply Hx. eapply at_high; eauto. }
    pose proof (endof_ge _ _ _ HcC). split; eapply at_low; try eassumption; lia. }
  eexists. splits; [reflexivity|split; [exact HM|discriminate]|reflexivity|].
  intros b. splits.
  - intros Hb. rewrite !state_at. cbn [rt_acked rt_used]. destruct (b <? rt_acked t) eqn:Ea; [reflexivity|].
    unfold covers in Hb. rewrite EU, !at_app. rewrite HatB by lia. rewrite HatA1. rewrite <- at_app, HatT. replace (b <? off) with false by lia. replace (b <? off + len) with true by lia.
    destruct (at_ A b) as [[|]|] eqn:EA; try reflexivity.
    all: destruct (at_ C b) as [[|]|] eqn:EC; try reflexivity.
    destruct (HAC b ltac:(congruence)). congruence.
  - intros _ (L1 & L2 & L3).
    assert (X := L3 (off - 1) ltac:(lia)). rewrite state_at in X. destruct (off - 1 <? rt_acked t) eqn:Ea; [discriminate|].
    rewrite EU, !at_app in X. rewrite (at_above C) in X by (eapply above_weaken; [exact HC1|lia]). rewrite (at_above B) in X by (eapply above_weaken; [exact HB|lia]).
    destruct (at_ A (off - 1)) as [s|] eqn:EA; [|discriminate]. injection X as ->.
    destruct (at_entry _ _ _ _ _ HcA EA) as (A2 & o & n & Y & EA2 & Ho).
    assert (Hbn : b < o + n).
    { destruct (N.lt_ge_cases b (o + n)) as [Z|Z]; [exact Z|]. exfalso.
      specialize (L3 (o + n) ltac:(lia)). rewrite state_at in L3. destruct (o + n <? rt_acked t); [discriminate|].
      rewrite EU, EA2, <- app_assoc in L3. cbn [app] in L3. rewrite EU, EA2, <- app_assoc in H. cbn [app] in H. exact (run_stops _ _ _ _ _ _ _ H L3). }
    assert (EAb : at_ A b = Some false).
    { rewrite EA2 in HcA |- *. rewrite chain_app in HcA. destruct HcA as [Q1 Q2]. cbn [chain] in Q2. rewrite at_app. rewrite (at_high A2 _ _ _ Q1) by lia.
      cbn [at_]. replace ((o <=? b) && (b <? o + n)) with true by lia. reflexivity. }
    rewrite state_at. cbn [rt_acked rt_used]. replace (b <? rt_acked t) with false by lia.
    destruct (HAC b ltac:(congruence)) as [Z1 Z2].
    rewrite at_app, HatA1, EAb. replace (b <? off) with false by lia. rewrite at_app, HatT, Z1, Z2. destruct (b <? off + len); reflexivity.
  - intros Hb HL. specialize (HL ltac:(lia)). unfold covers in Hb. rewrite !state_at. cbn [rt_acked rt_used]. destruct (b <? rt_acked t) eqn:Ea; [reflexivity|].
    rewrite EU, at_app, (at_app A), HatA1, (at_app (C1 ++ tl)), (at_app C), HatT.
    destruct (b <? off) eqn:E1.
    + rewrite (at_above C) by (eapply above_weaken; [exact HC1|lia]). destruct (b <? off + len); reflexivity.
    + replace (b <? off + len) with false by lia. destruct (at_ A b) as [[|]|] eqn:EA; try reflexivity.
      exfalso. apply HL. destruct (at_entry _ _ _ _ _ HcA EA) as (A2 & o & n & Y & EA2 & Ho).
      assert (o < off) by (rewrite EA2 in HA; apply Forall_app in HA; destruct HA as [_ Z]; inv Z; cbn in *; lia).
      unfold loses_too. splits; [lia|lia|]. intros c Hc2. rewrite EA2 in HcA. rewrite chain_app in HcA. destruct HcA as [Q1 Q2]. cbn [chain] in Q2. pose proof (endof_ge _ _ _ Q1).
      rewrite state_at. replace (c <? rt_acked t) with false by lia. rewrite EU, EA2, !at_app. rewrite (at_high A2 _ _ _ Q1) by lia.
      cbn [at_]. replace ((o <=? c) && (c <? o + n)) with true by lia. reflexivity.
Qed.

(** ** unmark_sent, first_unmarked_range *)
Lemma highest_endof l a : match u_last l with Some (k, (n, _)) => k + n | None => a end = endof a l.
Proof.
  destruct (snoc_cases l) as [->|(l' & [o [n s]] & ->)]; [reflexivity|]. rewrite u_last_snoc, endof_app. reflexivity.
Qed.
Lemma unmark_sent_spec t : rt_wf t ->
  exists t', rt_unmark_sent t = Some t' /\ rt_wf t' /\ rt_acked t' = rt_acked t /\ forall b, state_of t' b = lose1 (state_of t b).
Proof.
  intros H. unfold rt_unmark_sent. destruct (unmark_spec 0 (rt_highest t) t H) as (t' & E & Hw & Ha & Hs). exists t'. splits; auto.
  intros b. specialize (Hs b). destruct Hs as (S1 & S2 & S3). unfold rt_highest in *. rewrite highest_endof in *.
  destruct (N.lt_ge_cases b (endof (rt_acked t) (rt_used t))) as [Hb|Hb].
  - apply S1. unfold covers. lia.
  - rewrite S3; [|unfold covers; lia|unfold loses_too; lia].
    destruct H as [H _]. rewrite state_at. pose proof (endof_ge _ _ _ H). replace (b <? rt_acked t) with false by lia.
    rewrite (at_high _ _ _ _ H) by exact Hb. reflexivity.
Qed.
Lemma unmarked_spec l : forall pe ps, chain pe ps l -> let '(o, n) := unmarked_from pe l in
  pe <= o /\ (forall b, pe <= b < o -> at_ l b <> None) /\
  match n with Some n => 0 < n /\ (forall b, o <= b < o + n -> at_ l b = None) /\ at_ l (o + n) <> None
  | None => forall b, o <= b -> at_ l b = None end.
Proof.
  induction l as [|[o [n s]] l IH]; intros pe ps H; cbn [unmarked_from].
  { splits; [lia|lia|reflexivity]. }
  assert (H' := H). cbn [chain] in H'. destruct H' as (Hn & Ho & Hs & H'). destruct (pe =? o) eqn:E.
  - assert (pe = o) by lia. subst pe. specialize (IH _ _ H'). destruct (unmarked_from (o + n) l) as [x [y|]]; destruct IH as (I1 & I2 & I3).
    + destruct I3 as (I3 & I4 & I5). splits; [lia| |exact I3| |].
      * intros b Hb. cbn [at_]. destruct ((o <=? b) && (b <? o + n)) eqn:E1; [discriminate|]. apply I2. lia.
      * intros b Hb. cbn [at_]. replace (b <? o + n) with false by lia. rewrite andb_false_r. apply I4. exact Hb.
      * cbn [at_]. replace (x + y <? o + n) with false by lia. rewrite andb_false_r. exact I5.
    + splits; [lia| |].
      * intros b Hb. cbn [at_]. destruct ((o <=? b) && (b <? o + n)) eqn:E1; [discriminate|]. apply I2. lia.
      * intros b Hb. cbn [at_]. replace (b <? o + n) with false by lia. rewrite andb_false_r. apply I3. exact Hb.
  - splits; [lia|lia|lia| |].
    + intros b Hb. cbn [at_]. replace (o <=? b) with false by lia. cbn [andb]. eapply at_low; [exact H'|lia].
    + cbn [at_]. replace ((o <=? pe + (o - pe)) && (pe + (o - pe) <? o + n)) with true by lia. discriminate.
Qed.
Lemma first_unmarked_spec t : rt_wf t -> let '(t', (o, l)) := rt_first_unmarked t in
  rt_wf t' /\ rt_acked t' = rt_acked t /\ rt_used t' = rt_used t /\ lowest_run (state_of t) o l.
Proof.
  intros [H Hc]. unfold rt_first_unmarked.
  assert (X : let '(o, l) := unmarked_from (rt_acked t) (rt_used t) in lowest_run (state_of t) o l).
  { pose proof (unmarked_spec _ _ _ H) as Y. destruct (unmarked_from _ _) as [o l]. destruct Y as (Y1 & Y2 & Y3).
    unfold lowest_run. split.
    - intros b Hb. rewrite state_at. destruct (b <? rt_acked t) eqn:E; [discriminate|]. apply Y2. lia.
    - destruct l as [n|].
      + destruct Y3 as (Y3 & Y4 & Y5). splits; [exact Y3| |].
        * intros b Hb. rewrite state_at. replace (b <? rt_acked t) with false by lia. apply Y4. exact Hb.
        * rewrite state_at. replace (o + n <? rt_acked t) with false by lia. exact Y5.
      + intros b Hb. rewrite state_at. replace (b <? rt_acked t) with false by lia. apply Y3. exact Hb. }
  destruct (rt_cache t) as [x|] eqn:E.
  - rewrite (Hc _ eq_refl). destruct (unmarked_from _ _) as [o l] eqn:Eu. splits; auto. split; [exact H|]. intros y Hy. rewrite Eu. rewrite E in Hy. rewrite (Hc _ eq_refl) in Hy. congruence.
  - destruct (unmarked_from _ _) as [o l] eqn:Eu. splits; auto. split; [exact H|]. cbn. intros y Hy. congruence.
Qed.

(** ** Histories *)
Lemma step_wf t o : rt_wf t -> exists t' x, rt_step t o = Some (t', x) /\ rt_wf t'.
Proof.
  intros H. destruct o as [off len|off len|off len| |]; cbn [rt_step].
  - destruct (mark_sent_spec off len t H) as (t' & -> & Hw & _). eauto.
  - eexists _, _. split; [reflexivity|]. apply (mark_acked_spec off len t H).
  - destruct (unmark_spec off len t H) as (t' & -> & Hw & _). eauto.
  - destruct (unmark_sent_spec t H) as (t' & -> & Hw & _). eauto.
  - pose proof (first_unmarked_spec t H) as X. destruct (rt_first_unmarked t) as [t' [o l]]. exists t', (Some (o, l)). split; [reflexivity|tauto].
Qed.
Lemma runs_wf ops : forall t, rt_wf t -> exists t' h, rt_runs t ops = Some (t', h) /\ rt_wf t'.
Proof.
  induction ops as [|o ops IH]; intros t H; cbn [rt_runs]; [eauto|].
  destruct (step_wf t o H) as (t1 & x & -> & H1). destruct (IH t1 H1) as (t2 & h & -> & H2). eauto.
Qed.
Lemma new_wf : rt_wf rt_new.
Proof. split; [constructor|discriminate]. Qed.
Lemma runs_app a : forall t b t' h, rt_runs t (a ++ b) = Some (t', h) -> exists t1 h1 h2, rt_runs t a = Some (t1, h1) /\ rt_runs t1 b = Some (t', h2) /\ h = h1 ++ h2.
Proof.
  induction a as [|o a IH]; intros t b t' h H; cbn [app rt_runs] in *.
  - exists t, [], h. auto.
  - destruct (rt_step t o) as [[t0 x]|]; [|discriminate]. destruct (rt_runs t0 (a ++ b)) as [[t2 h2]|] eqn:E; [|discriminate].
    injection H as <- <-. destruct (IH _ _ _ _ E) as (t1 & h1 & h3 & E1 & E2 & ->). rewrite E1. exists t1, ((o, x) :: h1), h3. auto.
Qed.
(** The effect of one operation on one byte. *)
Lemma step_bytes t o t' x b : rt_wf t -> rt_step t o = Some (t', x) ->
  state_of t' b = ideal1 o b (state_of t b) \/
  (exists off len, o = TLost off len /\ 0 < len /\ loses_too (state_of t) off len b /\ state_of t' b = None).
Proof.
  intros H E. destruct o as [off len|off len|off len| |]; cbn [rt_step ideal1] in *.
  - destruct (mark_sent_spec off len t H) as (t1 & E1 & Hw & _ & Hs). rewrite E1 in E. injection E as <- <-. left. rewrite Hs. destruct (coversb off len b); [|reflexivity]. destruct (state_of t b) as [[|]|]; reflexivity.
  - injection E as <- <-. left. apply (mark_acked_spec off len t H).
  - destruct (unmark_spec off len t H) as (t1 & E1 & Hw & _ & Hs). rewrite E1 in E. injection E as <- <-. destruct (Hs b) as (S1 & S2 & S3).
    destruct (coversb off len b) eqn:C.
    + left. rewrite S1 by (unfold coversb in C; unfold covers; lia). destruct (state_of t b) as [[|]|]; reflexivity.
    + assert (NC : ~ covers off len b) by (unfold coversb in C; unfold covers; lia).
      destruct (N.eq_dec len 0) as [Z|Z]; [left; apply S3; [exact NC|lia]|].
      assert (D : loses_too (state_of t) off len b \/ ~ loses_too (state_of t) off len b).
      { destruct (N.eq_dec off 0) as [Z1|Z1]; [right; unfold loses_too; lia|].
        destruct (N.lt_ge_cases b (off + len)) as [Z2|Z2]; [right; unfold loses_too; lia|].
        destruct (forallb (fun i => match state_of t (off - 1 + N.of_nat i) with Some false => true | _ => false end) (List.seq 0 (N.to_nat (b + 2 - off)))) eqn:F.
        - left. rewrite forallb_forall in F. unfold loses_too. splits; [lia|lia|]. intros c Hc. specialize (F (N.to_nat (c - (off - 1)))).
          rewrite N2Nat.id in F. replace (off - 1 + (c - (off - 1))) with c in F by lia.
          destruct (state_of t c) as [[|]|]; [|reflexivity|]; exfalso; assert (false = true) by (apply F; apply in_seq; lia); discriminate.
        - right. intros (_ & _ & L). assert (X : forallb (fun i => match state_of t (off - 1 + N.of_nat i) with Some false => true | _ => false end) (List.seq 0 (N.to_nat (b + 2 - off))) = true); [|congruence].
          apply forallb_forall. intros i Hi. apply in_seq in Hi. rewrite L by lia. reflexivity. }
      destruct D as [D|D]; [right; exists off, len; splits; auto; [lia|apply S2; auto; lia]|left; apply S3; auto].
  - destruct (unmark_sent_spec t H) as (t1 & E1 & Hw & _ & Hs). rewrite E1 in E. injection E as <- <-. left. rewrite Hs. destruct (state_of t b) as [[|]|]; reflexivity.
  - left. pose proof (first_unmarked_spec t H) as X. destruct (rt_first_unmarked t) as [t1 [o l]]. injection E as <- <-. destruct X as (_ & Xa & Xu & _). unfold state_of. rewrite Xa, Xu. reflexivity.
Qed.
Lemma ideal_app a : forall b c s, ideal (a ++ b) c s = ideal b c (ideal a c s).
Proof. induction a as [|o a IH]; intros; cbn [app ideal]; auto. Qed.
Lemma runs_snoc ops o t' h : rt_runs rt_new (ops ++ [o]) = Some (t', h) ->
  exists t h0 x, rt_runs rt_new ops = Some (t, h0) /\ rt_wf t /\ rt_step t o = Some (t', x).
Proof.
  intros H. destruct (runs_app _ _ _ _ _ H) as (t & h1 & h2 & E1 & E2 & ->). exists t, h1. cbn [rt_runs] in E2.
  destruct (rt_step t o) as [[t2 x]|] eqn:E; [|discriminate]. injection E2 as <- <-. exists x. splits; auto.
  destruct (runs_wf ops _ new_wf) as (t3 & h3 & E3 & W). rewrite E1 in E3. injection E3 as <- _. exact W.
Qed.
Lemma acked_exact ops : forall t h b, rt_runs rt_new ops = Some (t, h) -> (state_of t b = Some true <-> was_acked ops b).
Proof.
  induction ops as [|o ops IH] using rev_ind; intros t h b H.
  - injection H as <- <-. unfold state_of. cbn. replace (b <? 0) with false by lia. split; [discriminate|]. intros (off & len & [] & _).
  - destruct (runs_snoc _ _ _ _ H) as (t0 & h0 & x & E0 & W & Es). specialize (IH _ _ b E0).
    assert (WA : was_acked (ops ++ [o]) b <-> was_acked ops b \/ exists off len, o = TAcked off len /\ covers off len b).
    { unfold was_acked. split.
      - intros (off & len & Hi & Hc). apply in_app_iff in Hi. destruct Hi as [Hi|[Hi|[]]]; [left; eauto|right; eauto].
      - intros [(off & len & Hi & Hc)|(off & len & -> & Hc)]; exists off, len; (split; [|exact Hc]); apply in_app_iff; [auto|right; left; reflexivity]. }
    rewrite WA, <- IH. destruct (step_bytes _ _ _ _ b W Es) as [E|(off & len & -> & Hl & L & E)].
    + rewrite E. destruct o as [off len|off len|off len| |]; cbn [ideal1].
      * destruct (coversb off len b); destruct (state_of t0 b) as [[|]|]; split; try discriminate; auto; intros [?|(? & ? & ? & ?)]; try discriminate; auto.
      * destruct (coversb off len b) eqn:C; unfold coversb in C.
        -- split; [intros _; right; exists off, len; split; [reflexivity|unfold covers; lia]|reflexivity].
        -- split; [auto|]. intros [?|(? & ? & Ei & Hc)]; [auto|]. injection Ei as <- <-. unfold covers in Hc. lia.
      * destruct (coversb off len b); destruct (state_of t0 b) as [[|]|]; split; try discriminate; auto; intros [?|(? & ? & ? & ?)]; try discriminate; auto.
      * destruct (state_of t0 b) as [[|]|]; split; try discriminate; auto; intros [?|(? & ? & ? & ?)]; try discriminate; auto.
      * split; [auto|]. intros [?|(? & ? & ? & ?)]; [auto|discriminate].
    + rewrite E. split; [discriminate|]. intros [X|(? & ? & ? & ?)]; [|discriminate]. destruct L as (? & ? & L). rewrite (L b) in X by lia. discriminate.
Qed.
Lemma in_flight_sound ops : forall t h b, rt_runs rt_new ops = Some (t, h) -> state_of t b = Some false -> sent_not_lost ops b /\ ~ was_acked ops b.
Proof.
  intros t h b H E. split.
  2:{ intros X. apply (acked_exact ops t h b H) in X. congruence. }
  revert t h H E. induction ops as [|o ops IH] using rev_ind; intros t h H E.
  - injection H as <- <-. unfold state_of in E. cbn in E. replace (b <? 0) with false in E by lia. discriminate.
  - destruct (runs_snoc _ _ _ _ H) as (t0 & h0 & x & E0 & W & Es).
    assert (Keep : state_of t0 b = Some false -> (match o with TLost off' len' => ~ covers off' len' b | TUnmarkSent => False | _ => True end) -> sent_not_lost (ops ++ [o]) b).
    { intros X Y. destruct (IH _ _ E0 X) as (be & off & len & af & -> & Hc & Ha). exists be, off, len, (af ++ [o]). splits; [rewrite <- app_assoc; reflexivity|exact Hc|].
      intros o' Hi. apply in_app_iff in Hi. destruct Hi as [Hi|[<-|[]]]; [apply Ha; exact Hi|exact Y]. }
    destruct (step_bytes _ _ _ _ b W Es) as [E1|(off & len & -> & Hl & L & E1)]; [|congruence].
    rewrite E1 in E. destruct o as [off len|off len|off len| |]; cbn [ideal1] in E.
    + destruct (coversb off len b) eqn:C; [|apply Keep; auto].
      exists ops, off, len, []. splits; [reflexivity|unfold coversb in C; unfold covers; lia|intros o []].
    + destruct (coversb off len b); [discriminate|apply Keep; auto].
    + destruct (coversb off len b) eqn:C; [destruct (state_of t0 b) as [[|]|]; discriminate|]. apply Keep; auto. unfold coversb in C. unfold covers. lia.
    + destruct (state_of t0 b) as [[|]|]; discriminate.
    + apply Keep; auto.
Qed.
Lemma exact_at_edges ops : forall t h, losses_at_edges ops -> rt_runs rt_new ops = Some (t, h) -> forall b, state_of t b = ideal ops b None.
Proof.
  induction ops as [|o ops IH] using rev_ind; intros t h HL H b.
  - injection H as <- <-. unfold state_of. cbn. replace (b <? 0) with false by lia. reflexivity.
  - destruct (runs_snoc _ _ _ _ H) as (t0 & h0 & x & E0 & W & Es).
    assert (I : forall c, state_of t0 c = ideal ops c None).
    { eapply IH; [|exact E0]. intros be off len af E. apply (HL be off len (af ++ [o])). rewrite E, <- app_assoc. reflexivity. }
    rewrite ideal_app. cbn [ideal]. rewrite <- I. destruct (step_bytes _ _ _ _ b W Es) as [E1|(off & len & -> & Hl & L & E1)]; [exact E1|].
    exfalso. destruct L as (L1 & L2 & L3). apply (HL ops off len [] eq_refl Hl L1); rewrite <- I; apply L3; lia.
Qed.

Lemma send_ranges_never_panic_lemma : forall ops, rt_runs rt_new ops <> None.
Proof. intros ops. destruct (runs_wf ops _ new_wf) as (t & h & -> & _). discriminate. Qed.
Lemma reach_wf ops t h : rt_runs rt_new ops = Some (t, h) -> rt_wf t.
Proof. intros H. destruct (runs_wf ops _ new_wf) as (t' & h' & E & W). rewrite H in E. injection E as <- _. exact W. Qed.
Lemma acked_prefix_lemma : forall ops t h, rt_runs rt_new ops = Some (t, h) ->
  (forall b, b < rt_acked t -> was_acked ops b) /\ ~ was_acked ops (rt_acked t).
Proof.
  intros ops t h H. split.
  - intros b Hb. apply (acked_exact ops t h b H). rewrite state_at. replace (b <? rt_acked t) with true by lia. reflexivity.
  - intros X. apply (acked_exact ops t h _ H) in X. rewrite state_at in X. replace (rt_acked t <? rt_acked t) with false in X by lia.
    destruct (reach_wf _ _ _ H) as [W _]. destruct (rt_used t) as [|[o [n s]] l]; [discriminate|]. cbn [chain at_] in *. destruct W as (W1 & W2 & W3 & W4).
    destruct (_ && _) eqn:E.
    + injection X as ->. apply W3; [lia|reflexivity].
    + rewrite (at_low _ _ _ _ W4) in X by lia. discriminate.
Qed.
Lemma lost_bytes_lemma : forall ops t h b, rt_runs rt_new ops = Some (t, h) ->
  ~ was_acked ops b -> ~ sent_not_lost ops b -> state_of t b = None.
Proof.
  intros ops t h b H N1 N2. destruct (state_of t b) as [[|]|] eqn:E; [|exfalso|reflexivity].
  - exfalso. apply N1. apply (acked_exact ops t h b H). exact E.
  - apply N2. apply (in_flight_sound ops t h b H E).
Qed.
Lemma next_range_lemma : forall ops t h, rt_runs rt_new ops = Some (t, h) ->
  let '(o, l) := snd (rt_first_unmarked t) in lowest_run (state_of t) o l.
Proof.
  intros ops t h H. pose proof (first_unmarked_spec t (reach_wf _ _ _ H)) as X. destruct (rt_first_unmarked t) as [t' [o l]]. cbn [snd]. tauto.
Qed.
Lemma step_exact_lemma : forall ops t h o t' x b, rt_runs rt_new ops = Some (t, h) -> rt_step t o = Some (t', x) ->
  (forall off len, o = TLost off len -> 0 < len -> loses_too (state_of t) off len b -> state_of t' b = None) /\
  ((forall off len, o = TLost off len -> 0 < len -> ~ loses_too (state_of t) off len b) -> state_of t' b = ideal1 o b (state_of t b)).
Proof.
  intros ops t h o t' x b H E. assert (W := reach_wf _ _ _ H). split.
  - intros off len -> Hl L. cbn [rt_step] in E. destruct (unmark_spec off len t W) as (t1 & E1 & _ & _ & Hs). rewrite E1 in E. injection E as <- _.
    apply (Hs b); auto.
  - intros N. destruct (step_bytes _ _ _ _ b W E) as [X|(off & len & -> & Hl & L & _)]; [exact X|]. exfalso. exact (N off len eq_refl Hl L).
Qed.
Lemma in_flight_refuted_lemma : exists ops t h b,
  rt_runs rt_new ops = Some (t, h) /\ sent_not_lost ops b /\ ~ was_acked ops b /\ state_of t b = None.
Proof.
  exists [TSent 0 100; TSent 100 100; TSent 200 100; TLost 100 100], (mkRt 0 [(0, (100, false))] None).
  eexists. exists 250. split; [vm_compute; reflexivity|]. splits.
  - exists [TSent 0 100; TSent 100 100], 200, 100, [TLost 100 100]. splits; [reflexivity|unfold covers; lia|].
    intros o [<-|[]]. unfold covers. lia.
  - intros (off & len & Hi & _). repeat (destruct Hi as [Hi|Hi]; [discriminate|]). destruct Hi.
  - reflexivity.
Qed.
