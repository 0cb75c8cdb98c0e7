(** C96: server push. *)
From Verif Require Import Base Lib HpModel HpSpec HpProofs HpProofs2.
From Coq Require Import Sorted.
Open Scope N_scope.
Open Scope list_scope.
Import ListNotations.

(** However the peer and the application behave, at most the number of pushes the application allows are open at once (one, even if it
    allows none), and no id above the last announced one (zero, if none was) is ever touched. *)
Theorem push_limit max os c : p_run (c_new max) os = Some c ->
  lenN (filter is_open (c_q c)) <= N.max 1 max /\ (forall id, is_open (view c id) = true -> id <= c_cur c) /\
  (c_cur c = 0 /\ max_ids (c_frames c) = [] \/ exists l, max_ids (c_frames c) = l ++ [c_cur c]).
Proof.
  intros E. pose proof (run_new _ _ _ E) as I. pose proof (run_max _ _ _ E) as Em. cbn in Em. split; [|split].
  - assert (G : forall q n, (forall i, (n <= i)%nat -> nth i q PInit = PInit) -> (length (filter is_open q) + length (filter is_closed q) <= n)%nat).
    { induction q as [|v q IH]; intros n H; [cbn; lia|]. destruct n as [|n].
      - assert (Z : (length (filter is_open q) + length (filter is_closed q) <= 0)%nat) by (apply IH; intros i _; apply (H (S i)); lia).
        pose proof (H 0%nat ltac:(lia)) as H0. cbn in H0. subst v. cbn. exact Z.
      - assert (Z : (length (filter is_open q) + length (filter is_closed q) <= n)%nat) by (apply IH; intros i Hi; apply (H (S i)); lia).
        destruct v; cbn [filter is_open is_closed length]; lia. }
    destruct (N.lt_ge_cases (c_cur c) (c_first c)) as [L|L].
    + assert (Z : (length (filter is_open (c_q c)) + length (filter is_closed (c_q c)) <= 0)%nat).
      { apply G. intros i _. pose proof (i_init _ _ I (c_first c + N.of_nat i) ltac:(lia)) as V. unfold view in V.
        destruct (N.ltb_spec (c_first c + N.of_nat i) (c_first c)); [lia|]. replace (N.to_nat (c_first c + N.of_nat i - c_first c)) with i in V by lia. exact V. }
      unfold lenN. lia.
    + pose proof (i_room _ _ I) as R. unfold number_done, lenN in *. rewrite Em in R.
      assert (Z : (length (filter is_open (c_q c)) + length (filter is_closed (c_q c)) <= N.to_nat (c_cur c + 1 - c_first c))%nat).
      { apply G. intros i Hi. pose proof (i_init _ _ I (c_first c + N.of_nat i) ltac:(lia)) as V. unfold view in V.
        destruct (N.ltb_spec (c_first c + N.of_nat i) (c_first c)); [lia|]. replace (N.to_nat (c_first c + N.of_nat i - c_first c)) with i in V by lia. exact V. }
      lia.
  - intros id H. destruct (N.le_gt_cases id (c_cur c)); [auto|]. rewrite (i_init _ _ I id) in H by lia. discriminate.
  - apply (i_told _ _ I).
Qed.
Print Assumptions push_limit.

(** The ids announced to the peer only grow. *)
Theorem push_ids_grow max os c : p_run (c_new max) os = Some c -> StronglySorted N.lt (max_ids (c_frames c)).
Proof. intros E. apply (i_told _ _ (run_new _ _ _ E)). Qed.
Print Assumptions push_ids_grow.

(** Whenever the ids are reviewed, more than half of the allowance is left to the peer afterwards: pushes that end are made up for. *)
Theorem push_allowance max os c c' r : 0 < max -> p_run (c_new max) os = Some c -> p_step c OMaxPush = Some (c', r) ->
  number_done c' + max / 2 < c_cur c' + 1.
Proof.
  intros M E S. pose proof (run_max _ _ _ E) as Em. cbn in Em. cbn [p_step] in S. unfold maybe_max_push in S. rewrite Em in S.
  destruct (N.eqb_spec max 0); [lia|]. destruct (N.ltb_spec (c_cur c + 1) (number_done c)); [discriminate|].
  destruct (N.leb_spec (c_cur c + 1 - number_done c) (max / 2)).
  - destruct (2 ^ 62 <=? _); [discriminate|]. injection S as <- _. change (number_done (send_frame _ _)) with (number_done c). cbn [send_frame c_cur].
    pose proof (N.div_lt max 2 ltac:(lia) ltac:(lia)). lia.
  - injection S as <- _. lia.
Qed.
Print Assumptions push_allowance.

(** But if the application allows a single push, the peer, which may not push before it is told an id, is never told one. *)
Theorem single_push_refuted : exists max, 0 < max /\ forall n c, p_run (c_new max) (repeat OMaxPush n) = Some c -> c_frames c = [].
Proof.
  exists 1. split; [lia|]. assert (G : forall n c, p_run (c_new 1) (repeat OMaxPush n) = Some c -> c = c_new 1).
  { induction n as [|n IH]; intros c; cbn [repeat p_run]; [intros H; injection H as <-; auto|]. change (p_step (c_new 1) OMaxPush) with (Some (c_new 1, POk)). cbn beta iota. apply IH. }
  intros n c H. apply G in H. subst. reflexivity.
Qed.
Print Assumptions single_push_refuted.

(** What a push's stream brings is told only after the push's promise. *)
Theorem push_promise_first max os c a e b id : p_run (c_new max) os = Some c -> c_posted c = a ++ e :: b -> from_stream id e = true ->
  exists p, In p a /\ promise_of id p.
Proof. intros E. apply (i_order _ _ (run_new _ _ _ E)). Qed.
Print Assumptions push_promise_first.

(** And all of it is told, in order, once the promise is: none before it. *)
Theorem push_events_kept max os c id : p_run (c_new max) os = Some c ->
  ((exists p, In p (c_posted c) /\ promise_of id p) -> filter (from_stream id) (c_posted c) = raised id os) /\
  (~ (exists p, In p (c_posted c) /\ promise_of id p) -> filter (from_stream id) (c_posted c) = []).
Proof.
  intros E. pose proof (i_stand _ _ (run_new _ _ _ E) id) as W. unfold stands, promised in W.
  generalize dependent (exists e, In e (c_posted c) /\ promise_of id e). intros Q W. destruct (view c id); intuition congruence.
Qed.
Print Assumptions push_events_kept.

(** A push has one stream at most. *)
Theorem push_one_stream max os c id sid c1 os' c2 sid' c3 r : p_run (c_new max) os = Some c -> p_step c (OStream id sid) = Some (c1, PStream true) ->
  p_run c1 os' = Some c2 -> p_step c2 (OStream id sid') = Some (c3, r) -> r <> PStream true.
Proof.
  intros _ E1 E2 E3 ->. apply step_tr in E1, E3. assert (H1 : had_stream (view c1 id) = true).
  { inversion E1 as [? ? ? ? ? ? ? X| | | |? ? ? ? ? ? ? S ?|? ? ? ? ? ? ? ? S ?| | | | | |]; subst; try congruence; rewrite (S id), N.eqb_refl; reflexivity. }
  apply (run_stays _ _ _ id E2) in H1. inversion E3 as [? ? ? ? ? ? ? X| | | |? ? ? ? ? ? V ? ?|? ? ? ? ? ? ? V ? ?| | | | | |]; subst; try congruence; rewrite V in H1; discriminate.
Qed.
Print Assumptions push_one_stream.

(** Once the application has cancelled a push, it hears no more of it. *)
Theorem push_cancel_final max os c id c1 os' c2 : p_run (c_new max) os = Some c -> p_step c (OAppCancel id) = Some (c1, POk) -> p_run c1 os' = Some c2 ->
  forall e, In e (c_events c2) -> about e <> id.
Proof.
  intros E0 E1 E2. pose proof (run_new _ _ _ E0) as I. apply step_tr in E1. pose proof (inv_step _ _ _ _ _ I E1) as I1.
  assert (H : view c1 id = PClosed /\ forall e, In e (c_events c1) -> about e <> id).
  { assert (K : forall e, In e (kept id (c_events c)) -> (forall x, ~ In (EvReset id x) (c_events c)) -> about e <> id).
    { intros e He N. apply kept_in in He as [He R]. destruct e; cbn in *; try (apply N.eqb_neq in R; exact R). intros ->. eapply N; eauto. }
    inversion E1 as [? ? ? ? ? ? ? ? X| | | | | |? x v ? P E ? ? ? ? L V O S A1 A2 C Q Hc|? ? K1 S V Hp A1 A2| | | |]; subst.
    - elim (X id eq_refl). reflexivity.
    - destruct (Hc _ eq_refl) as (-> & -> & ->). split; [rewrite (S x), N.eqb_refl; reflexivity|]. intros e He. rewrite A2, app_nil_r in He. apply K; auto.
      intros y Hy. apply O. apply (i_reset _ _ I x y). apply (i_in _ _ I). exact Hy.
    - split; [rewrite (S id); exact V|]. intros e He. rewrite A2 in He. apply K; auto. intros y Hy. unfold has_push in Hp. apply existsb_exists in Hp as (p & Hp1 & Hp2).
      eapply (i_mixed _ _ I id y p); [apply (i_in _ _ I); exact Hy|exact Hp1|]. destruct p; try discriminate. apply N.eqb_eq in Hp2. exact Hp2.
    - match goal with H : (exists _, _) \/ _ |- _ => destruct H as [(? & ? & ? & ? & _)|[? _]]; discriminate end.
    - match goal with H : (exists _, _) \/ _ |- _ => destruct H as [(? & ? & ? & ? & _)|[? _]]; discriminate end. }
  destruct H as [V N]. clear E1. revert V N I1 E2. generalize (os ++ [OAppCancel id]). revert c1. clear. induction os' as [|o os' IH]; intros c1 pre V N I E2; cbn [p_run] in E2.
  - injection E2 as <-. exact N.
  - destruct (p_step c1 o) as [[c3 r]|] eqn:E; [|discriminate]. apply step_tr in E. eapply (IH c3 (pre ++ [o])); auto.
    + eapply step_stays; eauto.
    + eapply step_closed; eauto. intros sid evs x Vx. pose proof (i_stand _ _ I x) as W. unfold stands in W. rewrite Vx in W. tauto.
    + eapply inv_step; eauto.
Qed.
Print Assumptions push_cancel_final.

(** Nothing panics, as long as only a push's stream speaks for it and it does not end before the promise has come. *)
Definition speaks (c : ctl) (o : pop_) : Prop :=
  match o with
  | ODone id => exists sid hs, view c id = PActive sid hs
  | OHeaders id _ _ _ | OData id => (exists sid hs, view c id = PActive sid hs) \/ (exists sid evs, view c id = POnly sid evs)
  | OReset id _ => had_stream (view c id) = true
  | _ => True
  end.
Theorem push_no_panic max os c o : p_run (c_new max) os = Some c -> speaks c o -> number_done c + max <= 2 ^ 62 -> p_step c o <> None.
Proof.
  intros E Sp B. pose proof (run_new _ _ _ E) as I. pose proof (run_max _ _ _ E) as Em. cbn in Em. destruct o as [id req hs|id sid|id|id|id|id own|id| |id hs i f|id|]; cbn [p_step speaks] in *; try discriminate.
  - destruct Sp as (sid & hs & V). unfold stream_done. rewrite get_view, view_touch, V. discriminate.
  - unfold stream_reset. rewrite get_view, view_touch. destruct (view c id); cbn in Sp; discriminate.
  - unfold maybe_max_push. destruct (c_max c =? 0) eqn:Z; [discriminate|]. apply N.eqb_neq in Z.
    destruct (N.ltb_spec (c_cur c + 1) (number_done c)) as [L|L].
    + exfalso. assert (G : forall q n, (forall i, (n <= i)%nat -> nth i q PInit = PInit) -> (length (filter is_closed q) <= n)%nat).
      { induction q as [|v q IH]; intros n H; [cbn; lia|]. destruct n as [|n].
        - assert (Y : (length (filter is_closed q) <= 0)%nat) by (apply IH; intros i _; apply (H (S i)); lia).
          pose proof (H 0%nat ltac:(lia)) as H0. cbn in H0. subst v. cbn. exact Y.
        - assert (Y : (length (filter is_closed q) <= n)%nat) by (apply IH; intros i Hi; apply (H (S i)); lia).
          destruct v; cbn [filter is_closed length]; lia. }
      assert (F : c_first c <= c_cur c + 1).
      { destruct (N.le_gt_cases (c_first c) (c_cur c + 1)); [auto|]. exfalso. pose proof (i_init _ _ I (c_cur c + 1) ltac:(lia)) as V. unfold view in V.
        destruct (N.ltb_spec (c_cur c + 1) (c_first c)); [discriminate|lia]. }
      assert (Y : (length (filter is_closed (c_q c)) <= N.to_nat (c_cur c + 1 - c_first c))%nat).
      { apply G. intros i Hi. pose proof (i_init _ _ I (c_first c + N.of_nat i) ltac:(lia)) as V. unfold view in V.
        destruct (N.ltb_spec (c_first c + N.of_nat i) (c_first c)); [lia|]. replace (N.to_nat (c_first c + N.of_nat i - c_first c)) with i in V by lia. exact V. }
      unfold number_done, lenN in L. lia.
    + destruct (_ <=? c_max c / 2); [|discriminate]. destruct (N.leb_spec (2 ^ 62) (number_done c + c_max c - 1)); [lia|discriminate].
  - unfold stream_event. rewrite get_view, view_touch. destruct Sp as [(a & b & ->)|(a & b & ->)]; discriminate.
  - unfold stream_event. rewrite get_view, view_touch. destruct Sp as [(a & b & ->)|(a & b & ->)]; discriminate.
Qed.
Print Assumptions push_no_panic.

(** A push whose stream comes before its promise and carries only headers ends at once: the assertion in [close] fails (without
    assertions the push is forgotten, and the promise ignored when it comes). *)
Theorem early_end_refuted : exists os, (exists c, p_run (c_new 5) os = Some c /\ exists sid evs, view c 0 = POnly sid evs /\ evs <> []) /\ p_run (c_new 5) (os ++ [ODone 0]) = None.
Proof. exists [OMaxPush; OStream 0 3; OHeaders 0 7 false true]. split; [eexists; split; [reflexivity|]; do 2 eexists; split; [reflexivity|discriminate]|reflexivity]. Qed.
Print Assumptions early_end_refuted.

(** The application is told that a push was cancelled which it was never told of. *)
Theorem unknown_cancel_refuted : exists os c, p_run (c_new 5) os = Some c /\ c_posted c = [EvCanceled 0].
Proof. exists [OMaxPush; OStream 0 3; OCancelFrame 0]. eexists. split; reflexivity. Qed.
Print Assumptions unknown_cancel_refuted.

(** Reading from a push that does not exist makes the controller keep as many entries as the number given. *)
Theorem read_unknown_refuted n : exists c, p_run (c_new 5) [ORead n] = Some c /\ (N.to_nat n < length (c_q c))%nat.
Proof.
  eexists. split; [reflexivity|]. cbn [active_stream fst]. unfold touch, c_new. cbn [c_first]. destruct (N.ltb_spec n 0); [lia|]. cbn [with_q c_q]. unfold resize, inx. cbn [c_first].
  rewrite app_length, repeat_length. cbn. lia.
Qed.
Print Assumptions read_unknown_refuted.

(** Nor do pushes that end free their entries while an older one stays open: a peer that never ends its first push and cancels all others
    makes the client keep an entry for each, though two are open at most. *)
Fixpoint churn (n : nat) : list pop_ := match n with O => [OMaxPush; OPromise 0 0 0] | S n' => churn n' ++ [OCancelFrame (N.of_nat n); OMaxPush] end.
Lemma run_app os : forall c os' c', p_run c os = Some c' -> p_run c (os ++ os') = p_run c' os'.
Proof. induction os as [|o os IH]; intros c os' c'; cbn [p_run app]; [intros H; injection H as <-; auto|]. destruct (p_step c o) as [[c1 r]|]; [|discriminate]. apply IH. Qed.
Lemma set_last q v w : set_nth (q ++ [v]) (length q) w = q ++ [w].
Proof. induction q as [|x q IH]; cbn; [reflexivity|]. rewrite IH. reflexivity. Qed.
Lemma filter_closed n : lenN (filter is_closed (repeat PClosed n)) = N.of_nat n.
Proof. induction n; [reflexivity|]. cbn [repeat filter is_closed]. rewrite lenN_cons, IHn. lia. Qed.
Lemma churn_state n : N.of_nat n < 2 ^ 60 -> exists ev po fr, p_run (c_new 2) (churn n) = Some (mkC 2 (N.of_nat n + 1) 0 (PPromise 0 :: repeat PClosed n) ev po fr).
Proof.
  induction n as [|n IH]; intros B; [do 3 eexists; reflexivity|]. destruct IH as (ev & po & fr & IH); [lia|].
  exists ev, po, (fr ++ [FMaxPush (N.of_nat (S n) + 1)]). cbn [churn]. rewrite (run_app _ _ _ _ IH). cbn [p_run p_step]. unfold cancel_frame. cbn [c_cur].
  destruct (N.ltb_spec (N.of_nat n + 1) (N.of_nat (S n))); [lia|].
  unfold touch. cbn [c_first]. destruct (N.ltb_spec (N.of_nat (S n)) 0); [lia|]. unfold inx. cbn [c_first]. replace (N.to_nat (N.of_nat (S n) - 0)) with (S n) by lia.
  unfold with_q. cbn [c_q c_max c_cur c_events c_posted c_frames]. unfold resize. cbn [length]. rewrite repeat_length. replace (S (S n) - S n)%nat with 1%nat by lia. cbn [repeat].
  rewrite get_view. unfold view. cbn [c_first c_q]. destruct (N.ltb_spec (N.of_nat (S n)) 0); [lia|]. replace (N.to_nat (N.of_nat (S n) - 0)) with (S n) by lia.
  rewrite app_nth2 by (cbn [length]; rewrite repeat_length; lia). cbn [length]. rewrite repeat_length, Nat.sub_diag. cbn [nth].
  unfold p_close, p_set, with_q, inx. cbn [c_q c_max c_cur c_events c_posted c_frames c_first]. replace (N.to_nat (N.of_nat (S n) - 0)) with (S n) by lia.
  replace (set_nth ((PPromise 0 :: repeat PClosed n) ++ [PInit]) (S n) PClosed) with ((PPromise 0 :: repeat PClosed n) ++ [PClosed])
    by (rewrite <- (set_last _ PInit PClosed); cbn [length]; rewrite repeat_length; reflexivity).
  cbn [app pop]. rewrite <- repeat_cons. change (PClosed :: repeat PClosed n) with (repeat PClosed (S n)). unfold maybe_max_push. cbn [c_max c_cur N.eqb].
  unfold number_done. cbn [c_first c_q filter is_closed]. rewrite filter_closed.
  destruct (N.ltb_spec (N.of_nat n + 1 + 1) (0 + N.of_nat (S n))); [lia|]. change (2 / 2) with 1. destruct (N.leb_spec (N.of_nat n + 1 + 1 - (0 + N.of_nat (S n))) 1); [|lia].
  destruct (N.leb_spec (2 ^ 62) (0 + N.of_nat (S n) + 2 - 1)); [lia|]. unfold send_frame. cbn [c_q c_max c_cur c_events c_posted c_frames c_first].
  replace (0 + N.of_nat (S n) + 2 - 1) with (N.of_nat (S n) + 1) by lia. reflexivity.
Qed.
Theorem push_memory_refuted n : N.of_nat n < 2 ^ 60 -> exists os c, p_run (c_new 2) os = Some c /\ lenN (filter is_open (c_q c)) = 1 /\ (n < length (c_q c))%nat.
Proof.
  intros B. destruct (churn_state n B) as (ev & po & fr & E). exists (churn n). eexists. split; [exact E|]. cbn [c_q filter is_open]. split.
  - rewrite lenN_cons. assert (Z : filter is_open (repeat PClosed n) = []) by (clear; induction n; cbn; auto). rewrite Z. reflexivity.
  - cbn [length]. rewrite repeat_length. lia.
Qed.
Print Assumptions push_memory_refuted.

(** A push whose stream precedes its promise: the held events follow the promise. *)
Example push_held : match p_run (c_new 4) [OMaxPush; OStream 1 7; OHeaders 1 5 false false; OData 1; OPromise 1 0 9; OData 1; ODone 1; OAppCancel 1] with
  | Some c => c_posted c = [EvPromise 1 0 9; EvHeaders 1 5 false false; EvData 1; EvData 1] /\ c_events c = [] /\ max_ids (c_frames c) = [3] | None => False end.
Proof. vm_compute. auto. Qed.
