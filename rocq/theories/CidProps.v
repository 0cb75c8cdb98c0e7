(** C29, C30: connection IDs. *)
From Verif Require Import Base Lib CidModel.
From Coq Require Import Sorting.Sorted.

(** ** Specification *)
(** [k] numbers from [s] on. *)
Fixpoint count_up (s : N) (k : nat) : list N := match k with O => [] | S k' => s :: count_up (s + 1) k' end.
(** Connection IDs the peer was given and has not retired; the one the client chose at first does not count. *)
Definition active (g : mgr) : N := lenN (filter (fun p => negb (fst p =? SEQNO_ODCID)) (g_ids g)).
(** A loss is reported only of what was told. *)
Fixpoint lost_ok (g : mgr) (told : list entry) (ops : list gop) : Prop :=
  match ops with
  | [] => True
  | o :: ops' => (match o with GLost e => In e told | _ => True end) /\ match g_step g o with Some (g1, out) => lost_ok g1 (told ++ out) ops' | None => True end
  end.
(** The limit never goes down. *)
Fixpoint limit_ok (g : mgr) (ops : list gop) : Prop :=
  match ops with
  | [] => True
  | o :: ops' => (match o with GLimit l => g_limit g <= N.min 8 l | _ => True end) /\ match g_step g o with Some (g1, _) => limit_ok g1 ops' | None => True end
  end.
(** Generated connection IDs are at most 20 bytes long. *)
Definition gens_ok (gens : list (option (list N) * N)) : Prop := Forall (fun a => match fst a with Some c => lenN c <= 20 | None => True end) gens.
Definition gens_ok_ops (ops : list gop) : Prop := Forall (fun o => match o with GWrite _ gens => gens_ok gens | _ => True end) ops.
Definition share (a b : entry) : Prop := e_seq a = e_seq b \/ e_cid a = e_cid b \/ e_tok a = e_tok b.

(** ** Proofs: the peer's connection IDs *)
Lemma cid_eqb_eq : forall a b, cid_eqb a b = true <-> a = b.
Proof. intros a b. unfold cid_eqb. destruct (list_eq_dec N.eq_dec a b); split; congruence. Qed.
Lemma any_part_share : forall a b, any_part a b = true <-> share a b.
Proof. intros a b. unfold any_part, share. rewrite !orb_true_iff, !N.eqb_eq, cid_eqb_eq. tauto. Qed.
Lemma e_eqb_eq : forall a b, e_eqb a b = true <-> a = b.
Proof. intros [a b c] [x y z]. unfold e_eqb. cbn. rewrite !andb_true_iff, !N.eqb_eq, cid_eqb_eq. split; [intros [[-> ->] ->]; reflexivity|intros H; inv H; auto]. Qed.
Lemma in_insert : forall e l x, In x (insert_sorted e l) <-> x = e \/ In x l.
Proof. intros e. induction l as [|y l IH]; intros x; cbn; [intuition|]. destruct (_ <? _); cbn; [intuition congruence|]. rewrite IH. tauto. Qed.
Definition consistent (l : list entry) : Prop :=
  StronglySorted (fun a b => e_seq a < e_seq b) l /\ (forall a b, In a l -> In b l -> share a b -> a = b) /\ NoDup (map e_cid l) /\ NoDup (map e_tok l).
Lemma nodup_map_insert : forall (B : Type) (f : entry -> B) e l, NoDup (map f l) -> (forall x, In x l -> f x <> f e) -> NoDup (map f (insert_sorted e l)).
Proof.
  intros B f e. induction l as [|y l IH]; intros D X; cbn; [repeat constructor; auto|]. inv D. destruct (_ <? _).
  - cbn. constructor; [|now constructor]. intros [E|E]; [now apply (X y); [left|]|]. apply in_map_iff in E. destruct E as (z & E & Z). apply (X z); [now right|exact E].
  - cbn. constructor; [|apply IH; auto; intros x Ix; apply X; now right]. intros E. apply in_map_iff in E. destruct E as (z & E & Z). apply in_insert in Z. destruct Z as [->|Z]; [apply (X y); [now left|congruence]|]. apply H1. rewrite <- E. now apply in_map.
Qed.
Lemma sorted_insert : forall e l, StronglySorted (fun a b => e_seq a < e_seq b) l -> (forall x, In x l -> e_seq x <> e_seq e) -> StronglySorted (fun a b => e_seq a < e_seq b) (insert_sorted e l).
Proof.
  intros e. induction l as [|y l IH]; intros D X; cbn; [repeat constructor|]. inv D. destruct (N.ltb_spec (e_seq e) (e_seq y)).
  - constructor; [now constructor|]. constructor; [exact H|]. rewrite Forall_forall in *. intros z Z. specialize (H2 z Z). lia.
  - constructor; [apply IH; auto; intros; apply X; now right|]. rewrite Forall_forall in *. intros z Z. apply in_insert in Z. destruct Z as [->|Z]; [|auto]. specialize (X y (or_introl eq_refl)). lia.
Qed.
Lemma consistent_filter : forall f l, consistent l -> consistent (filter f l).
Proof.
  intros f l (A & B & C & D). unfold consistent. splits.
  - clear - A. induction A as [|x l A IH F]; cbn; [constructor|]. destruct (f x); [|exact IH]. constructor; [exact IH|]. rewrite Forall_forall in *. intros z Z. apply filter_In in Z. now apply F.
  - intros a b Ia Ib. apply filter_In in Ia. apply filter_In in Ib. now apply B.
  - clear - C. induction l as [|x l IH]; cbn in *; [constructor|]. inv C. destruct (f x); cbn; auto. constructor; auto. intros E. apply H1. apply in_map_iff in E. destruct E as (z & E & Z). apply filter_In in Z. rewrite <- E. now apply in_map.
  - clear - D. induction l as [|x l IH]; cbn in *; [constructor|]. inv D. destruct (f x); cbn; auto. constructor; auto. intros E. apply H1. apply in_map_iff in E. destruct E as (z & E & Z). apply filter_In in Z. rewrite <- E. now apply in_map.
Qed.
Lemma add_cases : forall e l,
  (In e l /\ add_remote e l = Some l) \/
  (~ In e l /\ (exists x, In x l /\ share x e) /\ add_remote e l = None) \/
  ((forall x, In x l -> ~ share x e) /\ add_remote e l = Some (insert_sorted e l)).
Proof.
  intros e l. unfold add_remote. destruct (existsb (fun c => e_eqb c e) l) eqn:E1.
  - left. apply existsb_exists in E1. destruct E1 as (x & I & E). apply e_eqb_eq in E. subst. auto.
  - right. destruct (existsb (fun c => any_part c e) l) eqn:E2.
    + left. apply existsb_exists in E2. destruct E2 as (x & I & E). apply any_part_share in E. splits; eauto. intros X. assert (existsb (fun c => e_eqb c e) l = true) by (apply existsb_exists; exists e; split; [exact X|now apply e_eqb_eq]). congruence.
    + right. split; [|reflexivity]. intros x I Sh. assert (existsb (fun c => any_part c e) l = true) by (apply existsb_exists; exists x; split; [exact I|now apply any_part_share]). congruence.
Qed.
Lemma r_step_consistent : forall l o, consistent l -> consistent (r_step l o).
Proof.
  intros l o C. destruct o as [e|n|]; cbn [r_step].
  - destruct (add_cases e l) as [(I & ->)|[(I & _ & ->)|(F & ->)]]; auto. destruct C as (A & B & C & D). unfold consistent. splits.
    + apply sorted_insert; auto. intros x I E. apply (F x I). now left.
    + intros a b Ia Ib Sh. apply in_insert in Ia. apply in_insert in Ib. destruct Ia as [->|Ia], Ib as [->|Ib]; auto; [elim (F b Ib); unfold share in *; intuition|elim (F a Ia); exact Sh].
    + apply nodup_map_insert; auto. intros x I E. apply (F x I). right. now left.
    + apply nodup_map_insert; auto. intros x I E. apply (F x I). right. now right.
  - now apply consistent_filter.
  - destruct l as [|x l]; [exact C|]. destruct C as (A & B & C & D). cbn. inv A. inv C. inv D. unfold consistent. splits; auto. intros a b Ia Ib. apply B; now right.
Qed.

(** C30: after any sequence of additions, retirements and uses, no two entries share a part, and they are in order. *)
Theorem remote_store_consistent : forall ops, let l := r_run [] ops in
  (forall i j a b, nth_error l i = Some a -> nth_error l j = Some b -> share a b -> i = j) /\ StronglySorted (fun a b => e_seq a < e_seq b) l.
Proof.
  intros ops l. assert (C : consistent l).
  { unfold l. assert (G : forall ops l, consistent l -> consistent (r_run l ops)) by (clear; induction ops as [|o ops IH]; intros l C; [exact C|]; apply IH; now apply r_step_consistent).
    apply G. unfold consistent. cbn. splits; try constructor; try (intros a b []). }
  clearbody l. destruct C as (A & B & C & _). split; [|exact A]. intros i j a b Ea Eb Sh. assert (a = b) by (apply B; auto; eapply nth_error_In; eauto). subst b.
  eapply (NoDup_nth_error (map e_cid l)); [exact C|rewrite map_length; apply nth_error_Some; congruence|]. erewrite !map_nth_error; eauto.
Qed.
Print Assumptions remote_store_consistent.
(** C30: what happens to a new entry. *)
Theorem add_remote_decides : forall e l,
  (In e l -> add_remote e l = Some l) /\
  (~ In e l -> (exists x, In x l /\ share x e) -> add_remote e l = None) /\
  ((forall x, In x l -> ~ share x e) -> exists l', add_remote e l = Some l' /\ forall x, In x l' <-> x = e \/ In x l).
Proof.
  intros e l. destruct (add_cases e l) as [(I & E)|[(I & (x & Ix & Sh) & E)|(F & E)]]; rewrite E; splits; intros; auto; try contradiction.
  - elim (H e I). now left.
  - elim (H x Ix Sh).
  - elim (F e); [assumption|now left].
  - destruct H0 as (x & Ix & Sh). elim (F x Ix Sh).
  - eexists. split; [reflexivity|]. apply in_insert.
Qed.
Print Assumptions add_remote_decides.
(** C30: retiring removes exactly the entries below the number (those of zero length have none to retire), and reports
    each of them. *)
Theorem retire_prior_exact : forall n l, let '(l', out) := retire_prior_to n l in
  (forall e, In e l' <-> In e l /\ (n <= e_seq e \/ e_cid e = [] \/ e_seq e = SEQNO_EMPTY)) /\
  (forall s, In s out <-> exists e, In e l /\ ~ In e l' /\ e_seq e = s) /\
  lenN l = lenN l' + lenN out.
Proof.
  intros n l. cbn. assert (G : forall e, negb (gone n e) = true <-> (n <= e_seq e \/ e_cid e = [] \/ e_seq e = SEQNO_EMPTY)).
  { intros e. unfold gone, e_empty, is_nil. destruct (N.ltb_spec (e_seq e) n), (N.eqb_spec (e_seq e) SEQNO_EMPTY), (e_cid e); cbn; split; intros; auto; try discriminate; intuition; try lia; congruence. }
  splits.
  - intros e. rewrite filter_In, G. tauto.
  - intros s. rewrite in_map_iff. split.
    + intros (e & E & I). apply filter_In in I. destruct I as [I I']. exists e. splits; auto. rewrite filter_In. intros [_ X]. now rewrite I' in X.
    + intros (e & I & N' & E). exists e. split; [exact E|]. apply filter_In. split; [exact I|]. destruct (gone n e) eqn:X; [reflexivity|]. elim N'. apply filter_In. now rewrite X.
  - clear. unfold lenN. rewrite map_length. induction l as [|e l IH]; [reflexivity|]. cbn [filter]. destruct (gone n e); cbn [negb length]; lia.
Qed.
Print Assumptions retire_prior_exact.
(** C30: the connection ID used next is the one with the lowest number. *)
Theorem next_is_lowest : forall ops e l', store_next (r_run [] ops) = (l', Some e) -> forall x, In x (r_run [] ops) <-> x = e \/ In x l' /\ e_seq e < e_seq x.
Proof.
  intros ops e l' H x. destruct (remote_store_consistent ops) as (_ & A). destruct (r_run [] ops) as [|y l]; [discriminate|]. cbn in H. injection H as -> ->. inv A. rewrite Forall_forall in H2. cbn. intuition.
Qed.
Print Assumptions next_is_lowest.
Example remote_story : r_run [] [RAdd (mkE 3 [7] 30); RAdd (mkE 1 [8] 10); RAdd (mkE 2 [8] 20); RAdd (mkE 2 [9] 20); RNext; RPrior 3] = [mkE 3 [7] 30].
Proof. reflexivity. Qed.
Example remote_reuse_refused : add_remote (mkE 2 [8] 20) [mkE 1 [8] 10] = None.
Proof. reflexivity. Qed.

(** ** Proofs: our connection IDs *)
Lemma count_up_in : forall k s x, In x (count_up s k) <-> s <= x < s + N.of_nat k.
Proof. induction k as [|k IH]; intros s x; cbn [count_up In]; [lia|]. rewrite IH. lia. Qed.
Lemma count_up_nodup : forall k s, NoDup (count_up s k).
Proof. induction k as [|k IH]; intros s; cbn; constructor; auto. rewrite count_up_in. lia. Qed.
Lemma vlen_le : forall v, 1 <= vlen v <= 8.
Proof. intros v. unfold vlen. destruct (_ <? _); [lia|]. destruct (_ <? _); [lia|]. destruct (_ <? _); lia. Qed.
Definition pair_of (e : entry) : N * list N := (e_seq e, e_cid e).
Lemma write_new_spec : forall gens rem g g' out, write_new rem gens g = Some (g', out) -> g_next g <= 2 ^ 62 ->
  exists new, g_ids g' = g_ids g ++ new /\ map fst new = count_up (g_next g) (length new) /\ g_next g' = g_next g + lenN new /\ g_next g' <= 2 ^ 62 /\
    g_limit g' = g_limit g /\ g_lost g' = g_lost g /\ g_empty g' = g_empty g /\
    lenN (g_ids g') <= N.max (g_limit g) (lenN (g_ids g)) /\ Forall (fun p => snd p <> []) new /\
    (forall e, In e out -> In (pair_of e) new) /\ NoDup (map e_seq out) /\ (gens_ok gens -> map pair_of out = new).
Proof.
  assert (Done : forall g, g_next g <= 2 ^ 62 -> exists new, g_ids g = g_ids g ++ new /\ map fst new = count_up (g_next g) (length new) /\ g_next g = g_next g + lenN new /\ g_next g <= 2 ^ 62 /\
    g_limit g = g_limit g /\ g_lost g = g_lost g /\ g_empty g = g_empty g /\
    lenN (g_ids g) <= N.max (g_limit g) (lenN (g_ids g)) /\ Forall (fun p => snd p <> []) new /\
    (forall e, In e [] -> In (pair_of e) new) /\ NoDup (map e_seq []) /\ (map pair_of [] = new)).
  { intros g B. exists []. rewrite app_nil_r, lenN_nil. cbn. splits; auto; try lia; constructor. }
  assert (Done' : forall (X : Prop) g g' out, Some (g, []) = Some (g', out) -> g_next g <= 2 ^ 62 -> exists new, g_ids g' = g_ids g ++ new /\ map fst new = count_up (g_next g) (length new) /\ g_next g' = g_next g + lenN new /\ g_next g' <= 2 ^ 62 /\
    g_limit g' = g_limit g /\ g_lost g' = g_lost g /\ g_empty g' = g_empty g /\
    lenN (g_ids g') <= N.max (g_limit g) (lenN (g_ids g)) /\ Forall (fun p => snd p <> []) new /\
    (forall e, In e out -> In (pair_of e) new) /\ NoDup (map e_seq out) /\ (X -> map pair_of out = new)).
  { intros X g g' out H B. apply some_inj in H. apply pair_equal_spec in H. destruct H as [<- <-]. destruct (Done g B) as (new & D). exists new. tauto. }
  clear Done. induction gens as [|[[cid|] tok] gens IH]; intros rem g g' out H B; cbn [write_new] in H.
  - destruct (_ && _); [discriminate|]. now apply Done'.
  - destruct ((lenN (g_ids g) <? g_limit g) && (47 <=? rem)) eqn:C; [|now apply Done']. apply andb_true_iff in C. destruct C as [C1 C2]. apply N.ltb_lt in C1. apply N.leb_le in C2.
    destruct (is_nil cid || (2 ^ 62 <=? g_next g)) eqn:Z; [discriminate|]. apply orb_false_iff in Z. destruct Z as [Z1 Z2]. apply N.leb_gt in Z2.
    set (e := mkE (g_next g) cid tok) in *. set (g1 := mkG _ _ _ _ _) in *. destruct (write_new _ gens g1) as [[g2 out2]|] eqn:W; [|discriminate]. apply some_inj in H. apply pair_equal_spec in H. destruct H as [<- H].
    apply IH in W; [|unfold g1; cbn [g_next]; lia]. destruct W as (new & W1 & W2 & W3 & W4 & W5 & W6 & W7 & W8 & W9 & W10 & W11 & W12). unfold g1 in *. cbn [g_ids g_next g_limit g_lost g_empty] in *. clear IH Done'.
    assert (Hin : forall x, In x new -> g_next g < fst x) by (intros x X; apply (in_map fst) in X; rewrite W2, count_up_in in X; lia).
    exists ((g_next g, cid) :: new). rewrite lenN_app, lenN_cons, lenN_nil in W8. rewrite lenN_cons. splits; auto.
    + rewrite W1, <- app_assoc. reflexivity.
    + cbn. now rewrite W2.
    + lia.
    + lia.
    + constructor; [|exact W9]. cbn. intros ->. discriminate.
    + intros x X. subst out. destruct (rem <? frame_len e); [right; now apply W10|]. destruct X as [<-|X]; [now left|right; now apply W10].
    + subst out. destruct (rem <? frame_len e); [exact W11|]. cbn. constructor; [|exact W11]. intros X. apply in_map_iff in X. destruct X as (y & Y1 & Y2). apply W10, Hin in Y2. cbn in Y2. lia.
    + intros G. inv G. cbn in H2. unfold gens_ok in W12. specialize (W12 H3). unfold e, frame_len. cbn [e_seq e_cid]. pose proof (vlen_le (g_next g)). destruct (N.ltb_spec rem (1 + vlen (g_next g) + 1 + 1 + lenN cid + 16)); [lia|]. cbn. now rewrite W12.
  - destruct (_ && _); [|now apply Done']. apply IH in H; auto. destruct H as (new & W). exists new. splits; try apply W. intros G. inv G. now apply W.
Qed.
Lemma write_lost_spec : forall l rem rem' rest out, write_lost rem l = (rem', rest, out) -> l = out ++ rest.
Proof.
  induction l as [|e l IH]; intros rem rem' rest out H; cbn in H; [inv H; reflexivity|]. destruct (_ <? _); [inv H; reflexivity|].
  destruct (write_lost (rem - frame_len e) l) as [[r' q] o] eqn:E. injection H as <- <- <-. cbn. f_equal. eapply IH; eauto.
Qed.
(** What [write_frames] does. *)
Lemma mgr_write_spec : forall rem gens g g' out, mgr_write rem gens g = Some (g', out) -> g_next g <= 2 ^ 62 ->
  exists new outl outn, out = outl ++ outn /\ (forall e, In e outl -> In e (g_lost g)) /\ (forall e, In e (g_lost g') -> In e (g_lost g)) /\
    g_ids g' = g_ids g ++ new /\ map fst new = count_up (g_next g) (length new) /\ g_next g' = g_next g + lenN new /\ g_next g' <= 2 ^ 62 /\
    g_limit g' = g_limit g /\ g_empty g' = g_empty g /\
    lenN (g_ids g') <= N.max (g_limit g) (lenN (g_ids g)) /\ Forall (fun p => snd p <> []) new /\
    (forall e, In e outn -> In (pair_of e) new) /\ NoDup (map e_seq outn) /\ (gens_ok gens -> map pair_of outn = new).
Proof.
  intros rem gens g g' out H B. unfold mgr_write in H. destruct (g_empty g) eqn:Eg.
  { apply some_inj in H. apply pair_equal_spec in H. destruct H as [<- <-]. exists [], [], []. rewrite lenN_nil. cbn. splits; auto; try lia; try (now rewrite app_nil_r); try (apply NoDup_nil); intros ? []. }
  destruct (write_lost rem (rev (g_lost g))) as [[rem' rest] outl] eqn:L. apply write_lost_spec in L. destruct (write_new _ _ _) as [[g1 outn]|] eqn:W; [|discriminate]. apply some_inj in H. apply pair_equal_spec in H. destruct H as [<- <-].
  apply write_new_spec in W; [|exact B]. cbn [g_ids g_next g_limit g_lost g_empty] in W. destruct W as (new & W1 & W2 & W3 & W4 & W5 & W6 & W7 & W8 & W9 & W10 & W11 & W12).
  exists new, outl, outn. splits; auto.
  - intros e I. apply in_rev. rewrite L. apply in_or_app. now left.
  - intros e I. rewrite W6 in I. apply in_rev in I. apply in_rev. rewrite L. apply in_or_app. now right.
Qed.
(** The invariant: [told] is all that was told so far. *)
Record Inv (g : mgr) (told : list entry) : Prop := mkInv {
  iv_next : 1 <= g_next g <= 2 ^ 62;
  iv_told : forall e, In e told -> 1 <= e_seq e < g_next g;
  iv_uniq : forall a b, In a told -> In b told -> e_seq a = e_seq b -> a = b;
  iv_lost : forall e, In e (g_lost g) -> In e told;
  iv_ids : forall p, In p (g_ids g) -> fst p < g_next g \/ fst p = SEQNO_ODCID }.
Lemma step_inv : forall g o g' out told, Inv g told -> (match o with GLost e => In e told | _ => True end) -> g_step g o = Some (g', out) -> Inv g' (told ++ out).
Proof.
  intros g o g' out told [J1 J2 J3 J4 J5] L H. destruct o as [rem gens|seq|e|e|l|cid| |gen tok]; cbn [g_step] in H.
  - apply mgr_write_spec in H; [|lia]. destruct H as (new & outl & outn & -> & W1 & W2 & W3 & W4 & W5 & W6 & W7 & W8 & W9 & W10 & W11 & W12 & W13).
    assert (Hn : forall e, In e outn -> g_next g <= e_seq e < g_next g') by (intros e I; apply W11, (in_map fst) in I; rewrite W4, count_up_in in I; cbn in I; rewrite W5; unfold lenN; lia).
    assert (Ho : forall e, In e (told ++ outl) -> In e told) by (intros e I; apply in_app_or in I; destruct I; auto).
    rewrite app_assoc. constructor; [lia| | | |].
    + intros e I. apply in_app_or in I. destruct I as [I|I]; [apply Ho, J2 in I; lia|apply Hn in I; lia].
    + intros a b Ia Ib E. apply in_app_or in Ia. apply in_app_or in Ib. destruct Ia as [Ia|Ia], Ib as [Ib|Ib]; auto.
      * apply Ho, J2 in Ia. apply Hn in Ib. lia.
      * apply Ho, J2 in Ib. apply Hn in Ia. lia.
      * clear - W12 Ia Ib E. induction outn as [|x l IH]; [destruct Ia|]. cbn in W12. inv W12. destruct Ia as [->|Ia], Ib as [->|Ib]; auto.
        -- elim H1. rewrite E. now apply in_map.
        -- elim H1. rewrite <- E. now apply in_map.
    + intros e I. apply in_or_app. left. apply in_or_app. left. auto.
    + intros p I. rewrite W3 in I. apply in_app_or in I. destruct I as [I|I]; [destruct (J5 p I); [left; lia|now right]|]. left. apply (in_map fst) in I. rewrite W4, count_up_in in I. rewrite W5. unfold lenN. lia.
  - apply some_inj in H. apply pair_equal_spec in H. destruct H as [<- <-]. rewrite app_nil_r. unfold mgr_retire. destruct (_ <=? _); [constructor; auto|]. destruct (_ || _); [constructor; auto|]. constructor; cbn [g_next g_lost g_ids]; auto.
    + intros e I. apply filter_In in I. now apply J4.
    + intros p I. apply filter_In in I. now apply J5.
  - inv H. rewrite app_nil_r. constructor; cbn; auto. intros x I. apply in_app_or in I. destruct I as [I|[<-|[]]]; auto.
  - inv H. rewrite app_nil_r. constructor; cbn; auto. intros x I. apply filter_In in I. now apply J4.
  - unfold mgr_limit in H. destruct (_ <? _); [discriminate|]. inv H. rewrite app_nil_r. constructor; cbn; auto.
  - inv H. rewrite app_nil_r. constructor; cbn; auto. intros p I. apply in_app_or in I. destruct I as [I|[<-|[]]]; auto.
  - inv H. rewrite app_nil_r. constructor; cbn [mgr_remove_odcid g_next g_lost g_ids]; auto. intros p I. apply filter_In in I. now apply J5.
  - unfold mgr_preferred in H. destruct (g_empty g); [inv H; rewrite app_nil_r; constructor; auto|]. destruct gen as [cid|]; [|inv H; rewrite app_nil_r; constructor; auto].
    destruct (is_nil cid); [discriminate|]. destruct (N.eqb_spec (g_next g) 1) as [E1|]; [|discriminate]. cbn [orb negb] in H. apply some_inj in H. apply pair_equal_spec in H. destruct H as [<- <-].
    assert (T : told = []) by (destruct told as [|x t]; [reflexivity|]; specialize (J2 x (or_introl eq_refl)); lia). subst told. constructor; cbn [g_next g_lost g_ids app]; rewrite ?E1.
    + lia.
    + intros e [<-|[]]. cbn. lia.
    + intros a b [<-|[]] [<-|[]]. reflexivity.
    + intros e I. apply J4 in I. destruct I.
    + intros p I. apply in_app_or in I. destruct I as [I|[<-|[]]]; [destruct (J5 p I); [left; lia|now right]|left; cbn; lia].
Qed.
Lemma run_inv : forall ops g g' out told, Inv g told -> lost_ok g told ops -> g_run g ops = Some (g', out) -> Inv g' (told ++ out).
Proof.
  induction ops as [|o ops IH]; intros g g' out told J L H; cbn in H; [inv H; now rewrite app_nil_r|]. cbn in L. destruct L as [L1 L2]. destruct (g_step g o) as [[g1 o1]|] eqn:S; [|discriminate].
  destruct (g_run g1 ops) as [[g2 o2]|] eqn:R; [|discriminate]. inv H. rewrite app_assoc. eapply IH; eauto. eapply step_inv; eauto.
Qed.
Lemma inv_new : forall em c, Inv (mgr_new em c) [].
Proof. intros. constructor; cbn [mgr_new g_next g_lost g_ids]; [lia|intros ? []|intros ? ? []|intros ? []|]. intros p [<-|[]]. left. cbn. lia. Qed.

(** C29: a number told to the peer always stands for the same connection ID and token, in whatever history. *)
Theorem told_numbers_unique : forall em c ops g out, g_run (mgr_new em c) ops = Some (g, out) -> lost_ok (mgr_new em c) [] ops ->
  forall a b, In a out -> In b out -> e_seq a = e_seq b -> a = b.
Proof. intros em c ops g out H L a b Ia Ib E. pose proof (run_inv ops _ _ _ [] (inv_new em c) L H) as J. now apply (iv_uniq _ _ J). Qed.
Print Assumptions told_numbers_unique.
(** C29: the numbers told are 1, 2, 3 and so on: what a step tells is what was told before, and new ones that continue
    the count. *)
Lemma step_seq : forall g o g' out told, Inv g told -> (match o with GLost e => In e told | GWrite _ gens => gens_ok gens | _ => True end) -> g_step g o = Some (g', out) ->
  exists again fresh, out = again ++ fresh /\ (forall e, In e again -> In e told) /\ map e_seq fresh = count_up (g_next g) (length fresh) /\ g_next g' = g_next g + lenN fresh.
Proof.
  intros g o g' out told J L H. pose proof J as [J1 J2 J3 J4 J5].
  assert (Q : forall x, g_next x = g_next g -> Some (x, []) = Some (g', out) -> exists again fresh, out = again ++ fresh /\ (forall e, In e again -> In e told) /\ map e_seq fresh = count_up (g_next g) (length fresh) /\ g_next g' = g_next g + lenN fresh).
  { intros x E X. apply some_inj in X. apply pair_equal_spec in X. destruct X as [<- <-]. exists [], []. rewrite lenN_nil. cbn. splits; auto; try lia; intros ? []. }
  destruct o as [rem gens|seq|e|e|l|cid| |gen tok]; cbn [g_step] in H.
  - apply mgr_write_spec in H; [|lia]. destruct H as (new & outl & outn & -> & W1 & W2 & W3 & W4 & W5 & W6 & W7 & W8 & W9 & W10 & W11 & W12 & W13).
    exists outl, outn. specialize (W13 L). subst new. rewrite map_map, map_length in W4. unfold lenN in *. rewrite map_length in W5. splits; auto.
  - apply (Q _) in H; auto. unfold mgr_retire. destruct (_ <=? _); [reflexivity|]. destruct (_ || _); reflexivity.
  - now apply (Q (mgr_lost e g)).
  - now apply (Q (mgr_acked e g)).
  - unfold mgr_limit in H. destruct (_ <? _); [discriminate|]. apply (Q _) in H; auto.
  - now apply (Q (mgr_add_odcid cid g)).
  - now apply (Q (mgr_remove_odcid g)).
  - unfold mgr_preferred in H. destruct (g_empty g); [now apply (Q g)|]. destruct gen as [cid|]; [|now apply (Q g)].
    destruct (is_nil cid); [discriminate|]. destruct (N.eqb_spec (g_next g) 1) as [E1|]; [|discriminate]. cbn [orb negb] in H. apply some_inj in H. apply pair_equal_spec in H. destruct H as [<- <-].
    exists [], [mkE (g_next g) cid tok]. rewrite lenN_cons, lenN_nil. cbn. splits; auto; try lia; intros ? [].
Qed.
Lemma run_numbers : forall ops g g' out told, Inv g told -> (forall s, 1 <= s < g_next g -> In s (map e_seq told)) -> lost_ok g told ops -> gens_ok_ops ops -> g_run g ops = Some (g', out) ->
  forall s, 1 <= s < g_next g' -> In s (map e_seq (told ++ out)).
Proof.
  induction ops as [|o ops IH]; intros g g' out told J A L G H; cbn in H; [inv H; now rewrite app_nil_r|]. cbn in L. destruct L as [L1 L2]. inv G. destruct (g_step g o) as [[g1 o1]|] eqn:S; [|discriminate].
  destruct (g_run g1 ops) as [[g2 o2]|] eqn:R; [|discriminate]. apply some_inj in H. apply pair_equal_spec in H. destruct H as [<- <-]. rewrite app_assoc. eapply IH; [| | |exact H3|exact R].
  - eapply step_inv; eauto.
  - destruct (step_seq g o g1 o1 told J) as (again & fresh & -> & B1 & B2 & B3); [destruct o; auto|exact S|]. intros s Hs. rewrite !map_app, !in_app_iff. destruct (N.lt_ge_cases s (g_next g)); [left; apply A; lia|].
    right. right. rewrite B2, count_up_in. unfold lenN in B3. lia.
  - exact L2.
Qed.
Theorem told_numbers_sequential : forall em c ops g told o g' out, g_run (mgr_new em c) ops = Some (g, told) -> lost_ok (mgr_new em c) [] (ops ++ [o]) -> gens_ok_ops (ops ++ [o]) ->
  g_step g o = Some (g', out) ->
  exists n again fresh, (forall s, In s (map e_seq told) <-> 1 <= s < n) /\ out = again ++ fresh /\ (forall e, In e again -> In e told) /\ map e_seq fresh = count_up n (length fresh).
Proof.
  intros em c ops g told o g' out H L G S. apply Forall_app in G. destruct G as [G1 G2]. inv G2.
  assert (L12 : lost_ok (mgr_new em c) [] ops /\ match o with GLost e => In e told | _ => True end).
  { clear G1 S H2 H3. assert (X : forall ops g0 t0, g_run g0 ops = Some (g, told) -> lost_ok g0 t0 (ops ++ [o]) -> lost_ok g0 t0 ops /\ match o with GLost e => In e (t0 ++ told) | _ => True end); [|apply (X ops _ [] H L)].
    clear. revert g told. intros g told ops. revert told. induction ops as [|x ops IH]; intros told g0 t0 H L; cbn in H, L.
    - inv H. rewrite app_nil_r. cbn. tauto.
    - destruct L as [L1 L2]. destruct (g_step g0 x) as [[g1 o1]|] eqn:S; [|discriminate]. destruct (g_run g1 ops) as [[g2 o2]|] eqn:R; [|discriminate]. apply some_inj in H. apply pair_equal_spec in H. destruct H as [-> <-].
      destruct (IH _ _ _ R L2) as [A B]. cbn. rewrite S, app_assoc. auto. }
  destruct L12 as [L1 L2]. pose proof (run_inv ops _ _ _ [] (inv_new em c) L1 H) as J. cbn [app] in J. exists (g_next g).
  destruct (step_seq g o g' out told J) as (again & fresh & E & B1 & B2 & B3); [destruct o; auto|exact S|]. exists again, fresh. splits; auto. intros s. split.
  - intros I. apply in_map_iff in I. destruct I as (e & <- & I). now apply (iv_told _ _ J).
  - apply (run_numbers ops (mgr_new em c) g told [] (inv_new em c)); auto. cbn. intros. lia.
Qed.
Print Assumptions told_numbers_sequential.
(** C29: a retirement is refused exactly when it names a connection ID the peer was never given. *)
Theorem retire_unissued_is_error : forall em c ops g told seq, g_run (mgr_new em c) ops = Some (g, told) -> lost_ok (mgr_new em c) [] ops -> gens_ok_ops ops ->
  (mgr_retire seq g = None <-> seq <> 0 /\ ~ In seq (map e_seq told)).
Proof.
  intros em c ops g told seq H L G. pose proof (run_inv ops _ _ _ [] (inv_new em c) L H) as J. pose proof (run_numbers ops (mgr_new em c) g told [] (inv_new em c) ltac:(cbn; intros; lia) L G H seq) as A. cbn [app] in *.
  pose proof (iv_next _ _ J). unfold mgr_retire. destruct (N.leb_spec (g_next g) seq).
  - split; [intros _; split; [lia|]|reflexivity]. intros I. apply in_map_iff in I. destruct I as (e & <- & I). apply (iv_told _ _ J) in I. lia.
  - split; [destruct (_ || _); discriminate|]. intros [N0 NI]. elim NI. apply A. lia.
Qed.
Print Assumptions retire_unissued_is_error.
(** C29: the peer never has more connection IDs than it allows, as long as what it allows does not go down. *)
Theorem active_within_limit : forall em c ops g told, g_run (mgr_new em c) ops = Some (g, told) -> limit_ok (mgr_new em c) ops -> active g <= g_limit g.
Proof.
  intros em c ops g told H L.
  assert (FL : forall (f : N * list N -> bool) l, lenN (filter f l) <= lenN l) by (intros f l; unfold lenN; induction l as [|x l IH]; cbn; [lia|destruct (f x); cbn [length]; lia]).
  assert (FA : forall g, active g <= lenN (g_ids g)) by (intros; apply FL).
  assert (FM : forall (f h : N * list N -> bool) l, lenN (filter f (filter h l)) <= lenN (filter f l)).
  { intros f h l. unfold lenN. induction l as [|x l IH]; cbn; [lia|]. destruct (h x); cbn; destruct (f x); cbn [length]; lia. }
  assert (G : forall ops g0 told g, (active g0 <= g_limit g0 /\ 2 <= g_limit g0 /\ (g_next g0 = 1 -> active g0 <= 1) /\ 1 <= g_next g0 <= 2 ^ 62) -> g_run g0 ops = Some (g, told) -> limit_ok g0 ops -> active g <= g_limit g).
  2:{ apply (G ops (mgr_new em c) told g); auto. unfold active. cbn. change (negb (0 =? SEQNO_ODCID)) with true. cbv iota. change (lenN [(0, c)]) with 1. splits; intros; lia. }
  clear ops g told H L. induction ops as [|o ops IH]; intros g0 told g J H L; cbn in H, L; [inv H; apply J|]. destruct L as [L1 L2]. destruct (g_step g0 o) as [[g1 o1]|] eqn:St; [|discriminate].
  destruct (g_run g1 ops) as [[g2 o2]|] eqn:R; [|discriminate]. apply some_inj in H. apply pair_equal_spec in H. destruct H as [-> <-]. apply (IH g1 o2 g); auto. clear IH R L2.
  destruct J as (J1 & J2 & J3 & J4). destruct o as [rem gens|seq|e|e|l|cid| |gen tok]; cbn [g_step] in St.
  - apply mgr_write_spec in St; [|lia]. destruct St as (new & outl & outn & -> & W1 & W2 & W3 & W4 & W5 & W6 & W7 & W8 & W9 & W10 & W11 & W12 & W13). rewrite W7.
    assert (new = [] \/ lenN new <> 0) as [->|N0] by (destruct new; [now left|right; rewrite lenN_cons; lia]).
    + rewrite app_nil_r in W3. unfold active in *. rewrite W3, lenN_nil in *. rewrite W5. splits; auto; try lia; intros; apply J3; lia.
    + assert (E : active g1 = active g0 + lenN new).
      { unfold active. rewrite W3, filter_app, lenN_app. f_equal. assert (K : forall p, In p new -> fst p < 2 ^ 62).
        { intros p I. apply (in_map fst) in I. rewrite W4, count_up_in in I. unfold lenN in *. lia. }
        f_equal. clear - K. induction new as [|p new IHn]; [reflexivity|]. cbn [filter]. replace (fst p =? SEQNO_ODCID) with false; [cbn [negb]; f_equal; apply IHn; intros; apply K; now right|].
        symmetry. apply N.eqb_neq. specialize (K p (or_introl eq_refl)). unfold SEQNO_ODCID. lia. }
      assert (X : active g1 <= g_limit g0).
      { (* something was issued, so the store was below the limit *)
        specialize (FA g1). assert (lenN (g_ids g1) = lenN (g_ids g0) + lenN new) by (rewrite W3, lenN_app; reflexivity). lia. }
      splits; auto; lia.
  - apply some_inj in St. apply pair_equal_spec in St. destruct St as [<- _]. unfold mgr_retire. destruct (_ <=? _); [auto|]. destruct (_ || _); [auto|]. unfold active in *. cbn [g_ids g_limit g_next].
    pose proof (FM (fun p => negb (fst p =? SEQNO_ODCID)) (fun p => negb (fst p =? seq)) (g_ids g0)). splits; auto; try lia.
  - inv St. auto.
  - inv St. auto.
  - unfold mgr_limit in St. destruct (N.ltb_spec l 2); [discriminate|]. inv St. unfold active in *. cbn [g_ids g_limit g_next]. splits; auto; lia.
  - inv St. unfold active in *. cbn [mgr_add_odcid g_ids g_limit g_next]. rewrite filter_app, lenN_app. cbn [filter fst]. rewrite N.eqb_refl. cbn [negb]. rewrite lenN_nil, N.add_0_r. auto.
  - inv St. unfold active in *. cbn [mgr_remove_odcid g_ids g_limit g_next]. pose proof (FM (fun p => negb (fst p =? SEQNO_ODCID)) (fun p => negb (fst p =? SEQNO_ODCID)) (g_ids g0)). splits; auto; lia.
  - unfold mgr_preferred in St. destruct (g_empty g0); [inv St; auto|]. destruct gen as [cid|]; [|inv St; auto]. destruct (is_nil cid); [discriminate|]. destruct (N.eqb_spec (g_next g0) 1) as [E1|]; [|discriminate]. cbn [orb negb] in St.
    apply some_inj in St. apply pair_equal_spec in St. destruct St as [<- _]. unfold active in *. cbn [g_ids g_limit g_next]. rewrite filter_app, lenN_app, E1. cbn [filter fst]. change (1 =? SEQNO_ODCID) with false. cbn [negb]. rewrite lenN_cons, lenN_nil. specialize (J3 E1). splits; auto; lia.
Qed.
Print Assumptions active_within_limit.
(** C29: a retired number is never in use again; it is told again only if a frame with it is declared lost
    after the retirement. *)
Lemma retired_stays : forall ops g told g' out seq, Inv g told -> (forall p, In p (g_ids g) -> fst p <> seq) -> seq < g_next g -> seq <> SEQNO_ODCID -> lost_ok g told ops -> g_run g ops = Some (g', out) ->
  (forall p, In p (g_ids g') -> fst p <> seq).
Proof.
  induction ops as [|o ops IH]; intros g told g' out seq J D B O L H; cbn in H; [now inv H|]. cbn in L. destruct L as [L1 L2]. destruct (g_step g o) as [[g1 o1]|] eqn:St; [|discriminate].
  destruct (g_run g1 ops) as [[g2 o2]|] eqn:R; [|discriminate]. apply some_inj in H. apply pair_equal_spec in H. destruct H as [-> <-]. pose proof (step_inv _ _ _ _ _ J L1 St) as J'.
  assert (X : (forall p, In p (g_ids g1) -> fst p <> seq) /\ seq < g_next g1); [|destruct X; now apply (IH g1 (told ++ o1) g' o2)]. clear IH R L2.
  destruct o as [rem gens|sq|e|e|l|cid| |gen tok]; cbn [g_step] in St.
  - apply mgr_write_spec in St; [|apply (iv_next _ _ J)]. destruct St as (new & outl & outn & -> & W1 & W2 & W3 & W4 & W5 & W6 & W7 & W8 & W9 & W10 & W11 & W12 & W13). split; [|lia].
    intros p I. rewrite W3 in I. apply in_app_or in I. destruct I as [I|I]; [auto|]. apply (in_map fst) in I. rewrite W4, count_up_in in I. lia.
  - apply some_inj in St. apply pair_equal_spec in St. destruct St as [<- _]. unfold mgr_retire. destruct (_ <=? _); [auto|]. destruct (_ || _); [auto|]. cbn [g_ids g_next]. split; [|exact B]. intros p I. apply filter_In in I. now apply D.
  - inv St. auto.
  - inv St. auto.
  - unfold mgr_limit in St. destruct (N.ltb_spec l 2); [discriminate|]. inv St. auto.
  - inv St. cbn. split; [|exact B]. intros p I. apply in_app_or in I. destruct I as [I|[<-|[]]]; [auto|]. cbn. congruence.
  - inv St. cbn [mgr_remove_odcid g_ids g_next]. split; [|exact B]. intros p I. apply filter_In in I. now apply D.
  - unfold mgr_preferred in St. destruct (g_empty g); [inv St; auto|]. destruct gen as [cid|]; [|inv St; auto]. destruct (is_nil cid); [discriminate|]. destruct (N.eqb_spec (g_next g) 1) as [E1|]; [|discriminate]. cbn [orb negb] in St.
    apply some_inj in St. apply pair_equal_spec in St. destruct St as [<- _]. cbn [g_ids g_next]. split; [|lia]. intros p I. apply in_app_or in I. destruct I as [I|[<-|[]]]; [auto|]. cbn. lia.
Qed.
Theorem retired_never_accepted : forall em c ops1 ops2 g told g1 seq g2 out, g_run (mgr_new em c) ops1 = Some (g, told) -> lost_ok (mgr_new em c) [] ops1 ->
  mgr_retire seq g = Some g1 -> ~ In (seq, []) (g_ids g) -> lost_ok g1 told ops2 -> g_run g1 ops2 = Some (g2, out) ->
  forall cid, ~ In (seq, cid) (g_ids g2).
Proof.
  intros em c ops1 ops2 g told g1 seq g2 out H1 L1 Rt Ne L2 H2 cid I. pose proof (run_inv ops1 _ _ _ [] (inv_new em c) L1 H1) as J. cbn [app] in J.
  assert (J1 : Inv g1 told). { replace told with (told ++ []) by apply app_nil_r. eapply (step_inv g (GRetire seq)); eauto. cbn. now rewrite Rt. }
  pose proof (iv_next _ _ J) as Bd. unfold mgr_retire in Rt. destruct (N.leb_spec (g_next g) seq); [discriminate|]. destruct (_ || _) eqn:E.
  { apply orb_true_iff in E. destruct E as [E|E]; [apply N.eqb_eq in E; unfold SEQNO_EMPTY in E; lia|]. apply existsb_exists in E. destruct E as ((s & cc) & Is & E). cbn in E. apply andb_true_iff in E. destruct E as [E1 E2]. apply N.eqb_eq in E1. destruct cc; [|discriminate]. subst s. contradiction. }
  apply some_inj in Rt. subst g1. assert (seq <> SEQNO_ODCID) by (unfold SEQNO_ODCID; lia).
  eapply (retired_stays ops2 _ told g2 out seq J1); [|cbn; exact H|exact H0|exact L2|exact H2|exact I|reflexivity]. cbn. intros p Ip. apply filter_In in Ip. destruct Ip as [_ Ip]. apply negb_true_iff, N.eqb_neq in Ip. exact Ip.
Qed.
Print Assumptions retired_never_accepted.
(** C29, partial: what is missing is [retired_advertised_refuted]. *)
Theorem retired_not_advertised_partial : forall em c ops1 ops2 g told g1 seq g2 out, g_run (mgr_new em c) ops1 = Some (g, told) -> lost_ok (mgr_new em c) [] ops1 ->
  mgr_retire seq g = Some g1 -> ~ In (seq, []) (g_ids g) -> lost_ok g1 told ops2 -> (forall e, In (GLost e) ops2 -> e_seq e <> seq) -> g_run g1 ops2 = Some (g2, out) ->
  ~ In seq (map e_seq out).
Proof.
  intros em c ops1 ops2 g told g1 seq g2 out H1 L1 Rt Ne L2 NL H2. pose proof (run_inv ops1 _ _ _ [] (inv_new em c) L1 H1) as J. cbn [app] in J.
  assert (J1 : Inv g1 told). { replace told with (told ++ []) by apply app_nil_r. eapply (step_inv g (GRetire seq)); eauto. cbn. now rewrite Rt. }
  pose proof (iv_next _ _ J) as Bd. unfold mgr_retire in Rt. destruct (N.leb_spec (g_next g) seq) as [|Hs]; [discriminate|]. destruct (_ || _) eqn:E.
  { apply orb_true_iff in E. destruct E as [E|E]; [apply N.eqb_eq in E; unfold SEQNO_EMPTY in E; lia|]. apply existsb_exists in E. destruct E as ((s & cc) & Is & E). cbn in E. apply andb_true_iff in E. destruct E as [E1 E2]. apply N.eqb_eq in E1. destruct cc; [|discriminate]. subst s. contradiction. }
  apply some_inj in Rt. assert (D : forall e, In e (g_lost g1) -> e_seq e <> seq). { subst g1. cbn. intros e I. apply filter_In in I. destruct I as [_ I]. now apply negb_true_iff, N.eqb_neq in I. }
  assert (B : seq < g_next g1) by (subst g1; exact Hs). clear Rt E Ne H1 L1 J Bd Hs. revert g1 told out J1 L2 H2 D B.
  induction ops2 as [|o ops IH]; intros g1 told out J L H D B; cbn in H; [inv H; intros []|]. cbn in L. destruct L as [L1 L2]. destruct (g_step g1 o) as [[g3 o1]|] eqn:St; [|discriminate].
  destruct (g_run g3 ops) as [[g4 o2]|] eqn:R; [|discriminate]. apply some_inj in H. apply pair_equal_spec in H. destruct H as [-> <-]. pose proof (step_inv _ _ _ _ _ J L1 St) as J'.
  assert (X : (forall e, In e (g_lost g3) -> e_seq e <> seq) /\ seq < g_next g3 /\ ~ In seq (map e_seq o1)).
  2:{ destruct X as (X1 & X2 & X3). rewrite map_app, in_app_iff. intros [Y|Y]; [auto|]. apply (IH ltac:(intros e Ie; apply NL; now right) g3 (told ++ o1) o2); auto. }
  clear IH R L2. destruct o as [rem gens|sq|e|e|l|cid| |gen tok]; cbn [g_step] in St.
  - apply mgr_write_spec in St; [|apply (iv_next _ _ J)]. destruct St as (new & outl & outn & -> & W1 & W2 & W3 & W4 & W5 & W6 & W7 & W8 & W9 & W10 & W11 & W12 & W13). splits; [intros e I; apply D; auto|lia|].
    rewrite map_app, in_app_iff. intros [I|I]; apply in_map_iff in I; destruct I as (e & E & I); [apply (D e); auto|]. apply W11, (in_map fst) in I. rewrite W4, count_up_in in I. cbn in I. lia.
  - apply some_inj in St. apply pair_equal_spec in St. destruct St as [<- <-]. unfold mgr_retire. destruct (_ <=? _); [auto|]. destruct (_ || _); [auto|]. cbn [g_lost g_next]. splits; auto. intros x I. apply filter_In in I. now apply D.
  - inv St. cbn. splits; auto. intros x I. apply in_app_or in I. destruct I as [I|[<-|[]]]; [auto|]. apply NL. now left.
  - inv St. cbn. splits; auto. intros x I. apply filter_In in I. now apply D.
  - unfold mgr_limit in St. destruct (N.ltb_spec l 2); [discriminate|]. inv St. auto.
  - inv St. auto.
  - inv St. auto.
  - unfold mgr_preferred in St. destruct (g_empty g1); [inv St; auto|]. destruct gen as [cid|]; [|inv St; auto]. destruct (is_nil cid); [discriminate|]. destruct (N.eqb_spec (g_next g1) 1) as [E1|]; [|discriminate]. cbn [orb negb] in St.
    apply some_inj in St. apply pair_equal_spec in St. destruct St as [<- <-]. cbn. splits; auto; [lia|]. intros [I|[]]. lia.
Qed.
Print Assumptions retired_not_advertised_partial.
(** C29: a frame declared lost after its connection ID was retired is sent again, and the connection ID in it is not accepted. *)
Theorem retired_advertised_refuted : exists ops g told, g_run (mgr_new false [1]) (ops ++ [GWrite 1200 []]) = Some (g, told) /\ lost_ok (mgr_new false [1]) [] ops /\
  exists e, In (GRetire (e_seq e)) ops /\ In (GLost e) ops /\ (exists told1, told = told1 ++ [e] /\ In e told1) /\ mgr_valid (e_cid e) g = false.
Proof.
  exists [GLimit 3; GWrite 1200 [(Some [2], 20); (Some [3], 30)]; GRetire 1; GWrite 1200 [(Some [4], 40)]; GLost (mkE 1 [2] 20)].
  eexists. eexists. split; [vm_compute; reflexivity|]. split; [vm_compute; tauto|]. exists (mkE 1 [2] 20). splits; [cbn; tauto|cbn; tauto| |reflexivity].
  exists [mkE 1 [2] 20; mkE 2 [3] 30; mkE 3 [4] 40]. split; [reflexivity|now left].
Qed.
Print Assumptions retired_advertised_refuted.
(** C29: if the generator has no connection ID to give, [write_frames] never returns: it is not done after any number of
    attempts. *)
Theorem failing_generator_refuted : exists g, (exists ops told, g_run (mgr_new false [1]) ops = Some (g, told)) /\ forall k, mgr_write 1200 (repeat (None, 0) k) g = None.
Proof.
  exists (mkG false [(0, [1])] 3 1 []). split; [exists [GLimit 3], []; reflexivity|]. intros k. unfold mgr_write. cbn [g_empty g_lost rev write_lost]. induction k as [|k IH]; [reflexivity|]. cbn in IH |- *. exact IH.
Qed.
Print Assumptions failing_generator_refuted.
(** With a generator that always has one, it returns after at most as many as the limit. *)
Theorem write_returns : forall rem gens g, g_next g + lenN gens <= 2 ^ 62 -> g_limit g <= lenN gens -> Forall (fun a => match fst a with Some (_ :: _) => True | _ => False end) gens ->
  exists g' out, mgr_write rem gens g = Some (g', out).
Proof.
  intros rem gens g B K F. unfold mgr_write. destruct (g_empty g); [eauto|]. destruct (write_lost _ _) as [[rem' rest] outl].
  assert (W : forall gens rem g, g_next g + lenN gens <= 2 ^ 62 -> g_limit g <= lenN gens + lenN (g_ids g) -> Forall (fun a => match fst a with Some (_ :: _) => True | _ => False end) gens -> exists g' out, write_new rem gens g = Some (g', out)).
  { clear. induction gens as [|[a tok] gens IH]; intros rem g B K F; cbn [write_new].
    - rewrite lenN_nil in K. destruct (N.ltb_spec (lenN (g_ids g)) (g_limit g)); [lia|]. cbn. eauto.
    - inv F. cbn in H1. destruct a as [[|x cid]|]; try contradiction. rewrite lenN_cons in *. destruct (_ && _); [|eauto]. cbn [is_nil orb]. destruct (N.leb_spec (2 ^ 62) (g_next g)); [lia|].
      set (g1 := mkG _ _ _ _ _). set (r := if rem <? _ then rem else _). destruct (IH r g1) as (g' & out & ->); [unfold g1; cbn [g_next]; lia|unfold g1; cbn [g_limit g_ids]; rewrite lenN_app, lenN_cons, lenN_nil; lia|exact H2|]. eauto. }
  destruct (W gens rem' (mkG false (g_ids g) (g_limit g) (g_next g) (rev rest))) as (g' & out & ->); cbn [g_next g_limit g_ids]; auto; [lia|]. eauto.
Qed.
Print Assumptions write_returns.
(** A history in which the hypotheses hold: connection IDs are issued, one is retired, another issued, one is lost and sent again. *)
Definition issue_story : list gop := [GAddOd [9]; GLimit 3; GWrite 1200 [(Some [2], 20); (Some [3], 30)]; GRemoveOd; GWrite 1200 [(Some [4], 40)]; GLost (mkE 1 [2] 20); GWrite 30 []; GRetire 1; GWrite 1200 [(Some [5], 50)]].
Example issue_story_works :
  match g_run (mgr_new false [1]) issue_story with
  | Some (g, told) => map e_seq told = [1; 2; 1; 3] /\ active g = 3
  | None => False end /\ lost_ok (mgr_new false [1]) [] issue_story /\ limit_ok (mgr_new false [1]) issue_story /\ gens_ok_ops issue_story.
Proof. split; [vm_compute; auto|]. split; [vm_compute; tauto|]. split; [vm_compute; intuition discriminate|]. repeat constructor; vm_compute; discriminate. Qed.

(** What the peer allows, and this endpoint's own cap of eight. *)
Definition allowed (ops : list gop) : N := fold_left (fun a o => match o with GLimit l => N.min 8 l | _ => a end) ops 2.
Lemma write_new_limit : forall gens rem g g' out, write_new rem gens g = Some (g', out) -> g_limit g' = g_limit g.
Proof.
  induction gens as [|[[cid|] tok] gens IH]; intros rem g g' out H; cbn [write_new] in H.
  - destruct (_ && _); [discriminate|]. apply some_inj in H. apply pair_equal_spec in H. destruct H as [<- _]. reflexivity.
  - destruct (_ && _); [|apply some_inj in H; apply pair_equal_spec in H; destruct H as [<- _]; reflexivity].
    destruct (_ || _); [discriminate|]. cbv zeta in H. destruct (write_new _ gens _) as [[g2 o2]|] eqn:E; [|discriminate]. apply IH in E. apply some_inj in H. apply pair_equal_spec in H. destruct H as [<- _]. exact E.
  - destruct (_ && _); [|apply some_inj in H; apply pair_equal_spec in H; destruct H as [<- _]; reflexivity]. eapply IH. exact H.
Qed.
Lemma run_limit : forall ops g0 g told, g_run g0 ops = Some (g, told) -> g_limit g = fold_left (fun a o => match o with GLimit l => N.min 8 l | _ => a end) ops (g_limit g0).
Proof.
  induction ops as [|o ops IH]; intros g0 g told H; cbn [g_run fold_left] in *; [apply some_inj in H; apply pair_equal_spec in H; destruct H as [<- _]; reflexivity|].
  destruct (g_step g0 o) as [[g1 o1]|] eqn:St; [|discriminate]. destruct (g_run g1 ops) as [[g2 o2]|] eqn:R; [|discriminate]. apply some_inj in H. apply pair_equal_spec in H. destruct H as [<- _].
  rewrite (IH _ _ _ R). f_equal. destruct o as [rem gens|seq|e|e|l|cid| |gen tok]; cbn [g_step] in St.
  - unfold mgr_write in St. destruct (g_empty g0); [apply some_inj in St; apply pair_equal_spec in St; destruct St as [<- _]; reflexivity|].
    destruct (write_lost _ _) as [[r' rest] out0]. destruct (write_new _ _ _) as [[g3 o3]|] eqn:E; [|discriminate]. apply write_new_limit in E. apply some_inj in St. apply pair_equal_spec in St. destruct St as [<- _]. exact E.
  - apply some_inj in St. apply pair_equal_spec in St. destruct St as [<- _]. unfold mgr_retire. destruct (_ <=? _); [reflexivity|]. destruct (_ || _); reflexivity.
  - apply some_inj in St. apply pair_equal_spec in St. destruct St as [<- _]. reflexivity.
  - apply some_inj in St. apply pair_equal_spec in St. destruct St as [<- _]. reflexivity.
  - unfold mgr_limit in St. destruct (l <? 2); [discriminate|]. apply some_inj in St. apply pair_equal_spec in St. destruct St as [<- _]. reflexivity.
  - apply some_inj in St. apply pair_equal_spec in St. destruct St as [<- _]. unfold mgr_add_odcid. reflexivity.
  - apply some_inj in St. apply pair_equal_spec in St. destruct St as [<- _]. reflexivity.
  - unfold mgr_preferred in St. destruct (g_empty g0); [apply some_inj in St; apply pair_equal_spec in St; destruct St as [<- _]; reflexivity|].
    destruct gen as [cid|]; [|apply some_inj in St; apply pair_equal_spec in St; destruct St as [<- _]; reflexivity]. destruct (_ || _); [discriminate|]. apply some_inj in St. apply pair_equal_spec in St. destruct St as [<- _]. reflexivity.
Qed.
(** C29: the number of connection IDs the peer holds is within the last limit it gave (two before that), and never above eight,
    as long as the limit does not go down. *)
Theorem active_within_peer_limit : forall em c ops g told, g_run (mgr_new em c) ops = Some (g, told) -> limit_ok (mgr_new em c) ops -> active g <= allowed ops /\ active g <= 8.
Proof.
  intros em c ops g told H L. pose proof (active_within_limit em c ops g told H L) as A. rewrite (run_limit _ _ _ _ H) in A. change (g_limit (mgr_new em c)) with 2 in A. fold (allowed ops) in A.
  split; [exact A|]. assert (B : allowed ops <= 8); [|lia]. unfold allowed. clear. assert (G : forall a, a <= 8 -> fold_left (fun a o => match o with GLimit l => N.min 8 l | _ => a end) ops a <= 8).
  { induction ops as [|o ops IH]; intros a Ha; cbn [fold_left]; [exact Ha|]. apply IH. destruct o; auto. lia. } apply G. lia.
Qed.
Print Assumptions active_within_peer_limit.
(** The frames written never take more room than there is. *)
Definition room (l : list entry) : N := fold_right (fun e a => frame_len e + a) 0 l.
Theorem frames_fit : forall rem gens g g' out, mgr_write rem gens g = Some (g', out) -> room out <= rem.
Proof.
  intros rem gens g g' out H.
  assert (WL : forall l rem rem' rest o, write_lost rem l = (rem', rest, o) -> room o + rem' = rem).
  { induction l as [|e l IH]; intros r r' rest o E; cbn [write_lost] in E.
    - injection E as <- <- <-. cbn. lia.
    - destruct (N.ltb_spec r (frame_len e)); [injection E as <- <- <-; cbn; lia|]. destruct (write_lost (r - frame_len e) l) as [[r2 rest2] o2] eqn:E2. injection E as <- <- <-. apply IH in E2. cbn [room fold_right]. fold (room o2). lia. }
  assert (WN : forall gens rem g g' out, write_new rem gens g = Some (g', out) -> room out <= rem).
  { clear. induction gens as [|[[cid|] tok] gens IH]; intros rem g g' out H; cbn [write_new] in H.
    - destruct (_ && _); [discriminate|]. apply some_inj in H. apply pair_equal_spec in H. destruct H as [_ <-]. cbn. lia.
    - destruct (_ && _); [|apply some_inj in H; apply pair_equal_spec in H; destruct H as [_ <-]; cbn; lia].
      destruct (_ || _); [discriminate|]. cbv zeta in H. destruct (write_new _ gens _) as [[g2 o2]|] eqn:E; [|discriminate]. apply IH in E. apply some_inj in H. apply pair_equal_spec in H. destruct H as [_ <-].
      match type of E with context [?a <? ?b] => destruct (N.ltb_spec a b) end; [exact E|]. cbn [room fold_right]. fold (room o2). lia.
    - destruct (_ && _); [|apply some_inj in H; apply pair_equal_spec in H; destruct H as [_ <-]; cbn; lia]. eapply IH. exact H. }
  unfold mgr_write in H. destruct (g_empty g); [apply some_inj in H; apply pair_equal_spec in H; destruct H as [_ <-]; cbn; lia|].
  destruct (write_lost _ _) as [[r' rest] out0] eqn:E0. destruct (write_new _ _ _) as [[g3 o3]|] eqn:E; [|discriminate]. apply some_inj in H. apply pair_equal_spec in H. destruct H as [_ <-].
  apply WL in E0. apply WN in E. assert (R : forall a b, room (a ++ b) = room a + room b) by (induction a as [|x a IH]; intros b; cbn; [reflexivity|fold (room (a ++ b)); rewrite IH; fold (room a); lia]). rewrite R. lia.
Qed.
Print Assumptions frames_fit.
