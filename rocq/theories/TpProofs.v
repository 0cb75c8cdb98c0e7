(** Lemmas for TpProps.v. *)
From Coq Require Import Lia.
From Verif Require Import Base Lib CodecModel CodecSpec CodecProofs Reader VerModel TpModel TpSpec.

Lemma code_of k : tp_of_code (tp_code k) = Some k.
Proof. destruct k; reflexivity. Qed.
Lemma of_code c k : tp_of_code c = Some k -> tp_code k = c.
Proof. intros H. apply List.find_some in H. destruct H as [_ H]. apply N.eqb_eq. exact H. Qed.
Lemma of_code_none c : tp_of_code c = None <-> forall k, tp_code k <> c.
Proof.
  split.
  - intros H k E. subst c. rewrite code_of in H. discriminate.
  - intros H. destruct (tp_of_code c) as [k|] eqn:E; [|reflexivity]. apply of_code in E. destruct (H k E).
Qed.
Lemma code_inj a b : tp_code a = tp_code b -> a = b.
Proof. intros H. assert (E : tp_of_code (tp_code a) = tp_of_code (tp_code b)) by congruence. rewrite !code_of in E. congruence. Qed.
Lemma tpid_eqb_eq a b : tpid_eqb a b = true <-> a = b.
Proof. unfold tpid_eqb. rewrite N.eqb_eq. split; [apply code_inj|congruence]. Qed.
Lemma tpid_eqb_refl a : tpid_eqb a a = true.
Proof. apply tpid_eqb_eq. reflexivity. Qed.
Lemma all_ids_in k : In k all_ids.
Proof. destruct k; cbn; tauto. Qed.
Lemma put_same k v t : tps_put k v t k = v.
Proof. unfold tps_put. rewrite tpid_eqb_refl. reflexivity. Qed.
Lemma put_other k v t j : j <> k -> tps_put k v t j = t j.
Proof. intros H. unfold tps_put. destruct (tpid_eqb j k) eqn:E; [apply tpid_eqb_eq in E; contradiction|reflexivity]. Qed.

(** ** Contents *)
Lemma all_zero_eq l : all_zero l = true <-> l = repeat 0 (length l).
Proof.
  induction l as [|a l IH]; cbn; [split; reflexivity|]. fold (all_zero l). rewrite andb_true_iff, N.eqb_eq, IH. split.
  - intros [<- E]. f_equal. exact E.
  - intros E. injection E as -> E. auto.
Qed.
Lemma rd_bytes_app n (a r : list N) : lenN a = n -> rd_bytes n (a ++ r) = Some (a, r).
Proof. intros H. apply rd_bytes_spec. auto. Qed.
Lemma rd_be n v r : v < 256 ^ N.of_nat n -> rd_n n (be_bytes n v ++ r) = Some (v, r).
Proof. intros H. apply rd_n_spec. exists (be_bytes n v). splits; auto using be_bytes_length. symmetry. apply be_val_be_bytes_small. exact H. Qed.
Lemma rd_n_bytes n l v r : bytes_ok l -> rd_n n l = Some (v, r) -> l = be_bytes n v ++ r /\ v < 256 ^ N.of_nat n /\ bytes_ok r.
Proof.
  intros B H. apply rd_n_spec in H. destruct H as (h & -> & L & ->). apply bytes_ok_app in B. destruct B as [B1 B2].
  rewrite <- L, be_bytes_be_val by exact B1. splits; auto. apply be_val_bound in B1. exact B1.
Qed.
Lemma dec_version_spec c v r : bytes_ok c -> (dec_version c = inl (v, r) <-> c = be_bytes 4 v ++ r /\ 0 < v < 2 ^ 32).
Proof.
  intros B. unfold dec_version. split.
  - intros H. destruct (rd_n 4 c) as [[w r1]|] eqn:R; [|discriminate]. destruct (N.eqb_spec w 0); [discriminate|]. inv H.
    apply rd_n_bytes in R; [|exact B]. destruct R as (-> & L & _). change (256 ^ N.of_nat 4) with (2 ^ 32) in L. splits; auto. lia.
  - intros [-> L]. rewrite rd_be by (change (256 ^ N.of_nat 4) with (2 ^ 32); lia). destruct (N.eqb_spec v 0); [lia|]. reflexivity.
Qed.
Lemma dec_others_spec n : forall c vs r, bytes_ok c -> (dec_others n c = inl (vs, r) <-> c = flat_map (be_bytes 4) vs ++ r /\ length vs = n /\ Forall (fun w => 0 < w < 2 ^ 32) vs).
Proof.
  induction n as [|n IH]; intros c vs r B; cbn [dec_others].
  - split; [intros H; inv H; splits; auto|]. intros (-> & L & _). destruct vs; [|discriminate]. reflexivity.
  - split.
    + intros H. destruct (dec_version c) as [[v r1]|] eqn:D; [|discriminate]. apply dec_version_spec in D; [|exact B]. destruct D as [-> V].
      apply bytes_ok_app in B. destruct (dec_others n r1) as [[vs1 r2]|] eqn:D; [|discriminate]. apply pair_equal_spec in H || (inv H).
      apply IH in D; [|tauto]. destruct D as (-> & L & F). cbn [flat_map]. rewrite app_assoc. splits; auto. cbn. congruence.
    + intros (E & L & F). destruct vs as [|v vs]; [discriminate|]. inv F. cbn [flat_map] in *. rewrite <- app_assoc in *. apply bytes_ok_app in B.
      assert (D : dec_version (be_bytes 4 v ++ flat_map (be_bytes 4) vs ++ r) = inl (v, flat_map (be_bytes 4) vs ++ r)) by (apply dec_version_spec; [apply bytes_ok_app; exact B|auto]).
      rewrite D. assert (D2 : dec_others n (flat_map (be_bytes 4) vs ++ r) = inl (vs, r)) by (apply IH; [tauto|]; splits; auto; cbn in L; congruence).
      rewrite D2. reflexivity.
Qed.
Lemma flat_map_4 vs : length (flat_map (be_bytes 4) vs) = (4 * length vs)%nat.
Proof. induction vs as [|v vs IH]; [reflexivity|]. cbn [flat_map length]. rewrite app_length, be_bytes_length, IH. lia. Qed.
Lemma dec_versions_spec c x : bytes_ok c -> (dec_versions c = inl (x, []) <-> content VersionInformation c x).
Proof.
  intros B. unfold dec_versions, content. split.
  - intros H. destruct (dec_version c) as [[v r]|] eqn:D; [|discriminate]. apply dec_version_spec in D; [|exact B]. destruct D as [-> V].
    apply bytes_ok_app in B. destruct B as [_ B]. destruct (dec_others (Nat.div (length r) 4) r) as [[vs r1]|] eqn:D; [|discriminate]. inv H.
    apply dec_others_spec in D; [|exact B]. destruct D as (E & L & F). rewrite app_nil_r in E. subst r. exists v, vs. splits; auto.
  - intros (v & o & -> & -> & F). inv F.
    assert (D : dec_version (be_bytes 4 v ++ flat_map (be_bytes 4) o) = inl (v, flat_map (be_bytes 4) o)) by (apply dec_version_spec; auto).
    rewrite D. apply bytes_ok_app in B.
    assert (D2 : dec_others (Nat.div (length (flat_map (be_bytes 4) o)) 4) (flat_map (be_bytes 4) o) = inl (o, [])).
    { apply dec_others_spec; [tauto|]. rewrite app_nil_r. splits; auto. rewrite flat_map_4, Nat.mul_comm, Nat.div_mul; [reflexivity|discriminate]. }
    rewrite D2. reflexivity.
Qed.
Lemma xor_zero n ip p : length ip = n -> (xorb (all_zero ip) (p =? 0) = false <-> (ip = repeat 0 n <-> p = 0)).
Proof.
  intros L. destruct (all_zero ip) eqn:Z; destruct (N.eqb_spec p 0) as [P|P]; cbn.
  - apply all_zero_eq in Z. rewrite L in Z. tauto.
  - apply all_zero_eq in Z. rewrite L in Z. split; [discriminate|tauto].
  - split; [discriminate|]. intros H. apply H in P. rewrite <- L in P. apply all_zero_eq in P. congruence.
  - split; [|reflexivity]. intros _. split; [|tauto]. intros E. rewrite <- L in E. apply all_zero_eq in E. congruence.
Qed.
Lemma dec_addr_spec c x : bytes_ok c -> (dec_addr c = inl (x, []) <-> content PreferredAddress c x).
Proof.
  intros B. unfold dec_addr, content. split.
  - intros H. destruct (rd_bytes 4 c) as [[ip4 r1]|] eqn:R; [|discriminate]. apply rd_bytes_spec in R. destruct R as [-> L4]. apply bytes_ok_app in B. destruct B as [B4 B].
    destruct (rd_n 2 r1) as [[p4 r2]|] eqn:R; [|discriminate]. apply rd_n_bytes in R; [|exact B]. destruct R as (-> & P4 & B2).
    destruct (xorb (all_zero ip4) (p4 =? 0)) eqn:X4; [discriminate|].
    destruct (rd_bytes 16 r2) as [[ip6 r3]|] eqn:R; [|discriminate]. apply rd_bytes_spec in R. destruct R as [-> L6]. apply bytes_ok_app in B2. destruct B2 as [B6 B3].
    destruct (rd_n 2 r3) as [[p6 r4]|] eqn:R; [|discriminate]. apply rd_n_bytes in R; [|exact B3]. destruct R as (-> & P6 & B5).
    destruct (xorb (all_zero ip6) (p6 =? 0)) eqn:X6; [discriminate|].
    destruct ((p4 =? 0) && (p6 =? 0)) eqn:Z; [discriminate|]. unfold rd_vec in H.
    destruct (rd_n 1 r4) as [[k r5]|] eqn:R; [|discriminate]. apply rd_n_bytes in R; [|exact B5]. destruct R as (-> & K & B7).
    destruct (rd_bytes k r5) as [[cid r6]|] eqn:R; [|discriminate]. apply rd_bytes_spec in R. destruct R as [-> LC].
    destruct ((lenN cid =? 0) || (20 <? lenN cid)) eqn:C; [discriminate|].
    destruct (rd_bytes 16 r6) as [[srt r7]|] eqn:R; [|discriminate]. apply rd_bytes_spec in R. destruct R as [-> LS]. inv H.
    exists ip4, p4, ip6, p6, cid, srt. unfold lenN in L4, L6, LS.
    assert (length ip4 = 4%nat) by lia. assert (length ip6 = 16%nat) by lia. assert (length srt = 16%nat) by lia.
    apply (xor_zero 4) in X4; [|assumption]. apply (xor_zero 16) in X6; [|assumption]. apply andb_false_iff in Z. rewrite !N.eqb_neq in Z.
    apply orb_false_iff in C. destruct C as [C1 C2]. apply N.eqb_neq in C1. apply N.ltb_ge in C2.
    change (256 ^ N.of_nat 2) with 65536 in *. change (256 ^ N.of_nat 1) with 256 in K. unfold socket. rewrite app_nil_r. splits; auto; try lia.
    do 4 f_equal. cbn [be_bytes List.app]. change (256 ^ N.of_nat 0) with 1. rewrite N.div_1_r, N.mod_small by lia. reflexivity.
  - intros (ip4 & p4 & ip6 & p6 & cid & srt & -> & (L4 & P4 & X4) & (L6 & P6 & X6) & Z & C & LS & ->).
    rewrite rd_bytes_app by (unfold lenN; lia). rewrite rd_be by (change (256 ^ N.of_nat 2) with 65536; lia).
    apply xor_zero in X4; [|exact L4]. rewrite X4. rewrite rd_bytes_app by (unfold lenN; lia). rewrite rd_be by (change (256 ^ N.of_nat 2) with 65536; lia).
    apply xor_zero in X6; [|exact L6]. rewrite X6. destruct ((p4 =? 0) && (p6 =? 0)) eqn:Q.
    { apply andb_true_iff in Q. rewrite !N.eqb_eq in Q. lia. }
    unfold rd_vec. assert (R : rd_n 1 (lenN cid :: cid ++ srt) = Some (lenN cid, cid ++ srt)).
    { apply rd_n_spec. exists [lenN cid]. splits; auto. }
    rewrite R. rewrite rd_bytes_app by reflexivity. destruct (N.eqb_spec (lenN cid) 0); [lia|]. destruct (N.ltb_spec 20 (lenN cid)); [lia|]. cbn [orb].
    rewrite <- (app_nil_r srt) at 1. rewrite rd_bytes_app by (unfold lenN; lia). reflexivity.
Qed.
Lemma dec_int_spec ok e c x : dec_int ok e c = inl (x, []) <-> exists n, x = PInt n /\ rd_varint c = Some (n, []) /\ ok n = true.
Proof.
  unfold dec_int. split.
  - intros H. destruct (rd_varint c) as [[v r]|]; [|discriminate]. destruct (ok v) eqn:O; [|discriminate]. inv H. eauto.
  - intros (n & -> & -> & ->). reflexivity.
Qed.
Theorem value_spec server k c x : bytes_ok c -> (tp_value server k c = inl (x, []) <-> (server = true -> server_only k = false) /\ content k c x).
Proof.
  intros B.
  assert (INT : forall ok e lo hi, (forall n, n < 2 ^ 62 -> (ok n = true <-> lo <= n <= hi)) ->
    (dec_int ok e c = inl (x, []) <-> (server = true -> false = false) /\ exists n lo0 hi0, x = PInt n /\ rd_varint c = Some (n, []) /\ Some (lo, hi) = Some (lo0, hi0) /\ lo0 <= n <= hi0)).
  { intros ok e lo hi Q. rewrite dec_int_spec. split.
    - intros (n & E & R & O). split; [reflexivity|]. exists n, lo, hi. splits; auto; apply Q; auto; apply (rd_varint_bound c n [] B R).
    - intros (_ & n & lo0 & hi0 & E & R & I & L). injection I as <- <-. exists n. splits; auto. apply Q; [apply (rd_varint_bound c n [] B R)|exact L]. }
  destruct k; cbn [tp_value server_only content int_range];
  try (apply INT; intros n L; first [rewrite N.ltb_lt | rewrite N.leb_le | idtac]; split; intros; try reflexivity; lia).
  - split; [destruct server; intros H; inv H; split; [discriminate|reflexivity]|]. intros [S ->]. destruct server; [discriminate (S eq_refl)|reflexivity].
  - unfold lenN. split.
    + destruct (server || negb (N.of_nat (length c) =? 16)) eqn:Q; [discriminate|]. intros H. inv H. apply orb_false_iff in Q. destruct Q as [-> Q]. apply negb_false_iff, N.eqb_eq in Q.
      splits; auto; try discriminate. lia.
    + intros (S & -> & L). destruct server; [discriminate (S eq_refl)|]. cbn [orb]. rewrite L. reflexivity.
  - split; [intros H; inv H; auto|]. intros (_ & -> & ->). reflexivity.
  - split; [destruct server; [discriminate|]; rewrite dec_addr_spec by exact B; cbn [content]; split; [discriminate|assumption]|].
    intros [S C]. destruct server; [discriminate (S eq_refl)|]. apply dec_addr_spec; [exact B|exact C].
  - split; [intros H; inv H; auto|]. intros (_ & ->). reflexivity.
  - split; [destruct server; intros H; inv H; split; [discriminate|reflexivity]|]. intros [S ->]. destruct server; [discriminate (S eq_refl)|reflexivity].
  - rewrite dec_versions_spec by exact B. cbn [content]. split; [auto|intros [_ H]; exact H].
  - split; [intros H; inv H; auto|]. intros (_ & -> & ->). reflexivity.
  - split; [intros H; inv H; auto|]. intros (_ & -> & ->). reflexivity.
  - split; [intros H; inv H; auto|]. intros (_ & -> & ->). reflexivity.
Qed.
Lemma content_fun k v x y : bytes_ok v -> content k v x -> content k v y -> x = y.
Proof.
  intros B X Y. assert (A : tp_value false k v = inl (x, [])) by (apply value_spec; [exact B|split; [discriminate|exact X]]).
  assert (A2 : tp_value false k v = inl (y, [])) by (apply value_spec; [exact B|split; [discriminate|exact Y]]). congruence.
Qed.

(** ** The loop *)
Definition pick (server : bool) (k : tpid) (v : list N) : option tparam := match tp_value server k v with inl (x, []) => Some x | _ => None end.
Lemma pick_spec server k v x : bytes_ok v -> (pick server k v = Some x <-> (server = true -> server_only k = false) /\ content k v x).
Proof.
  intros B. rewrite <- value_spec by exact B. unfold pick. destruct (tp_value server k v) as [[y [|a r]]|]; split; intros H; inv H; reflexivity.
Qed.
Fixpoint absorb (server : bool) (ts : list (N * list N)) (t : tps) : option tps :=
  match ts with
  | [] => Some t
  | (c, v) :: ts' =>
      match tp_of_code c with
      | None => absorb server ts' t
      | Some k => match pick server k v with None => None | Some x => if is_some (t k) then None else absorb server ts' (tps_put k (Some x) t) end
      end
  end.
Lemma vvec_suffix l v r : rd_vvec l = Some (v, r) -> (length r < length l)%nat.
Proof.
  unfold rd_vvec. intros H. destruct (rd_varint l) as [[k r1]|] eqn:R; [|discriminate]. apply rd_varint_suffix in R. destruct R as (p & -> & L).
  apply rd_bytes_spec in H. destruct H as [-> _]. rewrite !app_length. destruct p as [|a p]; [|cbn; lia]. cbn [List.app] in L. exfalso.
  unfold varint_need in L. destruct (v ++ r) as [|b q]; cbn in L; repeat destruct (_ <? _); discriminate.
Qed.
Lemma varint_shrinks l v r : rd_varint l = Some (v, r) -> (length r <= length l)%nat.
Proof. intros R. apply rd_varint_suffix in R. destruct R as (p & -> & L). rewrite app_length. lia. Qed.
Lemma varint_ok l v r : bytes_ok l -> rd_varint l = Some (v, r) -> bytes_ok r.
Proof. intros B R. apply rd_varint_suffix in R. destruct R as (p & -> & L). apply bytes_ok_app in B. tauto. Qed.
Lemma vvec_ok l v r : bytes_ok l -> rd_vvec l = Some (v, r) -> bytes_ok v /\ bytes_ok r.
Proof.
  unfold rd_vvec. intros B H. destruct (rd_varint l) as [[k r1]|] eqn:R; [|discriminate]. apply varint_ok in R; [|exact B].
  apply rd_bytes_spec in H. destruct H as [-> _]. apply bytes_ok_app. exact R.
Qed.
Lemma loop_sound fuel : forall server l t t', (length l <= fuel)%nat -> tps_loop fuel server l t = inl t' -> exists ts, tlvs l ts /\ absorb server ts t = Some t'.
Proof.
  induction fuel as [|f IH]; intros server l t t' F H; cbn [tps_loop] in H.
  - destruct l; [|cbn in F; lia]. injection H as <-. exists []. split; [constructor|reflexivity].
  - destruct l as [|a l0]; [injection H as <-; exists []; split; [constructor|reflexivity]|]. set (l := a :: l0) in *. clearbody l.
    unfold tp_decode in H. destruct (rd_varint l) as [[c r]|] eqn:R; [|discriminate]. destruct (rd_vvec r) as [[v r']|] eqn:V; [|discriminate].
    assert (F' : (length r' <= f)%nat) by (apply varint_shrinks in R; apply vvec_suffix in V; lia).
    destruct (tp_of_code c) as [k|] eqn:K.
    + destruct (tp_value server k v) as [[x [|y z]]|] eqn:X; [| discriminate | discriminate]. destruct (is_some (t k)) eqn:D; [discriminate|].
      apply IH in H; [|exact F']. destruct H as (ts & T & A). exists ((c, v) :: ts). split; [econstructor; eassumption|]. cbn [absorb]. rewrite K. unfold pick. rewrite X, D. exact A.
    + apply IH in H; [|exact F']. destruct H as (ts & T & A). exists ((c, v) :: ts). split; [econstructor; eassumption|]. cbn [absorb]. rewrite K. exact A.
Qed.
Lemma loop_complete : forall l ts, tlvs l ts -> forall fuel server t t', (length l <= fuel)%nat -> absorb server ts t = Some t' -> tps_loop fuel server l t = inl t'.
Proof.
  intros l ts T. induction T as [|l c r v r' ts R V T IH]; intros fuel server t t' F A.
  - injection A as <-. destruct fuel; reflexivity.
  - assert (F' : (length r' < length l)%nat) by (apply varint_shrinks in R; apply vvec_suffix in V; lia).
    destruct fuel as [|f]; [lia|]. cbn [tps_loop]. destruct l as [|a l0]; [cbn in F'; lia|]. set (l := a :: l0) in *. clearbody l. unfold tp_decode. rewrite R, V. cbn [absorb] in A.
    destruct (tp_of_code c) as [k|] eqn:K; [|apply IH; [lia|exact A]]. unfold pick in A. destruct (tp_value server k v) as [[x [|y z]]|]; try discriminate.
    destruct (is_some (t k)); [discriminate|]. apply IH; [lia|exact A].
Qed.
Lemma tlvs_ok l ts : tlvs l ts -> bytes_ok l -> Forall (fun p => bytes_ok (snd p)) ts.
Proof.
  intros T. induction T as [|l c r v r' ts R V T IH]; intros B; constructor.
  - apply varint_ok in R; [|exact B]. apply vvec_ok in V; tauto.
  - apply IH. apply varint_ok in R; [|exact B]. apply vvec_ok in V; tauto.
Qed.
Lemma times_cons k c v ts : times k ((c, v) :: ts) = ((if N.eqb c (tp_code k) then 1 else 0) + times k ts)%nat.
Proof. unfold times. cbn [filter fst]. destruct (c =? tp_code k); reflexivity. Qed.
Lemma times_in k v ts : In (tp_code k, v) ts -> (1 <= times k ts)%nat.
Proof.
  induction ts as [|[c w] ts IH]; intros H; [destruct H|]. rewrite times_cons. destruct H as [E|H]; [injection E as -> ->; rewrite N.eqb_refl; lia|apply IH in H; lia].
Qed.
Lemma absorb_sound server ts : forall t t', Forall (fun p => bytes_ok (snd p)) ts -> absorb server ts t = Some t' -> forall k,
  (t k <> None -> times k ts = 0%nat /\ t' k = t k) /\
  (t k = None -> (times k ts <= 1)%nat /\ forall x, t' k = Some x <-> exists v, In (tp_code k, v) ts /\ content k v x) /\
  (forall v, In (tp_code k, v) ts -> (server = true -> server_only k = false) /\ exists x, content k v x).
Proof.
  induction ts as [|[c v] ts IH]; intros t t' B H k; cbn [absorb] in H.
  - injection H as <-. splits; auto; try (intros; destruct H; fail). intros T. split; [cbn; lia|]. intros x. split; [congruence|intros (v & [] & _)].
  - inv B. cbn [snd] in H2. rename H2 into Bv. rename H3 into B. rewrite times_cons. destruct (tp_of_code c) as [j|] eqn:J.
    + apply of_code in J. subst c. destruct (pick server j v) as [y|] eqn:P; [|discriminate]. apply pick_spec in P; [|exact Bv]. destruct P as [P1 P2].
      destruct (t j) as [z|] eqn:D; cbn [is_some] in H; [discriminate|]. destruct (IH _ _ B H k) as (I1 & I2 & I3).
      destruct (N.eqb_spec (tp_code j) (tp_code k)) as [E|E].
      * apply code_inj in E. subst k. rewrite put_same in I1, I2. destruct I1 as [I1 I4]; [discriminate|]. splits.
        -- congruence.
        -- intros _. split; [lia|]. intros x. rewrite I4. split.
           ++ intros Q. injection Q as <-. exists v. split; [left; reflexivity|exact P2].
           ++ intros (w & [W|W] & C); [injection W as <-; f_equal; eapply content_fun; eassumption|]. apply times_in in W. lia.
        -- intros w [W|W]; [injection W as <-; eauto|apply times_in in W; lia].
      * assert (NE : k <> j) by congruence. rewrite (put_other _ _ _ _ NE) in I1, I2. cbn [Nat.add]. splits; auto.
        -- intros T. destruct (I2 T) as [I4 I5]. split; [exact I4|]. intros x. rewrite I5. split; intros (w & W & C); exists w; (split; [|exact C]); [right; exact W|].
           destruct W as [W|W]; [congruence|exact W].
        -- intros w [W|W]; [congruence|auto].
    + pose proof (proj1 (of_code_none c) J k) as NE. destruct (N.eqb_spec c (tp_code k)) as [E|E]; [congruence|]. destruct (IH _ _ B H k) as (I1 & I2 & I3). cbn [Nat.add]. splits; auto.
      * intros T. destruct (I2 T) as [I4 I5]. split; [exact I4|]. intros x. rewrite I5. split; intros (w & W & C); exists w; (split; [|exact C]); [right; exact W|].
        destruct W as [W|W]; [congruence|exact W].
      * intros w [W|W]; [congruence|auto].
Qed.
Lemma absorb_complete server ts : forall t, Forall (fun p => bytes_ok (snd p)) ts ->
  (forall k, t k <> None -> times k ts = 0%nat) -> (forall k, (times k ts <= 1)%nat) ->
  (forall k v, In (tp_code k, v) ts -> (server = true -> server_only k = false) /\ exists x, content k v x) -> exists t', absorb server ts t = Some t'.
Proof.
  induction ts as [|[c v] ts IH]; intros t B T M C; cbn [absorb]; [eauto|]. inv B. cbn [snd] in H1.
  assert (C' : forall k w, In (tp_code k, w) ts -> (server = true -> server_only k = false) /\ exists x, content k w x) by (intros; apply C; right; assumption).
  assert (M' : forall k, (times k ts <= 1)%nat) by (intros k; specialize (M k); rewrite times_cons in M; lia).
  destruct (tp_of_code c) as [j|] eqn:J.
  - apply of_code in J. subst c. destruct (C j v (or_introl eq_refl)) as [P [x X]].
    assert (E : pick server j v = Some x) by (apply pick_spec; auto). rewrite E.
    assert (D : t j = None).
    { destruct (t j) eqn:D; [|reflexivity]. assert (Q : t j <> None) by congruence. apply T in Q. rewrite times_cons, N.eqb_refl in Q. discriminate. }
    rewrite D. cbn [is_some]. apply IH; auto. intros k K. destruct (tpid_eqb k j) eqn:KJ.
    + apply tpid_eqb_eq in KJ. subst k. specialize (M j). rewrite times_cons, N.eqb_refl in M. lia.
    + assert (k <> j) by (intros ->; rewrite tpid_eqb_refl in KJ; discriminate). rewrite put_other in K by assumption. apply T in K. rewrite times_cons in K. lia.
  - apply IH; auto. intros k K. apply T in K. rewrite times_cons in K. lia.
Qed.
