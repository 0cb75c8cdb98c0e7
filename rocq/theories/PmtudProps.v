(** C38: path MTU discovery. *)
From Verif Require Import Base Lib PmtudModel.

(** ** Specification *)
(** The sizes of the probes sent in a history, in order. *)
Fixpoint probes_sent (m : pmtud) (ops : list mop) : list N :=
  match ops with
  | [] => []
  | o :: ops' => (match o with MSend => if needs_probe m then [size_at (m_v6 m) (m_idx m)] else [] | _ => [] end) ++ probes_sent (pm_step m o) ops'
  end.
(** The probes reported delivered. *)
Definition ids_acked (ops : list mop) : list nat := flat_map (fun o => match o with MAcked ids _ => ids | _ => [] end) ops.
(** [s] is the size of some probe that was sent and acknowledged. *)
Definition delivered (m0 : pmtud) (ops : list mop) (s : N) : Prop := exists k, In k (ids_acked ops) /\ nth_error (probes_sent m0 ops) k = Some s.
(** A report of delivery is timely: it is about probes of the size tried at the time. *)
Fixpoint timely (m0 : pmtud) (past : list mop) (ops : list mop) : Prop :=
  match ops with
  | [] => True
  | o :: ops' =>
      (match o with
       | MAcked ids _ => Forall (fun k => nth_error (probes_sent m0 past) k = Some (size_at (m_v6 m0) (m_idx (pm_run m0 past)))) ids
       | _ => True
       end) /\ timely m0 (past ++ [o]) ops'
  end.
(** What an endpoint may send at most: the interface's limit, and the peer's with the IP and UDP headers. *)
Definition within (iface : option N) (peer : option N) (v6 : bool) (s : N) : Prop :=
  (forall i, iface = Some i -> s <= i) /\ (forall p, peer = Some p -> s <= p + hdr v6).

(** ** Proofs *)
Lemma v6_next : forall now m, m_v6 (pm_next now m) = m_v6 m.
Proof. intros. unfold pm_next. destruct (_ =? _)%nat; [reflexivity|]. destruct (_ <? _); reflexivity. Qed.
Lemma v6_step : forall m o, m_v6 (pm_step m o) = m_v6 m.
Proof.
  intros m []; cbn [pm_step]; try reflexivity.
  - unfold pm_start. cbn [set_mtu m_v6]. apply (v6_next now (mkM _ _ _ _ _ _ _ _)).
  - destruct (needs_probe m); reflexivity.
  - unfold pm_acked. destruct (_ =? _); [reflexivity|]. apply (v6_next now m).
  - unfold pm_lost. destruct (_ =? _); [reflexivity|]. destruct (_ <=? _); reflexivity.
  - unfold pm_timer. destruct (m_probe m), (m_timer m); try reflexivity. destruct (_ <=? _); [|reflexivity]. apply (v6_next now (mkM _ _ _ _ _ _ _ _)).
Qed.
Lemma v6_run : forall ops m, m_v6 (pm_run m ops) = m_v6 m.
Proof. induction ops as [|o ops IH]; intros m; [reflexivity|]. cbn. fold (pm_run (pm_step m o) ops). now rewrite IH, v6_step. Qed.
Lemma sent_app : forall o1 m o2, probes_sent m (o1 ++ o2) = probes_sent m o1 ++ probes_sent (pm_run m o1) o2.
Proof. induction o1 as [|o o1 IH]; intros m o2; [reflexivity|]. cbn [app probes_sent pm_run fold_left]. rewrite IH, app_assoc. reflexivity. Qed.
Lemma run_app : forall o1 m o2, pm_run m (o1 ++ o2) = pm_run (pm_run m o1) o2.
Proof. intros. unfold pm_run. now rewrite fold_left_app. Qed.
Lemma delivered_mono : forall m a b s, delivered m a s -> delivered m (a ++ b) s.
Proof.
  intros m a b s (k & I & E). exists k. unfold ids_acked in *. rewrite flat_map_app, sent_app. split; [apply in_or_app; now left|]. rewrite nth_error_app1; [exact E|]. apply nth_error_Some. congruence.
Qed.
Lemma size_mono : forall v6 i j, (i <= j)%nat -> (j < 11)%nat -> size_at v6 i <= size_at v6 j.
Proof.
  intros v6 i j L J. unfold size_at, tbl, sizes4, sizes6.
  destruct v6; do 11 (destruct j as [|j]; [do 11 (destruct i as [|i]; [cbn [nth]; lia|]); lia|]); lia.
Qed.
Definition down (P : N -> Prop) : Prop := forall s s', s <= s' -> P s' -> P s.
Definition good (v6 : bool) (P : N -> Prop) (m : pmtud) : Prop :=
  m_v6 m = v6 /\ (m_idx m < 11)%nat /\ P (m_mtu m) /\ match m_probe m with NotNeeded => P (size_at v6 (m_idx m)) | _ => P (size_at v6 (m_idx m - 1)) end.
Lemma len_tbl : forall v6, length (tbl v6) = 11%nat.
Proof. intros []; reflexivity. Qed.
Lemma good_next : forall v6 (P : N -> Prop) now m, m_v6 m = v6 -> (m_idx m < 11)%nat -> P (m_mtu m) -> P (size_at v6 (m_idx m)) -> good v6 P (pm_next now m).
Proof.
  intros v6 P now m V R M I. unfold pm_next. rewrite len_tbl. destruct (Nat.eqb_spec (m_idx m) (11 - 1)); [unfold good; cbn; rewrite V; auto|]. destruct (_ <? _); unfold good; cbn [m_v6 m_idx m_mtu m_probe pm_stop]; rewrite ?V; splits; auto; try lia.
  now replace (m_idx m + 1 - 1)%nat with (m_idx m) by lia.
Qed.
Lemma good_set : forall v6 P i m, good v6 P m -> P (size_at v6 i) -> good v6 P (set_mtu i m).
Proof. intros v6 P i m (V & M & I) Pi. unfold good. cbn. rewrite V. tauto. Qed.
Lemma step_good : forall v6 (P : N -> Prop) m o, down P -> good v6 P m -> P (size_at v6 0) ->
  (forall ids now, o = MAcked ids now -> ids <> [] -> P (size_at v6 (m_idx m))) -> good v6 P (pm_step m o).
Proof.
  intros v6 P m o D G P0 A. pose proof G as (V & R & M & I).
  assert (PM : P (size_at v6 (m_idx m - 1))) by (destruct (m_probe m); auto; apply (D _ (size_at v6 (m_idx m))); [apply size_mono; lia|exact I]).
  destruct o; cbn [pm_step].
  - unfold pm_start. apply good_set; [|exact P0]. apply good_next; cbn [m_v6 m_idx m_mtu]; auto. lia.
  - unfold needs_probe. destruct (m_probe m) eqn:E; auto. unfold good. cbn [pm_send m_v6 m_idx m_mtu m_probe]. auto.
  - unfold pm_acked. destruct (N.eqb_spec (lenN ids) 0); [exact G|]. assert (PI : P (size_at v6 (m_idx m))) by (eapply A; [reflexivity|intros ->; now rewrite lenN_nil in n]). apply good_set; [|exact PI]. now apply good_next.
  - unfold pm_lost. destruct (N.eqb_spec (lenN ids) 0); [exact G|]. destruct (_ <=? _); unfold good; cbn [pm_stop m_v6 m_idx m_mtu m_probe]; rewrite ?V; splits; auto; lia.
  - unfold pm_timer. destruct (m_probe m) eqn:E, (m_timer m); try exact G. destruct (_ <=? _); [|exact G]. apply good_next; cbn [m_v6 m_idx m_mtu]; auto.
  - exact G.
Qed.
Lemma timely_app : forall m0 a p b, timely m0 p (a ++ b) -> timely m0 p a /\ timely m0 (p ++ a) b.
Proof.
  intros m0. induction a as [|o a IH]; intros p b H; [cbn; now rewrite app_nil_r|]. cbn [app timely] in H. destruct H as [H1 H2]. apply IH in H2. destruct H2 as [H2 H3]. cbn [timely]. rewrite <- app_assoc in H3. tauto.
Qed.

(** C38: the index into the table of sizes never leaves it, whatever happens. *)
Theorem index_in_table : forall v6 iface ops, (m_idx (pm_run (pm_new v6 iface) ops) < length (tbl v6))%nat.
Proof.
  intros v6 iface ops. rewrite len_tbl.
  assert (G : forall ops m, good v6 (fun _ => True) m -> good v6 (fun _ => True) (pm_run m ops)).
  { clear ops. induction ops as [|o ops IH]; intros m G; [exact G|]. apply IH. apply step_good; auto. unfold down. auto. }
  apply (G ops (pm_new v6 iface)). unfold good. cbn. auto with arith.
Qed.
Print Assumptions index_in_table.
(** C38, partial: if reports of delivery are about the size tried at the time, the MTU in use is the base size or
    no larger than a probe that was delivered.  Missing: late reports, see [late_report_refuted]. *)
Theorem mtu_was_delivered_partial : forall v6 iface ops, let m0 := pm_new v6 iface in timely m0 [] ops ->
  m_mtu (pm_run m0 ops) <= 1280 \/ exists s, delivered m0 ops s /\ m_mtu (pm_run m0 ops) <= s.
Proof.
  intros v6 iface ops m0 T. set (P := fun h s => s <= 1280 \/ exists d, delivered m0 h d /\ s <= d).
  assert (Dn : forall h, down (P h)) by (intros h s s' L [H|(d & H & H')]; [left; lia|right; exists d; split; [exact H|lia]]).
  assert (Mono : forall a b s, P a s -> P (a ++ b) s) by (intros a b s [H|(d & H & H')]; [now left|right; exists d; split; [now apply delivered_mono|exact H']]).
  assert (G : good v6 (P ops) (pm_run m0 ops)).
  { revert T. induction ops as [|o ops IH] using rev_ind; intros T.
    - unfold good. cbn. unfold P. splits; auto; try lia; left; destruct v6; cbn; lia.
    - apply timely_app in T. destruct T as [T1 T2]. specialize (IH T1). cbn [app timely] in T2. destruct T2 as [T2 _]. rewrite run_app. cbn.
      assert (G : good v6 (P (ops ++ [o])) (pm_run m0 ops)).
      { destruct IH as (V & R & M & I). unfold good. splits; auto. destruct (m_probe (pm_run m0 ops)); auto. }
      apply step_good; auto; [left; destruct v6; cbn; lia|]. intros ids now -> Ne. destruct ids as [|k ids]; [now elim Ne|]. inv T2. right. exists (size_at v6 (m_idx (pm_run m0 ops))). split; [|lia].
      exists k. unfold ids_acked. rewrite flat_map_app, sent_app. split; [apply in_or_app; right; cbn; auto|]. rewrite nth_error_app1; [exact H1|]. apply nth_error_Some. congruence. }
  apply G.
Qed.
Print Assumptions mtu_was_delivered_partial.
(** C38: without that: a probe of 1380 is sent twice, and its two acknowledgements come one after the other.
    The second is taken for one of 1420, which was never delivered. *)
Theorem late_report_refuted : exists ops, let m0 := pm_new false None in
  ids_acked ops = [0; 1]%nat /\ NoDup (ids_acked ops) /\ (forall s, delivered m0 ops s -> s = 1380) /\ m_mtu (pm_run m0 ops) = 1420.
Proof.
  exists [MStart 0; MSend; MLost [0]%nat 1; MSend; MAcked [0]%nat 2; MSend; MAcked [1]%nat 3]. cbv zeta. splits; [reflexivity|repeat constructor; cbn; intuition discriminate| |reflexivity].
  intros s (k & I & E). cbn in I. destruct I as [<-|[<-|[]]]; vm_compute in E; congruence.
Qed.
Print Assumptions late_report_refuted.
(** C38, partial: with the peer's limit known before the search starts, the MTU is the base size or within both the interface's
    limit and the peer's.  Missing: the base size itself, see [base_above_peer_limit_refuted]. *)
Theorem mtu_within_limits_partial : forall v6 iface peer ops,
  (forall i, iface = Some i -> i < 2 ^ 64) -> (forall o, In o ops -> match o with MPeer _ => False | _ => True end) ->
  let m := pm_run (pm_new v6 iface) (match peer with Some p => [MPeer p] | None => [] end ++ ops) in
  m_mtu m = 1280 \/ within iface peer v6 (m_mtu m).
Proof.
  intros v6 iface peer ops IF NP. cbv zeta. rewrite run_app. set (m1 := pm_run (pm_new v6 iface) _).
  assert (E1 : m_iface m1 = match iface with Some i => i | None => 18446744073709551615 end /\ m_peer m1 = peer /\ m_v6 m1 = v6 /\ m_idx m1 = 0%nat /\ m_mtu m1 = 1280 /\ m_probe m1 = NotNeeded).
  { unfold m1. destruct peer, v6; cbn; auto 10. }
  clearbody m1. destruct E1 as (F1 & F2 & F3 & F4 & F5 & F6).
  set (Q := fun s => s <= 1280 \/ s <= mtu_limit m1).
  assert (Lim : forall m, m_iface m = m_iface m1 -> m_peer m = m_peer m1 -> m_v6 m = m_v6 m1 -> mtu_limit m = mtu_limit m1) by (intros m X Y Z; unfold mtu_limit; now rewrite X, Y, Z).
  set (K := fun m => m_iface m = m_iface m1 /\ m_peer m = m_peer m1 /\ m_v6 m = v6 /\ (m_idx m < 11)%nat /\ Q (size_at v6 (m_idx m)) /\ (exists i, (i < 11)%nat /\ m_mtu m = size_at v6 i) /\ Q (m_mtu m)).
  assert (Base : forall v, size_at v 0 = 1280) by (intros []; reflexivity).
  assert (Kn : forall now m, K m -> K (pm_next now m)).
  { intros now m (A1 & A2 & A3 & A4 & A5 & A6 & A7). unfold pm_next. rewrite len_tbl, A3. destruct (Nat.eqb_spec (m_idx m) (11 - 1)).
    - unfold K; cbn [pm_stop m_iface m_peer m_v6 m_idx m_mtu]; rewrite ?A3; splits; auto. exists (m_idx m). split; [lia|reflexivity].
    - rewrite (Lim m A1 A2 (eq_trans A3 (eq_sym F3))). destruct (N.ltb_spec (mtu_limit m1) (size_at v6 (m_idx m + 1))); unfold K; cbn [pm_stop m_iface m_peer m_v6 m_idx m_mtu]; rewrite ?A3; splits; auto; try lia.
      + exists (m_idx m). split; [lia|reflexivity].
      + right. lia. }
  assert (Kset : forall i m, K m -> (i < 11)%nat -> Q (size_at v6 i) -> K (set_mtu i m)).
  { intros i m (A1 & A2 & A3 & A4 & A5 & A6 & A7) Hi H. unfold K. cbn. rewrite A3. splits; auto. exists i. auto. }
  assert (Q0 : Q (size_at v6 0)) by (left; rewrite Base; lia).
  assert (KQ : forall m i, K m -> (i <= m_idx m)%nat -> Q (size_at v6 i)).
  { intros m i (A1 & A2 & A3 & A4 & A5 & A6 & A7) L. pose proof (size_mono v6 i (m_idx m) L A4). unfold Q in *. lia. }
  assert (Step : forall m o, K m -> (match o with MPeer _ => False | _ => True end) -> K (pm_step m o)).
  { intros m o Km Ho. pose proof Km as (A1 & A2 & A3 & A4 & A5 & A6 & A7). destruct o; cbn [pm_step]; try contradiction.
    - unfold pm_start. apply Kset; auto; [|lia]. apply Kn. unfold K. cbn [m_iface m_peer m_v6 m_idx m_mtu]. splits; auto; lia.
    - destruct (needs_probe m); [|exact Km]. unfold K. cbn [pm_send m_iface m_peer m_v6 m_idx m_mtu]. splits; auto.
    - unfold pm_acked. destruct (_ =? _); [exact Km|]. apply Kset; auto.
    - unfold pm_lost. destruct (_ =? _); [exact Km|]. destruct (_ <=? _); unfold K; cbn [pm_stop m_iface m_peer m_v6 m_idx m_mtu]; rewrite ?A3.
      + splits; auto; try lia; try (apply (KQ m); [exact Km|lia]). exists (m_idx m - 1)%nat. split; [lia|reflexivity].
      + splits; auto.
    - unfold pm_timer. destruct (m_probe m), (m_timer m); try exact Km. destruct (_ <=? _); [|exact Km]. apply Kn. unfold K. cbn [m_iface m_peer m_v6 m_idx m_mtu]. splits; auto. }
  assert (G : forall ops m, K m -> (forall o, In o ops -> match o with MPeer _ => False | _ => True end) -> K (pm_run m ops)).
  { clear ops NP. induction ops as [|o ops IH]; intros m Km NP; [exact Km|]. apply IH; [apply Step; [exact Km|apply NP; now left]|intros x X; apply NP; now right]. }
  destruct (G ops m1) as (A1 & A2 & A3 & A4 & A5 & (i & Hi & A6) & A7); [|exact NP|].
  { unfold K. rewrite F4. splits; auto; try lia; [exists 0%nat; split; [lia|now rewrite Base]|left; lia]. }
  clear G Step KQ Kset Kn. destruct (Nat.eq_dec i 0) as [->|Hne]; [left; now rewrite A6, Base|]. right. assert (L : size_at v6 1 <= size_at v6 i) by (apply size_mono; lia). assert (1380 <= size_at v6 1) by (destruct v6; cbn; lia).
  rewrite A6 in *. destruct A7 as [A7|A7]; [lia|]. unfold mtu_limit in A7. rewrite F1, F2, F3 in A7. split.
  - intros j ->. destruct peer; lia.
  - intros p ->. lia.
Qed.
Print Assumptions mtu_within_limits_partial.
(** C38: the base size does not look at the peer's limit: a peer that takes datagrams of 1200 is sent 1252. *)
Theorem base_above_peer_limit_refuted : exists p ops, 1200 <= p /\ In (MPeer p) ops /\ p < plpmtu (pm_run (pm_new false None) ops).
Proof. exists 1200, [MPeer 1200; MStart 0; MSend]. splits; [lia|now left|vm_compute; reflexivity]. Qed.
Print Assumptions base_above_peer_limit_refuted.
(** C38: while a size is tried (only probes and losses happen, each loss reported once), at most three probes of it are sent,
    and after the third loss the search is over, at the size below. *)
Definition losses (ops : list mop) : N := lenN (flat_map (fun o => match o with MLost ids _ => ids | _ => [] end) ops).
Theorem three_probes_per_size : forall m ops,
  m_probe m = Needed -> m_count m = 0 ->
  (forall o, In o ops -> match o with MSend => True | MLost ids _ => lenN ids = 1 | _ => False end) ->
  (forall a b, ops = a ++ b -> losses a <= lenN (probes_sent m a)) ->
  lenN (probes_sent m ops) <= 3 /\
  (losses ops = 3 -> m_probe (pm_run m ops) = NotNeeded /\ m_mtu (pm_run m ops) = size_at (m_v6 m) (m_idx m - 1)) /\
  Forall (fun s => s = size_at (m_v6 m) (m_idx m)) (probes_sent m ops).
Proof.
  intros m ops N0 C0 O L. set (v := m_v6 m). set (i := m_idx m).
  assert (G : let x := pm_run m ops in let n := lenN (probes_sent m ops) in
     m_v6 x = v /\ Forall (fun s => s = size_at v i) (probes_sent m ops) /\
     ((m_probe x = Needed /\ m_idx x = i /\ m_count x = n /\ losses ops = n /\ n < 3) \/ (m_probe x = Sent /\ m_idx x = i /\ m_count x = n /\ losses ops + 1 = n /\ n <= 3) \/
      (m_probe x = NotNeeded /\ n = 3 /\ losses ops = 3 /\ m_mtu x = size_at v (i - 1)))).
  { revert O L. induction ops as [|o ops IH] using rev_ind; intros O L.
    - cbn. splits; auto. left. splits; auto. change (lenN (@nil N)) with 0. lia.
    - assert (IH' := IH ltac:(intros x X; apply O, in_or_app; now left) ltac:(intros a b ->; apply (L a (b ++ [o])); now rewrite app_assoc)). clear IH. cbv zeta in *.
      specialize (L (ops ++ [o]) [] ltac:(now rewrite app_nil_r)). rewrite run_app. unfold losses in *. rewrite flat_map_app, lenN_app in *. rewrite sent_app, lenN_app in *.
      set (l := lenN (flat_map _ ops)) in *. set (n := lenN (probes_sent m ops)) in *. clearbody l n. destruct IH' as (V & F & IH'). specialize (O o ltac:(apply in_or_app; right; now left)).
      cbn [pm_run fold_left]. fold (pm_run m ops). set (x := pm_run m ops) in *. clearbody x. destruct o; try contradiction; cbn [pm_step probes_sent flat_map app] in *.
      + unfold needs_probe in *. rewrite ?app_nil_r in *. destruct IH' as [(P & I & C & Ln & Lt)|[(P & I & C & Ln & Lt)|(P & -> & -> & M)]]; rewrite P in *.
        * rewrite lenN_cons in *. change (lenN (@nil nat)) with 0 in *. change (lenN (@nil N)) with 0 in *. cbn [pm_send m_v6 m_probe m_idx m_count]. splits; auto; [apply Forall_app; split; [exact F|repeat constructor; now rewrite V, I]|]. right. left. splits; auto; lia.
        * change (lenN (@nil nat)) with 0 in *. change (lenN (@nil N)) with 0 in *. splits; auto; [now rewrite app_nil_r|]. right. left. splits; auto; lia.
        * change (lenN (@nil nat)) with 0 in *. change (lenN (@nil N)) with 0 in *. splits; auto; [now rewrite app_nil_r|]. right. right. splits; auto; lia.
      + rewrite ?app_nil_r in *. rewrite O in *. unfold pm_lost. change (1 =? 0) with false. cbv iota. change (lenN (@nil N)) with 0 in *. unfold MAX_PROBES.
        destruct IH' as [(P & I & C & Ln & Lt)|[(P & I & C & Ln & Lt)|(P & -> & -> & M)]]; try lia.
        destruct (N.leb_spec 3 (m_count x)); cbn [pm_stop m_v6 m_probe m_idx m_count m_mtu]; rewrite ?V, ?I; splits; auto; [right; right; splits; auto; lia|left; splits; auto; lia]. }
  cbv zeta in G. destruct G as (V & F & [(P & I & C & Ln & Lt)|[(P & I & C & Ln & Lt)|(P & E & E' & M)]]); splits; auto; try lia.
Qed.
Print Assumptions three_probes_per_size.
(** The search goes up to 1472, and stops there after three losses of 1500. *)
Definition search_story : list mop :=
  [MPeer 65527; MStart 0; MSend; MAcked [0]%nat 1; MSend; MAcked [1]%nat 2; MSend; MAcked [2]%nat 3; MSend; MLost [3]%nat 4; MSend; MLost [4]%nat 5; MSend; MLost [5]%nat 6; MTimer 606].
Example search_story_works : timely (pm_new false None) [] search_story /\ m_mtu (pm_run (pm_new false None) search_story) = 1472 /\ m_probe (pm_run (pm_new false None) search_story) = Needed.
Proof. splits; [cbn; repeat (split; [try exact Logic.I; repeat constructor|]); exact Logic.I|reflexivity|reflexivity]. Qed.

(** C38: when the search moves to another size, that size gets its three probes, whatever happened before. *)
Theorem new_size_gets_three_probes : forall m o a t b t', let m' := pm_step m o in (match o with MAcked _ _ | MTimer _ | MStart _ => True | _ => False end) ->
  m_probe m' = Needed -> m_idx m' <> m_idx m ->
  probes_sent m' [MSend; MLost [a] t; MSend; MLost [b] t'; MSend] = repeat (size_at (m_v6 m') (m_idx m')) 3.
Proof.
  intros m o a t b t' m' O Nd Ix.
  assert (C0 : m_count m' = 0).
  { assert (St : forall i now x, m_probe (pm_stop i now x) = NotNeeded) by (intros; reflexivity).
    assert (Nx : forall now x, m_probe (pm_next now x) = Needed -> m_count (pm_next now x) = 0).
    { intros now x. unfold pm_next. destruct (_ =? _)%nat; [rewrite St; discriminate|]. destruct (_ <? _); [rewrite St; discriminate|]. reflexivity. }
    assert (Sm : forall i x, m_probe (set_mtu i x) = m_probe x /\ m_count (set_mtu i x) = m_count x /\ m_idx (set_mtu i x) = m_idx x) by (intros; cbn; auto).
    unfold m' in *. destruct o as [now| |ids now|ids now|now|p]; cbn [pm_step] in *; try contradiction.
    - unfold pm_start in *. rewrite (proj1 (proj2 (Sm _ _))). apply Nx. rewrite <- Nd. symmetry. apply Sm.
    - unfold pm_acked in *. destruct (_ =? 0); [congruence|]. rewrite (proj1 (proj2 (Sm _ _))). apply Nx. rewrite <- Nd. symmetry. apply Sm.
    - unfold pm_timer in *. destruct (m_probe m); try congruence. destruct (m_timer m); try congruence. destruct (_ <=? now); [|congruence]. apply Nx. exact Nd. }
  clearbody m'. destruct m' as [v6 mtu ifc pr idx cnt prb tm]. cbn in Nd, C0. subst cnt prb. reflexivity.
Qed.
Print Assumptions new_size_gets_three_probes.
