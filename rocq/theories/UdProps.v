(** C111: datagrams joined into batches come apart as they were. *)
From Coq Require Import NArith List Bool PeanoNat Lia.
From Verif Require Import UdModel UdSpec.
Import ListNotations.

Lemma joined_nonempty n xs : (0 < n)%nat -> joined n xs -> Forall (fun d => d <> []) xs.
Proof. intros P J. induction J as [d N L|d r L J IH]; constructor; auto. intros ->. cbn in L. lia. Qed.
Lemma chunks_joined n : (0 < n)%nat -> forall xs, joined n xs -> forall f, (length (concat xs) <= f)%nat -> chunks_f f n (concat xs) = xs.
Proof.
  intros P xs J. induction J as [d N L|d r L J IH]; intros f Lf; cbn [concat] in *.
  - rewrite app_nil_r in *. destruct f as [|f]; [destruct d; [congruence|cbn in Lf; lia]|]. cbn [chunks_f]. destruct d as [|x d]; [congruence|]. rewrite firstn_all2, skipn_all2 by exact L. destruct f; reflexivity.
  - rewrite app_length in Lf. destruct f as [|f]; [lia|]. cbn [chunks_f]. destruct (d ++ concat r) as [|x y] eqn:E; [apply app_eq_nil in E; destruct E as [-> _]; cbn in L; lia|]. rewrite <- E.
    rewrite firstn_app, skipn_app, L, Nat.sub_diag, firstn_O, app_nil_r, firstn_all2, skipn_all2 by lia. cbn [skipn app]. rewrite IH by lia. reflexivity.
Qed.
Lemma chunks_ok n : (0 < n)%nat -> forall f l, (length l <= f)%nat -> l <> [] -> joined n (chunks_f f n l) /\ concat (chunks_f f n l) = l.
Proof.
  intros P. induction f as [|f IH]; intros l L Ne; [destruct l; [congruence|cbn in L; lia]|]. cbn [chunks_f]. destruct l as [|x l]; [congruence|]. set (y := x :: l) in *.
  destruct (Nat.le_gt_cases (length y) n) as [S|S].
  - rewrite firstn_all2, skipn_all2 by exact S. assert (X : chunks_f f n [] = []) by (destruct f; reflexivity). rewrite X. split; [apply joined_one; assumption|cbn [concat]; apply app_nil_r].
  - destruct (IH (skipn n y)) as [A B]; [rewrite skipn_length; lia|intro X; apply (f_equal (@length N)) in X; rewrite skipn_length in X; cbn [length] in X; lia|].
    split; [apply joined_more; [rewrite firstn_length; lia|exact A]|cbn [concat]; rewrite B; apply firstn_skipn].
Qed.
Lemma joined_count n : (0 < n)%nat -> forall xs, joined n xs -> (length (concat xs) / n + (if Nat.eqb (length (concat xs) mod n) 0 then 0 else 1))%nat = length xs.
Proof.
  intros P xs J. induction J as [d N L|d r L J IH]; cbn [concat length].
  - rewrite app_nil_r. assert (L0 : (0 < length d)%nat) by (destruct d; [congruence|cbn; lia]). destruct (Nat.eq_dec (length d) n) as [->|X]; [rewrite Nat.div_same, Nat.mod_same by lia; reflexivity|].
    rewrite Nat.div_small, Nat.mod_small by lia. destruct (Nat.eqb_spec (length d) 0); lia.
  - rewrite app_length, L. replace (n + length (concat r))%nat with (length (concat r) + 1 * n)%nat by lia. rewrite Nat.div_add, Nat.mod_add by lia. lia.
Qed.

Lemma all_ok src local t : forall xs, Forall (fun d => d <> []) xs -> all (map (from_slice src local t) xs) = Some (map (mkDg src local t) xs).
Proof. intros xs F. induction F as [|d l Nd F IH]; [reflexivity|]. cbn [map all]. destruct d; [congruence|]. cbn [from_slice]. rewrite IH. reflexivity. Qed.

(** *** C111.  Datagrams that obey the rule of segmentation offloading, put into one batch, come out of it as they were, and are counted. *)
Theorem batch_gives_back : forall src dst tos n xs, (0 < n)%nat -> joined n xs ->
  iter (mkB src dst tos n (concat xs)) = map (mkDg src dst tos) xs /\ num_datagrams (mkB src dst tos n (concat xs)) = length xs /\
  (to_datagram (mkB src dst tos n (concat xs)) = match xs with [x] => Some (mkDg src dst tos x) | _ => None end).
Proof.
  intros src dst tos n xs P J. assert (K : num_datagrams (mkB src dst tos n (concat xs)) = length xs) by exact (joined_count n P xs J).
  split; [unfold iter, chunks; cbn [b_src b_dst b_tos b_size b_data]; rewrite (chunks_joined n P xs J) by lia; reflexivity|]. split; [exact K|].
  unfold to_datagram. rewrite K. cbn [b_src b_dst b_tos b_data]. destruct xs as [|x [|y r]]; [reflexivity|cbn; rewrite app_nil_r; reflexivity|reflexivity].
Qed.
(** Whatever bytes a batch holds, its datagrams are all of them, in order, obey the rule, and are counted; only an empty batch has none. *)
Theorem batch_splits : forall b, (0 < b_size b)%nat ->
  concat (map g_data (iter b)) = b_data b /\ num_datagrams b = length (iter b) /\ (b_data b = [] \/ joined (b_size b) (map g_data (iter b))) /\
  (forall d, In d (iter b) -> g_src d = b_src b /\ g_dst d = b_dst b /\ g_tos d = b_tos b).
Proof.
  intros b P. assert (M : map g_data (iter b) = chunks (b_size b) (b_data b)) by (unfold iter; rewrite map_map; cbn [g_data]; apply map_id).
  rewrite M. assert (D : forall d, In d (iter b) -> g_src d = b_src b /\ g_dst d = b_dst b /\ g_tos d = b_tos b) by (intros d I; apply in_map_iff in I; destruct I as (x & <- & _); auto).
  destruct (b_data b) as [|x l] eqn:E.
  - split; [reflexivity|]. split; [unfold num_datagrams, iter; rewrite E; cbn [length]; rewrite Nat.div_0_l, Nat.mod_0_l by lia; reflexivity|]. auto.
  - destruct (chunks_ok (b_size b) P (length (x :: l)) (x :: l) (le_n _) ltac:(discriminate)) as [J C]. unfold chunks. split; [exact C|]. split; [|auto].
    unfold num_datagrams, iter. rewrite E, map_length. unfold chunks. rewrite <- (joined_count _ P _ J), C. reflexivity.
Qed.
(** One datagram as a batch and back. *)
Theorem batch_of_one : forall d, g_data d <> [] -> exists b, of_datagram d = Some b /\ to_datagram b = Some d /\ iter b = [d].
Proof.
  intros [src dst tos l] N. cbn [g_data] in N. unfold of_datagram. cbn [g_data g_src g_dst g_tos]. destruct l as [|x l]; [congruence|]. eexists. split; [reflexivity|].
  assert (P : (0 < length (x :: l))%nat) by (cbn; lia). assert (J : joined (length (x :: l)) [x :: l]) by (constructor; [discriminate|lia]).
  destruct (batch_gives_back src dst tos _ _ P J) as (A & _ & C). cbn [concat] in A, C. rewrite app_nil_r in A, C. split; [exact C|exact A].
Qed.
(** What arrives in the system's buffers, however it was joined there, is given as the datagrams it was, with where they came from and their ECN bits; empty
    buffers are passed over, and nothing panics. *)
Theorem udp_receives : forall local ds bufs, arrives local ds bufs -> received local bufs = Some ds.
Proof.
  intros local ds bufs A. induction A as [|m buf ds bufs E A IH|src ecn n xs rest ds bufs P J A IH]; [reflexivity| |]; cbn [received].
  - destruct E as [-> | ->]; rewrite ?Nat.eqb_refl, ?orb_true_r; exact IH.
  - cbn [m_len m_stride m_addr m_ecn]. assert (L : (0 < length (concat xs))%nat) by (destruct J as [d N _|d r L _]; cbn [concat]; rewrite app_length; [destruct d; [congruence|cbn; lia]|lia]).
    destruct (Nat.eqb_spec (length (concat xs)) 0); [lia|]. destruct (Nat.eqb_spec n 0); [lia|]. cbn [orb]. destruct (Nat.ltb_spec (length (concat xs ++ rest)) (length (concat xs))) as [X|X]; [rewrite app_length in X; lia|].
    rewrite firstn_app, Nat.sub_diag, firstn_O, app_nil_r, firstn_all. unfold chunks. rewrite (chunks_joined n P xs J) by lia. rewrite IH.
    rewrite (all_ok src local _ xs (joined_nonempty n xs P J)). reflexivity.
Qed.
(** Whatever the system says it wrote within its buffers, nothing panics, and no datagram is empty. *)
Theorem udp_no_panic : forall local bufs, Forall (fun b => (m_len (fst b) <= length (snd b))%nat) bufs -> exists ds, received local bufs = Some ds /\
  Forall (fun d => g_data d <> [] /\ g_dst d = local) ds /\ concat (map g_data ds) = concat (map (fun b => if Nat.eqb (m_stride (fst b)) 0 then [] else firstn (m_len (fst b)) (snd b)) bufs).
Proof.
  intros local bufs F. induction F as [|[m buf] bufs L F (ds & R & Fd & C)]; [exists []; cbn; auto|]. cbn [fst snd] in *. cbn [received map concat fst snd].
  destruct (Nat.eqb_spec (m_len m) 0) as [Z|Z]; [cbn [orb]; exists ds; rewrite Z; cbn [firstn]; destruct (Nat.eqb (m_stride m) 0); auto|].
  destruct (Nat.eqb_spec (m_stride m) 0) as [W|W]; [cbn [orb]; exists ds; auto|]. cbn [orb]. destruct (Nat.ltb_spec (length buf) (m_len m)) as [X|X]; [lia|]. rewrite R.
  set (y := firstn (m_len m) buf). assert (Ly : length y = m_len m) by (unfold y; rewrite firstn_length; lia).
  assert (Ps : (0 < m_stride m)%nat) by lia. destruct (chunks_ok (m_stride m) Ps (length y) y (le_n _)) as [J Cy]; [intro E; rewrite E in Ly; cbn in Ly; lia|]. fold (chunks (m_stride m) y) in J, Cy. pose proof (joined_nonempty _ _ Ps J) as Ne.
  set (t := match m_ecn m with Some e => e | None => 0%N end).
  rewrite (all_ok _ local t _ Ne). eexists. split; [reflexivity|]. split.
  - apply Forall_app. split; [|exact Fd]. apply Forall_map. eapply Forall_impl; [|exact Ne]. intros d N. cbn. auto.
  - rewrite map_app, concat_app, C, map_map. cbn [g_data]. rewrite map_id, Cy. reflexivity.
Qed.
(** From one end to the other: the datagrams of a batch that is handed to the system, and that the receiver's system joins again in one buffer as they were sent, are
    given to the receiver with their bytes and the ECN bits of their TOS byte. *)
Theorem udp_end_to_end : forall b local peer rest, (0 < b_size b)%nat -> b_data b <> [] -> let t := transmit_of b in
  received local [(mkMeta peer (length (t_data t)) (t_seg t) (t_ecn t), t_data t ++ rest)] = Some (map (fun d => mkDg peer local (g_tos d mod 4) (g_data d)) (iter b)).
Proof.
  intros b local peer rest P N t. destruct (batch_splits b P) as (C & _ & J & D). destruct J as [J|J]; [congruence|].
  pose proof (arrives_some local peer (t_ecn t) (b_size b) (map g_data (iter b)) rest [] [] P J (arrives_none _)) as A. apply udp_receives in A. rewrite C, app_nil_r in A. unfold t at 1 2 4, transmit_of. cbn [t_data t_seg]. rewrite A. f_equal.
  rewrite map_map. apply map_ext_in. intros d I. destruct (D d I) as (_ & _ & ->). f_equal. unfold t, transmit_of, ecn_of_bits. cbn [t_ecn]. destruct (N.eqb_spec (b_tos b mod 4) 0) as [E|E]; [rewrite E|]; reflexivity.
Qed.
(** Of what the system refuses, a batch too big and a full queue are not the sender's errors; everything else is. *)
Theorem udp_send_errors : forall a, send_result a = None <-> (a = Sent \/ a = TooBig \/ a = NoBuffers).
Proof. intros []; cbn; split; intro H; try tauto; try discriminate. destruct H as [H|[H|H]]; discriminate. Qed.
(** The rest of the TOS byte is not sent. *)
Theorem udp_dscp_refuted : exists b, (0 < b_size b)%nat /\ b_data b <> [] /\ let t := transmit_of b in
  received 1 [(mkMeta 2 (length (t_data t)) (t_seg t) (t_ecn t), t_data t)] <> Some (map (fun d => mkDg 2 1 (g_tos d) (g_data d)) (iter b)).
Proof. exists (mkB 2 1 46 4 [1%N]). split; [cbn; lia|]. split; [discriminate|]. vm_compute. discriminate. Qed.
Example udp_case : joined 2 [[1; 2]; [3; 4]; [5]]%N /\ received 9 [(mkMeta 7 5 2 (Some 1%N), [1; 2; 3; 4; 5; 0; 0]%N); (mkMeta 7 0 2 None, [0]%N); (mkMeta 8 1 1 None, [6]%N)] =
  Some [mkDg 7 9 1 [1; 2]%N; mkDg 7 9 1 [3; 4]%N; mkDg 7 9 1 [5]%N; mkDg 8 9 0 [6]%N].
Proof. split; [apply joined_more; [reflexivity|]; apply joined_more; [reflexivity|]; apply joined_one; [discriminate|cbn; lia]|reflexivity]. Qed.
Print Assumptions batch_gives_back.
Print Assumptions batch_splits.
Print Assumptions batch_of_one.
Print Assumptions udp_receives.
Print Assumptions udp_no_panic.
Print Assumptions udp_end_to_end.
Print Assumptions udp_send_errors.
Print Assumptions udp_dscp_refuted.
