From Coq Require Import Lia.
From Verif Require Import Base Lib CodecModel CodecProofs Reader PnModel PnProofs VerModel VerProps PktModel.

(** ** Finite checks on the first byte *)
Definition Nseq (n : nat) : list N := map N.of_nat (seq 0 n).
Lemma Nseq_in a n : a < N.of_nat n -> In a (Nseq n).
Proof. intros H. unfold Nseq. apply in_map_iff. exists (N.to_nat a). split; [lia|]. apply in_seq. lia. Qed.

Definition long_ok (t k q m : N) : bool :=
  let f0 := N.lxor (N.lor (N.lor BIT_LONG BIT_FIXED) (N.shiftl t 4)) q in
  let f := N.lor f0 k in let g := N.lxor f m in
  (N.land f0 128 =? 128) && negb (N.land g 128 =? 0) && (N.land (N.shiftr g 4) 3 =? t) && (N.lxor g m =? f) && (N.land f 3 =? k) && (N.land f 12 =? 0) && (g <? 256) && (f <? 256).
Lemma long_first t k q m : t < 4 -> k < 4 -> In q [0; 64] -> m < 16 -> long_ok t k q m = true.
Proof.
  intros Ht Hk Hq Hm.
  assert (A : forallb (fun t => forallb (fun k => forallb (fun q => forallb (long_ok t k q) (Nseq 16)) [0; 64]) (Nseq 4)) (Nseq 4) = true) by (vm_compute; reflexivity).
  rewrite forallb_forall in A. specialize (A t (Nseq_in t 4 Ht)). cbv beta in A.
  rewrite forallb_forall in A. specialize (A k (Nseq_in k 4 Hk)). cbv beta in A.
  rewrite forallb_forall in A. specialize (A q Hq). cbv beta in A.
  rewrite forallb_forall in A. exact (A m (Nseq_in m 16 Hm)).
Qed.
Definition short_ok (kp : bool) (k q m : N) : bool :=
  let f0 := N.lxor (N.lor BIT_FIXED (if kp then 4 else 0)) q in
  let f := N.lor f0 k in let g := N.lxor f m in
  (N.land f0 128 =? 0) && (N.land g 128 =? 0) && (N.lxor g m =? f) && (N.land f 3 =? k) && (N.land f 24 =? 0) && Bool.eqb (N.land f BIT_KEY_PHASE =? BIT_KEY_PHASE) kp && (g <? 256) && (f <? 256).
Lemma short_first kp k q m : k < 4 -> In q [0; 32; 64; 96] -> m < 32 -> short_ok kp k q m = true.
Proof.
  intros Hk Hq Hm.
  assert (A : forallb (fun kp => forallb (fun k => forallb (fun q => forallb (short_ok kp k q) (Nseq 32)) [0; 32; 64; 96]) (Nseq 4)) [true; false] = true) by (vm_compute; reflexivity).
  rewrite forallb_forall in A. specialize (A kp ltac:(destruct kp; cbn; auto)). cbv beta in A.
  rewrite forallb_forall in A. specialize (A k (Nseq_in k 4 Hk)). cbv beta in A.
  rewrite forallb_forall in A. specialize (A q Hq). cbv beta in A.
  rewrite forallb_forall in A. exact (A m (Nseq_in m 32 Hm)).
Qed.
Lemma land_cases r : In (N.land r 64) [0; 64] /\ In (N.land r 32) [0; 32; 64; 96] /\ In (N.land r 96) [0; 32; 64; 96].
Proof.
  assert (G : forall k, N.land r (2 ^ k) = if N.testbit r k then 2 ^ k else 0).
  { intros k. apply N.bits_inj_iff. intros i. rewrite N.land_spec, N.pow2_bits_eqb.
    destruct (N.eqb_spec k i) as [->|E].
    - rewrite andb_true_r. destruct (N.testbit r i); [rewrite N.pow2_bits_true|rewrite N.bits_0]; reflexivity.
    - rewrite andb_false_r. destruct (N.testbit r k); [rewrite N.pow2_bits_false by exact E|rewrite N.bits_0]; reflexivity. }
  pose proof (G 6) as G6. pose proof (G 5) as G5. change (2 ^ 6) with 64 in G6. change (2 ^ 5) with 32 in G5.
  assert (E : N.land r 96 = N.lor (N.land r 64) (N.land r 32)) by (rewrite <- N.land_lor_distr_r; reflexivity).
  rewrite E, G6, G5. destruct (N.testbit r 6), (N.testbit r 5); cbn; auto 10.
Qed.
Lemma lxor_byte a b : a < 256 -> b < 256 -> N.lxor a b < 256.
Proof.
  intros Ha Hb. destruct (N.eq_dec (N.lxor a b) 0) as [->|E]; [lia|].
  change 256 with (2 ^ 8). apply N.log2_lt_pow2; [lia|].
  pose proof (N.log2_lxor a b) as L.
  assert (N.log2 a < 8) by (destruct (N.eq_dec a 0) as [->|]; [cbn; lia|apply N.log2_lt_pow2; [lia|exact Ha]]).
  assert (N.log2 b < 8) by (destruct (N.eq_dec b 0) as [->|]; [cbn; lia|apply N.log2_lt_pow2; [lia|exact Hb]]).
  lia.
Qed.

(** ** Lists *)
Lemma set_at_app a x b f : set_at (length a) f (a ++ x :: b) = Some (a ++ f x :: b).
Proof. unfold set_at. rewrite skipn_app_exact, firstn_app_exact. reflexivity. Qed.
Lemma set_at_app' k a x b f : k = length a -> set_at k f (a ++ x :: b) = Some (a ++ f x :: b).
Proof. intros ->. apply set_at_app. Qed.
Lemma slice_app a b c : slice (length a) (length a + length b) (a ++ b ++ c) = Some b.
Proof.
  unfold slice. replace (length a + length b - length a)%nat with (length b) by lia.
  rewrite skipn_app_exact, firstn_app_exact.
  destruct (Nat.leb_spec (length a) (length a + length b)), (Nat.leb_spec (length a + length b) (length (a ++ b ++ c))); cbn; auto; rewrite !app_length in *; lia.
Qed.
Definition xorl (a m : list N) : list N := map (fun p => N.lxor (fst p) (snd p)) (combine a m).
Lemma xorl_length a m : length m = length a -> length (xorl a m) = length a.
Proof. intros H. unfold xorl. rewrite map_length, combine_length. lia. Qed.
Lemma xorl_twice a : forall m, length m = length a -> xorl (xorl a m) m = a.
Proof.
  induction a as [|x a IH]; intros [|y m] H; cbn in *; try discriminate; auto.
  injection H as H. unfold xorl in IH. f_equal; [|apply IH; exact H].
  rewrite N.lxor_assoc, N.lxor_nilpotent, N.lxor_0_r. reflexivity.
Qed.
Lemma xorl_app a b c d : length a = length c -> xorl (a ++ b) (c ++ d) = xorl a c ++ xorl b d.
Proof.
  intros H. unfold xorl. revert c H. induction a as [|x a IH]; intros [|y c] H; cbn in *; try discriminate; auto.
  injection H as H. f_equal. apply IH; exact H.
Qed.
Lemma xorl_ok a : forall m, bytes_ok a -> bytes_ok m -> bytes_ok (xorl a m).
Proof.
  induction a as [|x a IH]; intros m Ha Hm; [apply Forall_nil|].
  destruct m as [|y m]; [apply Forall_nil|]. apply Forall_cons_iff in Ha, Hm. destruct Ha, Hm.
  apply Forall_cons; [apply lxor_byte; assumption|apply IH; assumption].
Qed.
Lemma mask_pn_app P : forall a ms c, length ms = length P -> mask_pn (length a) ms (a ++ P ++ c) = Some (a ++ xorl P ms ++ c).
Proof.
  induction P as [|x P IH]; intros a [|m ms] c H; cbn in H; try discriminate; cbn [mask_pn]; [reflexivity|].
  injection H as H. cbn [app]. rewrite set_at_app.
  replace (a ++ N.lxor x m :: P ++ c) with ((a ++ [N.lxor x m]) ++ P ++ c) by (rewrite <- app_assoc; reflexivity).
  replace (S (length a)) with (length (a ++ [N.lxor x m])) by (rewrite app_length; cbn; lia).
  rewrite (IH _ _ _ H). cbn. rewrite <- app_assoc. reflexivity.
Qed.
Lemma firstn_exact {A} k (a b : list A) : k = length a -> firstn k (a ++ b) = a.
Proof. intros ->. apply firstn_app_exact. Qed.
Lemma skipn_exact {A} k (a b : list A) : k = length a -> skipn k (a ++ b) = b.
Proof. intros ->. apply skipn_app_exact. Qed.

(** ** The end of building *)
Lemma slice_exact p q a b c : p = length a -> q = (length a + length b)%nat -> slice p q (a ++ b ++ c) = Some b.
Proof. intros -> ->. apply slice_app. Qed.
Lemma protect_shape x b e2 pre f M P body text m :
  e2 = pre ++ (f :: M ++ P) ++ body -> b_start b = length pre -> b_pns b = (length pre + 1 + length M)%nat ->
  b_end b = (length pre + 1 + length M + length P)%nat -> b_pne b = b_end b ->
  (length P <= 4)%nat -> (20 <= length P + length text)%nat ->
  x_seal x (b_pn b) (f :: M ++ P) body = Some text ->
  m = x_mask x (firstn 16 (skipn (4 - length P) text)) -> (5 <= length m)%nat ->
  protect x b e2 = Some (Some (pre ++ N.lxor f (N.land (hd 0 m) (b_mask b)) :: M ++ xorl P (firstn (length P) (skipn 1 m)) ++ text)).
Proof.
  intros -> Hs Hp He Hpe HP HT Hseal Hm Hml. unfold protect.
  rewrite (slice_exact (b_start b) (b_end b) pre (f :: M ++ P) body) by (cbn [length]; rewrite ?app_length; lia).
  assert (Hend : b_end b = length (pre ++ f :: M ++ P)) by (rewrite app_length; cbn [length]; rewrite app_length; lia).
  replace (pre ++ (f :: M ++ P) ++ body) with ((pre ++ f :: M ++ P) ++ body) by (rewrite <- app_assoc; reflexivity).
  rewrite skipn_exact, firstn_exact, Hseal by exact Hend.
  set (s := firstn 16 (skipn (4 - length P) text)) in *.
  assert (Hspl : text = firstn (4 - length P) text ++ s ++ skipn 16 (skipn (4 - length P) text)).
  { unfold s. rewrite firstn_skipn, firstn_skipn. reflexivity. }
  rewrite Hpe, Hp, Hs. unfold SAMPLE_OFFSET, SAMPLE_SIZE.
  assert (Ls : length s = 16%nat) by (unfold s; rewrite firstn_length, skipn_length; lia).
  rewrite Hspl at 1. rewrite app_assoc.
  rewrite (slice_exact _ _ ((pre ++ f :: M ++ P) ++ firstn (4 - length P) text) s).
  2,3: rewrite !app_length; cbn [length]; rewrite !app_length, firstn_length; lia.
  rewrite <- Hm. cbv zeta.
  replace ((pre ++ f :: M ++ P) ++ text) with (pre ++ f :: (M ++ P ++ text)) by (rewrite <- app_assoc; cbn; rewrite <- app_assoc; reflexivity).
  rewrite set_at_app. set (g := N.lxor f _).
  replace (b_end b - (length pre + 1 + length M))%nat with (length P) by lia.
  replace (pre ++ g :: M ++ P ++ text) with ((pre ++ g :: M) ++ P ++ text) by (rewrite <- app_assoc; reflexivity).
  replace (length pre + 1 + length M)%nat with (length (pre ++ g :: M)) by (rewrite app_length; cbn; lia).
  rewrite mask_pn_app by (rewrite firstn_length, skipn_length; lia).
  rewrite <- app_assoc. reflexivity.
Qed.

(** ** Removing protection *)
Definition hmask (t : pkt_type) : N := match t with PShort => HP_MASK_SHORT | _ => HP_MASK_LONG end.
Lemma unprotect_shape x next u f M P text body m pn kp :
  m = x_mask x (firstn 16 (skipn (4 - length P) text)) -> length m = 16%nat -> bytes_ok m -> bytes_ok text ->
  (1 <= length P <= 4)%nat -> (20 <= length P + length text)%nat ->
  u_data u = N.lxor f (N.land (hd 0 m) (hmask (u_type u))) :: M ++ xorl P (firstn (length P) (skipn 1 m)) ++ text ->
  u_hlen u = (1 + length M)%nat ->
  N.lxor (N.lxor f (N.land (hd 0 m) (hmask (u_type u)))) (N.land (hd 0 m) (hmask (u_type u))) = f ->
  N.to_nat (N.land f 3 + 1) = length P ->
  (forall more, bytes_ok more -> length (P ++ more) = MAX_PACKET_NUMBER_LEN -> pn_read next (P ++ more) (length P) = pn) ->
  x_open x pn (f :: M ++ P) text = Some body ->
  kp = match u_type u with PShort => N.land f BIT_KEY_PHASE =? BIT_KEY_PHASE | _ => false end ->
  N.land f (if is_long_type (u_type u) then 12 else 24) = 0 ->
  unprotect x next u = Some (DOk kp pn body).
Proof.
  intros Hm Lm Bm Bt HP HT Hd Hh Hf Hn Hpn Ho Hkp Hr.
  assert (Dh : decrypt_header x next u = Some (Some (kp, pn, (1 + length M + length P)%nat, f :: M ++ P ++ text))).
  2: { unfold unprotect. rewrite Dh.
       replace (f :: M ++ P ++ text) with ((f :: M ++ P) ++ text) by (cbn; rewrite <- app_assoc; reflexivity).
       rewrite firstn_exact, skipn_exact, Ho by (cbn [length]; rewrite app_length; lia).
       cbn [app hd]. rewrite Hr. reflexivity. }
  unfold decrypt_header. rewrite Hd, Hh. unfold SAMPLE_OFFSET, SAMPLE_SIZE.
  set (g := N.lxor f _) in *. set (P' := xorl P (firstn (length P) (skipn 1 m))) in *.
  assert (LP : length P' = length P) by (apply xorl_length; rewrite firstn_length, skipn_length; lia).
  set (s := firstn 16 (skipn (4 - length P) text)) in *.
  assert (Hspl : text = firstn (4 - length P) text ++ s ++ skipn 16 (skipn (4 - length P) text)).
  { unfold s. rewrite firstn_skipn, firstn_skipn. reflexivity. }
  assert (Ls : length s = 16%nat) by (unfold s; rewrite firstn_length, skipn_length; lia).
  assert (Esl : slice (1 + length M + 4) (1 + length M + 4 + 16) (g :: M ++ P' ++ text) = Some s).
  { replace (g :: M ++ P' ++ text) with ((g :: M ++ P' ++ firstn (4 - length P) text) ++ s ++ skipn 16 (skipn (4 - length P) text)).
    2: { rewrite Hspl at 3. cbn [app]. rewrite <- !app_assoc. reflexivity. }
    apply slice_exact; cbn [length]; rewrite !app_length, LP, firstn_length; lia. }
  rewrite Esl. rewrite <- Hm. cbv zeta. fold (hmask (u_type u)). rewrite Hf.
  set (q := firstn (4 - length P) text) in *.
  assert (Lq : length q = (4 - length P)%nat) by (unfold q; rewrite firstn_length; lia).
  assert (Es2 : slice (1 + length M) (1 + length M + 4) (f :: M ++ P' ++ text) = Some (P' ++ q)).
  { replace (f :: M ++ P' ++ text) with ((f :: M) ++ (P' ++ q) ++ skipn (4 - length P) text).
    2: { cbn [app]. f_equal. f_equal. rewrite <- app_assoc. f_equal. unfold q. apply firstn_skipn. }
    apply slice_exact; [reflexivity|]. cbn [length]. rewrite app_length. lia. }
  unfold MAX_PACKET_NUMBER_LEN. rewrite Es2. rewrite Hn.
  assert (E4 : firstn 4 (skipn 1 m) = firstn (length P) (skipn 1 m) ++ firstn (4 - length P) (skipn (length P) (skipn 1 m))).
  { rewrite <- (firstn_skipn (length P) (firstn 4 (skipn 1 m))) at 1.
    rewrite firstn_firstn, Nat.min_l by lia. f_equal. rewrite skipn_firstn_comm. reflexivity. }
  fold (xorl (P' ++ q) (firstn 4 (skipn 1 m))). rewrite E4.
  rewrite xorl_app by (rewrite LP, firstn_length, skipn_length; lia).
  assert (E5 : xorl P' (firstn (length P) (skipn 1 m)) = P) by (unfold P'; apply xorl_twice; rewrite firstn_length, skipn_length; lia).
  rewrite E5.
  set (q' := xorl q _).
  assert (Bq : bytes_ok q').
  { apply xorl_ok; [apply bytes_ok_firstn; exact Bt|]. apply bytes_ok_firstn, bytes_ok_skipn, bytes_ok_skipn; exact Bm. }
  assert (Lq' : length q' = (4 - length P)%nat).
  { unfold q'. rewrite xorl_length; [exact Lq|]. rewrite firstn_length, !skipn_length. lia. }
  rewrite Hpn; [|exact Bq|unfold MAX_PACKET_NUMBER_LEN; rewrite app_length; lia].
  rewrite <- Hkp. do 4 f_equal.
  rewrite (firstn_exact (length P) P q') by reflexivity.
  replace (f :: M ++ P' ++ text) with ((f :: M) ++ P' ++ text) by reflexivity.
  rewrite (firstn_exact (1 + length M)) by reflexivity.
  replace ((f :: M) ++ P' ++ text) with (((f :: M) ++ P') ++ text) by (rewrite app_assoc; reflexivity).
  rewrite skipn_exact by (rewrite app_length; cbn [length]; lia). reflexivity.
Qed.
