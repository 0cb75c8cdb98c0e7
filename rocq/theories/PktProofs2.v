From Coq Require Import Lia.
From Verif Require Import Base Lib CodecModel CodecProofs Reader PnModel PnProofs VerModel VerProps PktModel PktProofs.

Lemma vec1_len v : length (vec1 v) = S (length v).
Proof. unfold vec1. rewrite app_length, be_bytes_length. reflexivity. Qed.
Lemma skipn_cons_exact {A} (a : list A) x b : skipn (length a) (a ++ x :: b) = x :: b.
Proof. apply skipn_app_exact. Qed.

Definition tok_bytes (pt : pkt_type) (token : list N) : option (list N) :=
  match pt with PInitial => match varint_bytes (lenN token) with Some l => Some (l ++ token) | None => None end | _ => Some [] end.

Lemma header_long pre pt v kp dcid scid token limit grease rnd pn la b :
  is_long_type pt = true -> build_header pre pt v kp dcid scid token limit grease rnd pn la = Some b -> b_limit b <> 0%nat ->
  exists t T n0 n q f M,
    type_to_byte pt v = Some t /\ tok_bytes pt token = Some T /\ pn_len pn la = Some n0 /\ n = Nat.min 4 n0 /\ n <> 0%nat /\ In q [0; 64] /\
    f = N.lor (N.lxor (N.lor (N.lor BIT_LONG BIT_FIXED) (N.shiftl t 4)) q) (N.of_nat (n - 1)) /\
    M = be_bytes 4 (wire v) ++ vec1 dcid ++ vec1 scid ++ T /\
    b = mkB (pre ++ f :: M ++ [0; 0] ++ be_bytes n pn) pn (length pre) (length pre + 1 + length M + 2 + n) HP_MASK_LONG
          (length pre + 1 + length M) (length pre + 1 + length M + 2) (length pre + 1 + length M + 2 + n) limit.
Proof.
  intros Hl H HL. unfold build_header in H.
  assert (H' : match b_long pre pt v dcid scid limit with
               | None => None
               | Some b0 => match (if Nat.ltb 0 (b_remaining b0)
                    then match b_scramble grease rnd b0 with
                         | None => None
                         | Some b1 => match pt with PInitial => b_token token b1 | _ => Some b1 end end
                    else Some b0) with None => None | Some b2 => match pn_len pn la with None => None | Some n => b_number pn n b2 end end end = Some b).
  { destruct pt; try discriminate; exact H. }
  clear H; rename H' into H.
  assert (LZ : forall b0 n, b_limit b0 = 0%nat -> b_number pn n b0 = Some b -> False).
  { intros b0 n E E'. unfold b_number, b_remaining in E'. rewrite E in E'. change (0 - length (b_enc b0))%nat with 0%nat in E'.
    cbn in E'. apply some_inj in E'. apply HL. rewrite <- E'. reflexivity. }
  unfold b_long in H.
  destruct (Nat.ltb_spec (length pre) limit) as [Hc1|Hc1].
  2: { cbn [andb] in H. unfold b_remaining in H; cbn [b_limit b_enc] in H. change (Nat.ltb 0 (0 - length pre)) with false in H. cbv iota in H.
       destruct (pn_len pn la); [|discriminate]. exfalso. eapply LZ; [|exact H]. reflexivity. }
  destruct (Nat.ltb_spec (11 + length dcid + length scid) (limit - length pre)) as [Hc2|Hc2].
  2: { cbn [andb] in H. unfold b_remaining in H; cbn [b_limit b_enc] in H. change (Nat.ltb 0 (0 - length pre)) with false in H. cbv iota in H.
       destruct (pn_len pn la); [|discriminate]. exfalso. eapply LZ; [|exact H]. reflexivity. }
  cbn [andb] in H.
  destruct (type_to_byte pt v) as [t|] eqn:Et; [|discriminate].
  assert (Ht : t < 4).
  { destruct (proj1 (packet_type_round_trip v) pt Hl) as (b' & E1 & E2 & _). congruence. }
  set (f00 := N.lor (N.lor BIT_LONG BIT_FIXED) (N.shiftl t 4)) in *.
  set (M0 := be_bytes 4 (wire v) ++ vec1 dcid ++ vec1 scid) in *.
  assert (LM0 : length M0 = (6 + length dcid + length scid)%nat) by (unfold M0; rewrite !app_length, be_bytes_length, !vec1_len; lia).
  set (q := N.land rnd (N.lor (if grease then BIT_FIXED else 0) 0)).
  assert (Hq : In q [0; 64]).
  { unfold q. rewrite N.lor_0_r. destruct grease; [apply land_cases|rewrite N.land_0_r; cbn; auto]. }
  assert (F0 : forall q', In q' [0; 64] -> N.land (N.lxor f00 q') 128 =? 128 = true).
  { intros q' Hq'. pose proof (long_first t 0 q' 0 Ht ltac:(lia) Hq' ltac:(lia)) as L. unfold long_ok in L. rewrite !andb_true_iff in L. apply L. }
  assert (Hr : Nat.ltb 0 (b_remaining (mkB (pre ++ f00 :: M0) U64MAX (length pre) (length pre) HP_MASK_LONG 0 0 0 limit)) = true).
  { unfold b_remaining; cbn [b_limit b_enc]. apply Nat.ltb_lt. rewrite app_length; cbn [length]. lia. }
  rewrite Hr in H.
  assert (Es : b_scramble grease rnd (mkB (pre ++ f00 :: M0) U64MAX (length pre) (length pre) HP_MASK_LONG 0 0 0 limit)
             = Some (mkB (pre ++ N.lxor f00 q :: M0) U64MAX (length pre) (length pre) HP_MASK_LONG 0 0 0 limit)).
  { unfold b_scramble, b_is_long; cbn [b_start b_enc]. rewrite skipn_cons_exact.
    pose proof (F0 0 ltac:(cbn; auto)) as F1. rewrite N.lxor_0_r in F1. unfold BIT_LONG at 1. rewrite F1. cbv zeta.
    rewrite set_at_app. reflexivity. }
  rewrite Es in H. set (f0 := N.lxor f00 q) in *.
  assert (G : forall T b2, b2 = mkB (pre ++ f0 :: M0 ++ T) U64MAX (length pre) (length pre) HP_MASK_LONG 0 0 0 limit ->
     tok_bytes pt token = Some T ->
     match pn_len pn la with None => None | Some n => b_number pn n b2 end = Some b ->
     exists t T n0 n q f M,
    Some t = Some t /\ tok_bytes pt token = Some T /\ pn_len pn la = Some n0 /\ n = Nat.min 4 n0 /\ n <> 0%nat /\ In q [0; 64] /\
    f = N.lor (N.lxor (N.lor (N.lor BIT_LONG BIT_FIXED) (N.shiftl t 4)) q) (N.of_nat (n - 1)) /\
    M = be_bytes 4 (wire v) ++ vec1 dcid ++ vec1 scid ++ T /\ type_to_byte pt v = Some t /\
    b = mkB (pre ++ f :: M ++ [0; 0] ++ be_bytes n pn) pn (length pre) (length pre + 1 + length M + 2 + n) HP_MASK_LONG
          (length pre + 1 + length M) (length pre + 1 + length M + 2) (length pre + 1 + length M + 2 + n) limit).
  { intros T b2 Eb HT Hb. destruct (pn_len pn la) as [n0|]; [|discriminate].
    unfold b_number in Hb.
    destruct (Nat.ltb_spec (b_remaining b2) MAX_PACKET_NUMBER_LEN) as [|Hr1]; [apply some_inj in Hb; exfalso; apply HL; rewrite <- Hb; reflexivity|].
    assert (El : b_is_long b2 = Some true).
    { rewrite Eb. unfold b_is_long; cbn [b_start b_enc]. rewrite skipn_cons_exact. unfold BIT_LONG. unfold f0. rewrite (F0 q Hq). reflexivity. }
    rewrite El in Hb. cbn [andb] in Hb.
    destruct (Nat.ltb_spec (b_remaining b2) (LONG_LEN + MAX_PACKET_NUMBER_LEN)) as [|Hr2]; [apply some_inj in Hb; exfalso; apply HL; rewrite <- Hb; reflexivity|].
    unfold MAX_PACKET_NUMBER_LEN in Hb. set (n := Nat.min 4 n0) in *.
    destruct (Nat.eqb_spec n 0) as [|Hn]; [discriminate|].
    rewrite Eb in Hb. cbn [b_start b_enc b_mask b_limit] in Hb.
    replace (((pre ++ f0 :: M0 ++ T) ++ repeat 0 LONG_LEN) ++ be_bytes n pn) with (pre ++ f0 :: (M0 ++ T) ++ [0; 0] ++ be_bytes n pn) in Hb.
    2: { change (repeat 0 LONG_LEN) with [0; 0]. rewrite <- !app_assoc. cbn [app]. rewrite <- !app_assoc. reflexivity. }
    rewrite set_at_app in Hb. apply some_inj in Hb.
    exists t, T, n0, n, q, (N.lor f0 (N.of_nat (n - 1))), (M0 ++ T).
    splits; auto.
    - unfold M0. rewrite <- !app_assoc. reflexivity.
    - rewrite <- Hb. rewrite !app_length; cbn [length app]; rewrite !app_length, ?be_bytes_length, ?repeat_length; cbn [length app];
        rewrite ?app_length, ?be_bytes_length; unfold LONG_LEN. f_equal; lia. }
  assert (G' : forall b2, match pt with PInitial => b_token token (mkB (pre ++ f0 :: M0) U64MAX (length pre) (length pre) HP_MASK_LONG 0 0 0 limit)
               | _ => Some (mkB (pre ++ f0 :: M0) U64MAX (length pre) (length pre) HP_MASK_LONG 0 0 0 limit) end = Some b2 ->
      match pn_len pn la with None => None | Some n => b_number pn n b2 end = Some b ->
      exists T, b2 = mkB (pre ++ f0 :: M0 ++ T) U64MAX (length pre) (length pre) HP_MASK_LONG 0 0 0 limit /\ tok_bytes pt token = Some T).
  { intros b2 Eb Hb.
    assert (D : Some (mkB (pre ++ f0 :: M0) U64MAX (length pre) (length pre) HP_MASK_LONG 0 0 0 limit) = Some b2 -> tok_bytes pt token = Some [] ->
       exists T, b2 = mkB (pre ++ f0 :: M0 ++ T) U64MAX (length pre) (length pre) HP_MASK_LONG 0 0 0 limit /\ tok_bytes pt token = Some T).
    { intros D HT. apply some_inj in D. exists []. rewrite app_nil_r. auto. }
    destruct pt; try (apply D; [exact Eb|reflexivity]).
    unfold b_token in Eb. cbn [tok_bytes]. destruct (varint_bytes (lenN token)) as [l|]; [|discriminate].
    apply some_inj in Eb.
    destruct (Nat.ltb (length l + length token) _).
    - exists (l ++ token). split; [|reflexivity]. rewrite <- Eb. unfold with_enc; cbn. rewrite <- app_assoc. reflexivity.
    - exfalso. destruct (pn_len pn la) as [n0|]; [|discriminate]. eapply LZ; [|exact Hb]. rewrite <- Eb. reflexivity. }
  match type of H with match ?x with _ => _ end = _ => destruct x as [b2|] eqn:E2; [|discriminate] end.
  destruct (G' b2 eq_refl H) as (T & Eb & HT).
  destruct (G T b2 Eb HT H) as (t' & T' & n0 & n & q' & f & M & _ & h2 & h3 & h4 & h5 & h6 & h7 & h8 & h9 & h10).
  exists t', T', n0, n, q', f, M. splits; auto. congruence.
Qed.

Lemma header_short pre v kp dcid scid token limit grease rnd pn la b :
  build_header pre PShort v kp dcid scid token limit grease rnd pn la = Some b -> b_limit b <> 0%nat ->
  exists n0 n q f,
    pn_len pn la = Some n0 /\ n = Nat.min 4 n0 /\ n <> 0%nat /\ In q [0; 32; 64; 96] /\
    f = N.lor (N.lxor (N.lor BIT_FIXED (if kp then 4 else 0)) q) (N.of_nat (n - 1)) /\
    b = mkB (pre ++ f :: dcid ++ be_bytes n pn) pn (length pre) (length pre + 1 + length dcid + n) HP_MASK_SHORT
          0 (length pre + 1 + length dcid) (length pre + 1 + length dcid + n) limit.
Proof.
  intros H HL. unfold build_header in H.
  assert (LZ : forall b0 n, b_limit b0 = 0%nat -> b_number pn n b0 = Some b -> False).
  { intros b0 n E E'. unfold b_number, b_remaining in E'. rewrite E in E'. change (0 - length (b_enc b0))%nat with 0%nat in E'.
    cbn in E'. apply some_inj in E'. apply HL. rewrite <- E'. reflexivity. }
  unfold b_short in H.
  destruct (Nat.ltb_spec (length pre) limit) as [Hc1|Hc1].
  2: { cbn [andb] in H. unfold b_remaining in H; cbn [b_limit b_enc] in H. change (Nat.ltb 0 (0 - length pre)) with false in H. cbv iota in H.
       destruct (pn_len pn la); [|discriminate]. exfalso. eapply LZ; [|exact H]. reflexivity. }
  destruct (Nat.ltb_spec (5 + length dcid) (limit - length pre)) as [Hc2|Hc2].
  2: { cbn [andb] in H. unfold b_remaining in H; cbn [b_limit b_enc] in H. change (Nat.ltb 0 (0 - length pre)) with false in H. cbv iota in H.
       destruct (pn_len pn la); [|discriminate]. exfalso. eapply LZ; [|exact H]. reflexivity. }
  cbn [andb] in H.
  set (f00 := N.lor BIT_FIXED (if kp then 4 else 0)) in *.
  set (q := N.land rnd (N.lor (if grease then BIT_FIXED else 0) BIT_SPIN)).
  assert (Hq : In q [0; 32; 64; 96]) by (unfold q; destruct grease; apply land_cases).
  assert (F0 : forall q', In q' [0; 32; 64; 96] -> N.land (N.lxor f00 q') 128 =? 0 = true).
  { intros q' Hq'. pose proof (short_first kp 0 q' 0 ltac:(lia) Hq' ltac:(lia)) as L. unfold short_ok in L. rewrite !andb_true_iff in L. apply L. }
  assert (F1 : forall q', In q' [0; 32; 64; 96] -> N.land (N.lxor f00 q') 128 =? BIT_LONG = false).
  { intros q' Hq'. specialize (F0 q' Hq'). apply N.eqb_eq in F0. rewrite F0. reflexivity. }
  assert (Hr : Nat.ltb 0 (b_remaining (mkB (pre ++ f00 :: dcid) U64MAX (length pre) (length pre) HP_MASK_SHORT 0 0 0 limit)) = true).
  { unfold b_remaining; cbn [b_limit b_enc]. apply Nat.ltb_lt. rewrite app_length; cbn [length]. lia. }
  rewrite Hr in H.
  assert (Es : b_scramble grease rnd (mkB (pre ++ f00 :: dcid) U64MAX (length pre) (length pre) HP_MASK_SHORT 0 0 0 limit)
             = Some (mkB (pre ++ N.lxor f00 q :: dcid) U64MAX (length pre) (length pre) HP_MASK_SHORT 0 0 0 limit)).
  { unfold b_scramble, b_is_long; cbn [b_start b_enc]. rewrite skipn_cons_exact.
    pose proof (F1 0 ltac:(cbn; auto)) as F2. rewrite N.lxor_0_r in F2. rewrite F2. cbv zeta.
    rewrite set_at_app. reflexivity. }
  rewrite Es in H. set (f0 := N.lxor f00 q) in *.
  destruct (pn_len pn la) as [n0|]; [|discriminate].
  unfold b_number in H.
  match type of H with (if Nat.ltb ?a _ then _ else _) = _ => set (rem := a) in H end.
  destruct (Nat.ltb_spec rem MAX_PACKET_NUMBER_LEN) as [|Hr1]; [apply some_inj in H; exfalso; apply HL; rewrite <- H; reflexivity|].
  unfold b_is_long in H; cbn [b_start b_enc b_mask b_limit b_len] in H. rewrite skipn_cons_exact in H.
  assert (Ef0 : N.land f0 128 =? BIT_LONG = false) by exact (F1 q Hq). rewrite Ef0 in H. cbn [andb] in H.
  unfold MAX_PACKET_NUMBER_LEN in H. set (n := Nat.min 4 n0) in *.
  destruct (Nat.eqb_spec n 0) as [|Hn]; [discriminate|].
  cbv zeta iota in H. cbn [b_start b_enc b_mask b_limit b_len] in H.
  replace ((pre ++ f0 :: dcid) ++ be_bytes n pn) with (pre ++ f0 :: dcid ++ be_bytes n pn) in H by (rewrite <- app_assoc; reflexivity).
  rewrite set_at_app in H. apply some_inj in H.
  exists n0, n, q, (N.lor f0 (N.of_nat (n - 1))). splits; auto.
  rewrite <- H. rewrite !app_length; cbn [length app]; rewrite !app_length, ?be_bytes_length. f_equal; lia.
Qed.

(** ** The length field *)
Lemma write_len_shape x a l0 l1 c len :
  len = N.of_nat (length c + x) -> 
  write_len x (length a) (a ++ l0 :: l1 :: c) = Some (a ++ N.lor 64 (N.land (N.shiftr len 8) 63) :: N.land len 255 :: c).
Proof.
  intros ->. unfold write_len, LONG_LEN.
  replace (length (a ++ l0 :: l1 :: c) - (length a + 2) + x)%nat with (length c + x)%nat by (rewrite app_length; cbn [length]; lia).
  rewrite set_at_app. set (y := N.lor 64 _).
  replace (a ++ y :: l1 :: c) with ((a ++ [y]) ++ l1 :: c) by (rewrite <- app_assoc; reflexivity).
  replace (length a + 1)%nat with (length (a ++ [y])) by (rewrite app_length; reflexivity).
  rewrite set_at_app, <- app_assoc. reflexivity.
Qed.
Lemma rd_len len r : len < 16384 -> rd_varint (N.lor 64 (N.land (N.shiftr len 8) 63) :: N.land len 255 :: r) = Some (len, r).
Proof.
  intros H. rewrite shiftr_8, land_63, land_255.
  assert (E : N.lor 64 ((len / 256) mod 64) = 64 + len / 256).
  { change 64 with (N.shiftl 1 6) at 1. rewrite lor_add'.
    - rewrite N.mod_small by (apply N.div_lt_upper_bound; lia). reflexivity.
    - change (2 ^ 6) with 64. apply N.mod_lt. discriminate. }
  rewrite E. unfold rd_varint.
  assert (D : len / 256 < 64) by (apply N.div_lt_upper_bound; lia).
  destruct (N.ltb_spec (64 + len / 256) 64); [lia|]. destruct (N.ltb_spec (64 + len / 256) 128); [|lia].
  cbn [length]. change (Nat.ltb (S (length r)) 1) with false. cbv iota. cbn [firstn skipn].
  rewrite be_val_1. change (256 ^ N.of_nat 1) with 256.
  replace ((64 + len / 256) mod 64) with (len / 256).
  2: { replace (64 + len / 256) with (len / 256 + 1 * 64) by lia. rewrite N.mod_add by discriminate. symmetry. apply N.mod_small. exact D. }
  pose proof (N.div_mod len 256 ltac:(discriminate)). do 2 f_equal. lia.
Qed.
