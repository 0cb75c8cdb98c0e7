From Coq Require Import Lia.
From Verif Require Import Base Lib CodecModel CodecProofs Reader PnModel PnProofs VerModel VerProps PktModel PktSpec PktProofs PktProofs2.

Lemma wire_facts v : wire v < 2 ^ 32 /\ wire v <> 0 /\ wire v <> SCONE1 /\ wire v <> SCONE2 /\ version_of_wire (wire v) = Some v.
Proof. destruct v; vm_compute; splits; congruence. Qed.
Lemma rd_be n v r : v < 256 ^ N.of_nat n -> rd_n n (be_bytes n v ++ r) = Some (v, r).
Proof. intros H. apply rd_n_spec. exists (be_bytes n v). rewrite be_bytes_length, be_val_be_bytes_small by exact H. auto. Qed.
Lemma rd_vec1 v r : lenN v < 256 -> rd_vec 1 (vec1 v ++ r) = Some (v, r).
Proof. intros H. unfold vec1. rewrite <- app_assoc. apply rd_vec_encode. exact H. Qed.
Lemma offset_app a r : offset (a ++ r) r = length a.
Proof. unfold offset. rewrite app_length. lia. Qed.

Lemma turn_long rexp cid ok sc v dcid scid g pt T token len A rest t :
  lenN dcid <= 20 -> lenN scid <= 20 -> protected_long pt -> type_to_byte pt v = Some t ->
  N.land g 128 <> 0 -> N.land (N.shiftr g 4) 3 = t -> tok_bytes pt token = Some T -> lenN token < 2 ^ 62 ->
  len = lenN A -> len < 16384 ->
  decode_turn rexp cid ok sc ((g :: (be_bytes 4 (wire v) ++ vec1 dcid ++ vec1 scid ++ T) ++
     (N.lor 64 (N.land (N.shiftr len 8) 63) :: N.land len 255 :: A)) ++ rest)
  = Some (POk (mkPub pt dcid (Some scid) (match pt with PInitial => token | _ => [] end)
       (1 + length (be_bytes 4 (wire v) ++ vec1 dcid ++ vec1 scid ++ T) + 2)%nat (Some (wire v))
       (g :: (be_bytes 4 (wire v) ++ vec1 dcid ++ vec1 scid ++ T) ++
     (N.lor 64 (N.land (N.shiftr len 8) 63) :: N.land len 255 :: A)) sc) rest).
Proof.
  intros Hd Hs Hp Ht Hg Ht' HT Htk Hlen Hl.
  set (l0 := N.lor 64 _). set (l1 := N.land len 255).
  set (data := _ ++ rest). unfold decode_turn.
  assert (Hlong : is_long_type pt = true) by (destruct Hp as [->|[->| ->]]; reflexivity).
  assert (R1 : rd_n 1 data = Some (g, (be_bytes 4 (wire v) ++ vec1 dcid ++ vec1 scid ++ T ++ l0 :: l1 :: A ++ rest))).
  { apply rd_n_spec. exists [g]. unfold data. cbn [app]. rewrite <- !app_assoc. cbn [app]. splits; auto. }
  rewrite R1. destruct (N.eqb_spec (N.land g 128) 0) as [|_]; [contradiction|].
  destruct (wire_facts v) as (W1 & W2 & W3 & W4 & W5).
  rewrite rd_be by exact W1.
  rewrite rd_vec1 by (revert Hd; clear; intros; lia). rewrite rd_vec1 by (revert Hs; clear; intros; lia).
  destruct (N.eqb_spec (wire v) 0) as [|_]; [contradiction|].
  destruct (N.eqb_spec (wire v) SCONE1) as [|_]; [contradiction|]. destruct (N.eqb_spec (wire v) SCONE2) as [|_]; [contradiction|].
  cbn [orb]. rewrite W5. unfold MAX_CID.
  destruct (N.ltb_spec 20 (lenN dcid)); [lia|]. destruct (N.ltb_spec 20 (lenN scid)); [lia|]. cbn [orb].
  destruct (proj1 (packet_type_round_trip v) pt Hlong) as (b' & E1 & E2 & E3).
  assert (b' = t) by congruence. subst b'. rewrite Ht', E3.
  set (M := be_bytes 4 (wire v) ++ vec1 dcid ++ vec1 scid ++ T) in *.
  assert (DL : decode_long rexp data (T ++ l0 :: l1 :: A ++ rest) pt v = inl (match pt with PInitial => token | _ => [] end, (1 + length M + 2)%nat, rest)).
  { assert (O : offset data (A ++ rest) = (1 + length M + 2)%nat).
    { unfold data. replace ((g :: M ++ l0 :: l1 :: A) ++ rest) with ((g :: M ++ [l0; l1]) ++ A ++ rest).
      - rewrite offset_app. cbn [length]. rewrite app_length. cbn [length]. lia.
      - cbn [app]. rewrite <- !app_assoc. reflexivity. }
    assert (K : forall tk (l : list N), l = l0 :: l1 :: A ++ rest -> match rd_varint l with
          | None => inr NoMoreData
          | Some (len, l2) => match rd_bytes len l2 with None => inr NoMoreData | Some (_, l3) => inl (tk : list N, offset data l2, l3) end
          end = inl (tk, (1 + length M + 2)%nat, rest)).
    { intros tk l ->. unfold l0, l1. rewrite rd_len by exact Hl.
      assert (R : rd_bytes len (A ++ rest) = Some (A, rest)) by (apply rd_bytes_spec; auto).
      rewrite R, O. reflexivity. }
    unfold decode_long. destruct Hp as [->|[->| ->]].
    - cbn [tok_bytes] in HT. destruct (varint_bytes (lenN token)) as [hdr|] eqn:Ev; [|discriminate]. apply some_inj in HT. subst T.
      rewrite (rd_vvec_encode token _ (l0 :: l1 :: A ++ rest) hdr Htk Ev) by (rewrite <- app_assoc; reflexivity).
      apply K. reflexivity.
    - cbn [tok_bytes] in HT. apply some_inj in HT. subst T. apply K. reflexivity.
    - cbn [tok_bytes] in HT. apply some_inj in HT. subst T. apply K. reflexivity. }
  rewrite DL. unfold data. rewrite offset_app, firstn_app_exact, skipn_app_exact. reflexivity.
Qed.

Lemma built_long x pre pt v kp dcid scid token limit grease rnd pn la b payload :
  good_keys x -> protected_long pt -> bytes_ok payload ->
  build_header pre pt v kp dcid scid token limit grease rnd pn la = Some b -> b_limit b <> 0%nat ->
  (length (b_enc b ++ payload) <= limit)%nat ->
  exists t T n q f M k text m l0 l1 P,
    type_to_byte pt v = Some t /\ t < 4 /\ tok_bytes pt token = Some T /\ (1 <= n <= 4)%nat /\ pn_wire pn la = Some P /\ length P = n /\
    In q [0; 64] /\ f = N.lor (N.lxor (N.lor (N.lor BIT_LONG BIT_FIXED) (N.shiftl t 4)) q) (N.of_nat (n - 1)) /\
    M = be_bytes 4 (wire v) ++ vec1 dcid ++ vec1 scid ++ T /\
    k = (4 + (16 - x_exp x) - (n + length payload))%nat /\
    length text = (length payload + k + x_exp x)%nat /\ bytes_ok text /\ bytes_ok m /\ length m = 16%nat /\ (20 <= n + length text)%nat /\
    m = x_mask x (firstn 16 (skipn (4 - n) text)) /\
    l0 = N.lor 64 (N.land (N.shiftr (N.of_nat (n + length text)) 8) 63) /\ l1 = N.land (N.of_nat (n + length text)) 255 /\
    x_open x pn (f :: (M ++ [l0; l1]) ++ P) text = Some (payload ++ repeat 0 k) /\
    length (b_enc b) = (length pre + 1 + length M + 2 + n)%nat /\
    b_build x (b_write payload b) = Some (Some (pre ++ N.lxor f (N.land (hd 0 m) HP_MASK_LONG) :: (M ++ [l0; l1]) ++ xorl P (firstn n (skipn 1 m)) ++ text)).
Proof.
  intros [Gm Gs] Hp Hb H HL Hlim.
  assert (Hlong : is_long_type pt = true) by (destruct Hp as [->|[->| ->]]; reflexivity).
  destruct (header_long _ _ _ _ _ _ _ _ _ _ _ _ _ Hlong H HL) as (t & T & n0 & n & q & f & M & h1 & h2 & h3 & h4 & h5 & h6 & h7 & h8 & h9).
  assert (Ht : t < 4) by (destruct (proj1 (packet_type_round_trip v) pt Hlong) as (b' & E1 & E2 & _); congruence).
  set (P := be_bytes n pn). assert (LP : length P = n) by apply be_bytes_length.
  set (k := (4 + (16 - x_exp x) - (n + length payload))%nat).
  set (body := payload ++ repeat 0 k).
  assert (Bb : bytes_ok body). { unfold body. apply bytes_ok_app. split; [exact Hb|]. unfold bytes_ok. apply Forall_forall. intros y Hy. apply repeat_spec in Hy. subst y. unfold byte_ok. lia. }
  assert (Lb : length body = (length payload + k)%nat) by (unfold body; rewrite app_length, repeat_length; reflexivity).
  set (len := N.of_nat (length (P ++ body) + x_exp x)).
  set (l0 := N.lor 64 (N.land (N.shiftr len 8) 63)). set (l1 := N.land len 255).
  destruct (Gs pn (f :: (M ++ [l0; l1]) ++ P) body Bb) as (text & S1 & S2 & S3 & S4).
  set (m := x_mask x (firstn 16 (skipn (4 - n) text))).
  destruct (Gm (firstn 16 (skipn (4 - n) text))) as [Lm Bm]. fold m in Lm, Bm.
  assert (Hlen : len = N.of_nat (n + length text)) by (unfold len; rewrite app_length, LP, S2, Lb; f_equal; lia).
  exists t, T, n, q, f, M, k, text, m, l0, l1, P.
  splits; auto; try lia.
  - unfold pn_wire. rewrite h3. unfold MAX_PACKET_NUMBER_LEN. rewrite <- h4. reflexivity.
  - rewrite <- Hlen. reflexivity.
  - rewrite <- Hlen. reflexivity.
  - rewrite h9; cbn [b_enc]. rewrite !app_length; cbn [length app]. rewrite app_length. cbn [length]. rewrite be_bytes_length. lia.
  - unfold b_build.
    replace (b_limit (b_write payload b)) with limit by (rewrite h9; reflexivity).
    replace (b_enc (b_write payload b)) with (b_enc b ++ payload) by reflexivity.
    destruct (Nat.ltb_spec limit (length (b_enc b ++ payload))); [lia|].
    assert (E1 : pad_to (b_pns (b_write payload b) + MAX_PACKET_NUMBER_LEN + extra_padding x) (b_enc b ++ payload) = (pre ++ f :: M) ++ 0 :: 0 :: (P ++ body)).
    { unfold pad_to. rewrite h9. unfold b_write, with_enc; cbn [b_pns b_enc b_pn b_start b_end b_mask b_len b_pne b_limit].
      fold P. unfold body. replace (_ - _)%nat with k.
      - rewrite <- !app_assoc. cbn [app]. rewrite <- !app_assoc. cbn [app]. reflexivity.
      - unfold k, MAX_PACKET_NUMBER_LEN, extra_padding, SAMPLE_SIZE. rewrite !app_length; cbn [length app]; rewrite !app_length; cbn [length app]. rewrite LP. lia. }
    rewrite E1.
    replace (b_len (b_write payload b)) with (length (pre ++ f :: M)) by (rewrite h9; cbn; rewrite app_length; cbn [length]; lia).
    assert (Z : Nat.ltb 0 (length (pre ++ f :: M)) = true) by (apply Nat.ltb_lt; rewrite app_length; cbn [length]; lia).
    rewrite Z. rewrite (write_len_shape _ _ _ _ _ len) by reflexivity. fold l0 l1.
    erewrite (protect_shape x (b_write payload b) _ pre f (M ++ [l0; l1]) P body text m).
    + rewrite h9 at 1. cbn [b_mask b_write with_enc]. rewrite LP. rewrite <- !app_assoc. reflexivity.
    + rewrite <- !app_assoc. cbn [app]. rewrite <- !app_assoc. cbn [app]. reflexivity.
    + rewrite h9; reflexivity.
    + rewrite h9; cbn. rewrite app_length; cbn [length]. lia.
    + rewrite h9; cbn. rewrite app_length; cbn [length]. lia.
    + rewrite h9; reflexivity.
    + lia.
    + rewrite LP, S2, Lb. unfold k. lia.
    + replace (b_pn (b_write payload b)) with pn by (rewrite h9; reflexivity). exact S1.
    + rewrite LP. reflexivity.
    + lia.
Qed.

Lemma built_short x pre v kp dcid scid token limit grease rnd pn la b payload :
  good_keys x -> bytes_ok payload -> (0 < length pre + 1)%nat ->
  build_header pre PShort v kp dcid scid token limit grease rnd pn la = Some b -> b_limit b <> 0%nat ->
  (length (b_enc b ++ payload) <= limit)%nat ->
  exists n q f k text m P,
    (1 <= n <= 4)%nat /\ pn_wire pn la = Some P /\ length P = n /\
    In q [0; 32; 64; 96] /\ f = N.lor (N.lxor (N.lor BIT_FIXED (if kp then 4 else 0)) q) (N.of_nat (n - 1)) /\
    k = (4 + (16 - x_exp x) - (n + length payload))%nat /\
    length text = (length payload + k + x_exp x)%nat /\ bytes_ok text /\ bytes_ok m /\ length m = 16%nat /\ (20 <= n + length text)%nat /\
    m = x_mask x (firstn 16 (skipn (4 - n) text)) /\
    x_open x pn (f :: dcid ++ P) text = Some (payload ++ repeat 0 k) /\
    length (b_enc b) = (length pre + 1 + length dcid + n)%nat /\
    b_build x (b_write payload b) = Some (Some (pre ++ N.lxor f (N.land (hd 0 m) HP_MASK_SHORT) :: dcid ++ xorl P (firstn n (skipn 1 m)) ++ text)).
Proof.
  intros [Gm Gs] Hb _ H HL Hlim.
  destruct (header_short _ _ _ _ _ _ _ _ _ _ _ _ H HL) as (n0 & n & q & f & h3 & h4 & h5 & h6 & h7 & h9).
  set (P := be_bytes n pn). assert (LP : length P = n) by apply be_bytes_length.
  set (k := (4 + (16 - x_exp x) - (n + length payload))%nat).
  set (body := payload ++ repeat 0 k).
  assert (Bb : bytes_ok body). { unfold body. apply bytes_ok_app. split; [exact Hb|]. unfold bytes_ok. apply Forall_forall. intros y Hy. apply repeat_spec in Hy. subst y. unfold byte_ok. lia. }
  assert (Lb : length body = (length payload + k)%nat) by (unfold body; rewrite app_length, repeat_length; reflexivity).
  destruct (Gs pn (f :: dcid ++ P) body Bb) as (text & S1 & S2 & S3 & S4).
  set (m := x_mask x (firstn 16 (skipn (4 - n) text))).
  destruct (Gm (firstn 16 (skipn (4 - n) text))) as [Lm Bm]. fold m in Lm, Bm.
  exists n, q, f, k, text, m, P.
  splits; auto; try lia.
  - unfold pn_wire. rewrite h3. unfold MAX_PACKET_NUMBER_LEN. rewrite <- h4. reflexivity.
  - rewrite h9; cbn [b_enc]. rewrite !app_length; cbn [length app]. rewrite app_length. rewrite be_bytes_length. lia.
  - unfold b_build.
    replace (b_limit (b_write payload b)) with limit by (rewrite h9; reflexivity).
    replace (b_enc (b_write payload b)) with (b_enc b ++ payload) by reflexivity.
    destruct (Nat.ltb_spec limit (length (b_enc b ++ payload))); [lia|].
    assert (E1 : pad_to (b_pns (b_write payload b) + MAX_PACKET_NUMBER_LEN + extra_padding x) (b_enc b ++ payload) = pre ++ (f :: dcid ++ P) ++ body).
    { unfold pad_to. rewrite h9. unfold b_write, with_enc; cbn [b_pns b_enc b_pn b_start b_end b_mask b_len b_pne b_limit].
      fold P. unfold body. replace (_ - _)%nat with k.
      - rewrite <- !app_assoc. cbn [app]. rewrite <- !app_assoc. cbn [app]. reflexivity.
      - unfold k, MAX_PACKET_NUMBER_LEN, extra_padding, SAMPLE_SIZE. rewrite !app_length; cbn [length app]; rewrite !app_length; cbn [length app]. rewrite LP. lia. }
    rewrite E1.
    replace (b_len (b_write payload b)) with 0%nat by (rewrite h9; reflexivity).
    change (Nat.ltb 0 0) with false. cbv iota.
    erewrite (protect_shape x (b_write payload b) _ pre f dcid P body text m).
    + rewrite h9 at 1. cbn [b_mask b_write with_enc]. rewrite LP. reflexivity.
    + reflexivity.
    + rewrite h9; reflexivity.
    + rewrite h9; cbn. reflexivity.
    + rewrite h9; cbn. lia.
    + rewrite h9; reflexivity.
    + lia.
    + rewrite LP, S2, Lb. unfold k. lia.
    + replace (b_pn (b_write payload b)) with pn by (rewrite h9; reflexivity). exact S1.
    + rewrite LP. reflexivity.
    + lia.
Qed.
