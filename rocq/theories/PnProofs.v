From Verif Require Import Base Lib CodecModel PnModel.

Lemma window_pow w : N.shiftl 1 (8 * N.of_nat w) = 256 ^ N.of_nat w.
Proof. rewrite N.shiftl_1_l, pow256. reflexivity. Qed.

Lemma mask_window e w : N.ldiff e (N.shiftl 1 (8 * N.of_nat w) - 1) = 256 ^ N.of_nat w * (e / 256 ^ N.of_nat w).
Proof.
  rewrite pow256.
  replace (N.shiftl 1 (8 * N.of_nat w) - 1) with (N.ones (8 * N.of_nat w)) by (rewrite N.ones_equiv, N.shiftl_1_l; lia).
  rewrite N.ldiff_ones_r, N.shiftl_mul_pow2, N.shiftr_div_pow2. lia.
Qed.

Lemma half_window w : (0 < w)%nat -> exists h, 0 < h /\ 256 ^ N.of_nat w = 2 * h /\ 256 ^ N.of_nat w / 2 = h.
Proof.
  intros Hw. exists (128 * 256 ^ N.of_nat (w - 1)).
  pose proof (N.pow_nonzero 256 (N.of_nat (w - 1)) ltac:(lia)).
  assert (E : 256 ^ N.of_nat w = 2 * (128 * 256 ^ N.of_nat (w - 1))).
  { replace (N.of_nat w) with (N.succ (N.of_nat (w - 1))) by lia. rewrite N.pow_succ_r'. lia. }
  split; [lia|]. split; [exact E|]. rewrite E, N.mul_comm. apply N.div_mul. lia.
Qed.

Lemma decode_pn_arith e t w : (0 < w)%nat -> t < 256 ^ N.of_nat w ->
  exists h q, 0 < h /\ 256 ^ N.of_nat w = 2 * h /\ q = e / (2 * h) /\ t < 2 * h /\
   decode_pn e t w =
   (if 2 * h * q + t + h <=? e then 2 * h * q + t + 2 * h
    else if e + h <? 2 * h * q + t then (if 2 * h * q + t <? 2 * h then 2 * h * q + t else 2 * h * q + t - 2 * h)
    else 2 * h * q + t).
Proof.
  intros Hw Ht. destruct (half_window w Hw) as (h & Hh & E & E2).
  exists h, (e / (2 * h)). repeat split; try lia; try (rewrite <- E; assumption).
  unfold decode_pn. rewrite mask_window, window_pow.
  replace (N.lor (256 ^ N.of_nat w * (e / 256 ^ N.of_nat w)) t) with (256 ^ N.of_nat w * (e / 256 ^ N.of_nat w) + t).
  - rewrite E2, E. reflexivity.
  - rewrite pow256 in *. pose proof (lor_add' t (e / 2 ^ (8 * N.of_nat w)) (8 * N.of_nat w)) as L.
    rewrite N.shiftl_mul_pow2 in L. rewrite (N.mul_comm (2 ^ _)). symmetry. apply L. exact Ht.
Qed.

Lemma decode_pn_low_bits e t w : (0 < w)%nat -> t < 256 ^ N.of_nat w ->
  decode_pn e t w mod 256 ^ N.of_nat w = t.
Proof.
  intros Hw Ht. destruct (decode_pn_arith e t w Hw Ht) as (h & q & Hh & E & Hq & Ht' & ->). rewrite E.
  assert (Hm : forall k, (2 * h * k + t) mod (2 * h) = t).
  { intros k. rewrite N.add_comm, (N.mul_comm (2 * h)), N.mod_add by lia. apply N.mod_small. exact Ht'. }
  destruct (N.leb_spec (2 * h * q + t + h) e).
  - replace (2 * h * q + t + 2 * h) with (2 * h * (q + 1) + t) by lia. apply Hm.
  - destruct (N.ltb_spec (e + h) (2 * h * q + t)); [|apply Hm].
    destruct (N.ltb_spec (2 * h * q + t) (2 * h)); [apply Hm|].
    assert (1 <= q) by nia.
    replace (2 * h * q + t - 2 * h) with (2 * h * (q - 1) + t) by nia. apply Hm.
Qed.

Lemma decode_pn_nearest e t w p : (0 < w)%nat -> t < 256 ^ N.of_nat w ->
  p mod 256 ^ N.of_nat w = t -> dist (decode_pn e t w) e <= dist p e.
Proof.
  intros Hw Ht Hp. destruct (decode_pn_arith e t w Hw Ht) as (h & q & Hh & E & Hq & Ht' & ->). rewrite E in Hp.
  pose proof (N.div_mod p (2 * h) ltac:(lia)) as Dp. rewrite Hp in Dp. set (k := p / (2 * h)) in *.
  pose proof (N.div_mod e (2 * h) ltac:(lia)) as De. rewrite <- Hq in De.
  pose proof (N.mod_lt e (2 * h) ltac:(lia)) as Le. set (r := e mod (2 * h)) in *.
  rewrite Dp. unfold dist.
  assert (Hk : k + 1 <= q \/ k = q \/ q + 1 <= k) by lia.
  assert (Hkq : k + 1 <= q -> 2 * h * k + 2 * h <= 2 * h * q).
  { intros Hle. replace (2 * h * k + 2 * h) with (2 * h * (k + 1)) by lia. apply N.mul_le_mono_l. exact Hle. }
  assert (Hqk : q + 1 <= k -> 2 * h * q + 2 * h <= 2 * h * k).
  { intros Hle. replace (2 * h * q + 2 * h) with (2 * h * (q + 1)) by lia. apply N.mul_le_mono_l. exact Hle. }
  set (A := 2 * h * q) in *. set (B := 2 * h * k) in *.
  assert (HA0 : A = 0 \/ 2 * h <= A) by (destruct (N.eq_dec q 0) as [E0|E0]; subst A; [rewrite E0; lia|right; rewrite <- (N.mul_1_r (2 * h)) at 1; apply N.mul_le_mono_l; lia]).
  assert (HB : k = q -> A = B) by (intros ->; reflexivity).
  assert (HAB : B + 2 * h <= A \/ A = B \/ A + 2 * h <= B) by (destruct Hk as [Hk|[Hk|Hk]]; auto).
  clearbody A B r. clear Hq Dp Hp Hk Hkq Hqk HB E Ht k q w Hw.
  destruct (N.leb_spec (A + t + h) e).
  - repeat match goal with |- context [?a <=? ?b] => destruct (N.leb_spec a b) end; lia.
  - destruct (N.ltb_spec (e + h) (A + t)); [destruct (N.ltb_spec (A + t) (2 * h))|];
    repeat match goal with |- context [?a <=? ?b] => destruct (N.leb_spec a b) end; lia.
Qed.

Lemma exact_arith h A B t r e pn :
  0 < h -> t < 2 * h -> r < 2 * h -> pn = B + t -> e = A + r -> pn <= e + h -> e < pn + h ->
  (B + 4 * h <= A \/ B + 2 * h = A \/ B = A \/ B = A + 2 * h \/ A + 4 * h <= B) ->
  (if A + t + h <=? e then A + t + 2 * h
   else if e + h <? A + t then (if A + t <? 2 * h then A + t else A + t - 2 * h)
   else A + t) = B + t.
Proof.
  intros. destruct (N.leb_spec (A + t + h) e); [lia|].
  destruct (N.ltb_spec (e + h) (A + t)); [destruct (N.ltb_spec (A + t) (2 * h))|]; lia.
Qed.

Lemma decode_pn_exact e pn w : (0 < w)%nat ->
  pn <= e + 256 ^ N.of_nat w / 2 -> e < pn + 256 ^ N.of_nat w / 2 ->
  decode_pn e (pn mod 256 ^ N.of_nat w) w = pn.
Proof.
  intros Hw H1 H2.
  assert (Ht : pn mod 256 ^ N.of_nat w < 256 ^ N.of_nat w) by (apply N.mod_lt, N.pow_nonzero; lia).
  destruct (half_window w Hw) as (h' & _ & E' & E2).
  destruct (decode_pn_arith e _ w Hw Ht) as (h & q & Hh & E & Hq & Ht' & ->). rewrite E in *.
  assert (H2h : 2 * h <> 0) by (clear - Hh; lia).
  assert (Hh' : h' = h) by (clear - E'; lia). rewrite Hh' in E2. rewrite E2 in *. clear E' Hh' h'.
  pose proof (N.div_mod pn (2 * h) H2h) as Dp. set (k := pn / (2 * h)) in *. set (t := pn mod (2 * h)) in *.
  pose proof (N.div_mod e (2 * h) H2h) as De. rewrite <- Hq in De.
  pose proof (N.mod_lt e (2 * h) H2h) as Le. set (r := e mod (2 * h)) in *.
  assert (HAB : 2 * h * k + 4 * h <= 2 * h * q \/ 2 * h * k + 2 * h = 2 * h * q \/ 2 * h * k = 2 * h * q
                \/ 2 * h * k = 2 * h * q + 2 * h \/ 2 * h * q + 4 * h <= 2 * h * k).
  { clear. assert (Hk : k + 2 <= q \/ k + 1 = q \/ k = q \/ k = q + 1 \/ q + 2 <= k) by lia.
    destruct Hk as [Hk|[Hk|[Hk|[Hk|Hk]]]].
    - left. replace (2 * h * k + 4 * h) with (2 * h * (k + 2)) by lia. apply N.mul_le_mono_l. exact Hk.
    - right; left. rewrite <- Hk. lia.
    - right; right; left. rewrite Hk. reflexivity.
    - right; right; right; left. rewrite Hk. lia.
    - right; right; right; right. replace (2 * h * q + 4 * h) with (2 * h * (q + 2)) by lia. apply N.mul_le_mono_l. exact Hk. }
  rewrite Dp.
  apply (exact_arith h (2 * h * q) (2 * h * k) t r e pn); assumption.
Qed.

(** below one window, any number is recovered from a lower expectation *)
Lemma decode_pn_low e pn w : (0 < w)%nat -> pn < 256 ^ N.of_nat w -> e <= pn -> decode_pn e pn w = pn.
Proof.
  intros Hw Hp He. destruct (decode_pn_arith e pn w Hw Hp) as (h & q & Hh & E & Hq & Ht' & ->). rewrite E in *.
  assert (q = 0) by (subst q; apply N.div_small; lia). subst q.
  rewrite H, N.mul_0_r, N.add_0_l.
  destruct (N.leb_spec (pn + h) e); [lia|]. destruct (N.ltb_spec (e + h) pn); [|reflexivity].
  destruct (N.ltb_spec pn (2 * h)); [reflexivity|lia].
Qed.

Lemma lz_bytes v n : v < 2 ^ 64 -> n = (8 - leading_zeros64 v / 8)%nat ->
  v < 256 ^ N.of_nat n /\ (v <> 0 -> (0 < n)%nat) /\ (n <= 8)%nat.
Proof.
  intros Hv Hn. unfold leading_zeros64 in Hn.
  assert (Hs : v <> 0 -> N.size v = N.succ (N.log2 v)) by (intros; apply N.size_log2; assumption).
  destruct (N.eq_dec v 0) as [->|Hv0].
  { split; [|split; [lia|subst n; lia]]. apply N.neq_0_lt_0, N.pow_nonzero. lia. }
  specialize (Hs Hv0).
  assert (N.log2 v < 64) by (apply N.log2_lt_pow2; lia).
  set (s := N.to_nat (N.size v)) in *.
  assert (Hs' : N.of_nat s = N.succ (N.log2 v)) by (subst s; lia).
  assert (Hge : (s <= 8 * n)%nat).
  { subst n. pose proof (Nat.div_mod (64 - s) 8 ltac:(lia)). pose proof (Nat.mod_upper_bound (64 - s) 8 ltac:(lia)). lia. }
  repeat split.
  - apply N.lt_le_trans with (2 ^ N.of_nat s).
    + rewrite Hs'. apply N.log2_spec. lia.
    + rewrite pow256. apply N.pow_le_mono_r; lia.
  - intros _. lia.
  - subst n. lia.
Qed.

Lemma pn_roundtrip pn la e :
  pn < 2 ^ 62 ->
  match la with Some l => l < pn /\ pn - l < 2 ^ 31 /\ l < e | None => pn < 2 ^ 32 - 1 end ->
  e <= pn ->
  exists l, pn_wire pn la = Some l /\ (1 <= length l <= 4)%nat /\
    forall more, bytes_ok more -> length (l ++ more) = MAX_PACKET_NUMBER_LEN ->
      pn_read e (l ++ more) (length l) = pn.
Proof.
  intros Hpn Hla He.
  assert (G : forall n, (0 < n)%nat ->
     decode_pn e (pn mod 256 ^ N.of_nat (Nat.min 4 n)) (Nat.min 4 n) = pn ->
     let l := be_bytes (Nat.min MAX_PACKET_NUMBER_LEN n) pn in
     (1 <= length l <= 4)%nat /\
     forall more, bytes_ok more -> length (l ++ more) = MAX_PACKET_NUMBER_LEN ->
      pn_read e (l ++ more) (length l) = pn).
  { intros n Hn Hd l. subst l. rewrite be_bytes_length. unfold MAX_PACKET_NUMBER_LEN in *. split; [lia|].
    intros more Hm Hl. unfold pn_read, MAX_PACKET_NUMBER_LEN.
    rewrite app_length, be_bytes_length in Hl.
    assert (Hml : (4 - Nat.min 4 n = length more)%nat) by lia. rewrite Hml.
    rewrite be_val_app, be_val_be_bytes, N.shiftr_div_pow2, <- pow256.
    pose proof (be_val_bound more Hm) as Hb. unfold lenN in *.
    rewrite N.div_add_l by (apply N.pow_nonzero; lia). rewrite (N.div_small (be_val more)) by exact Hb.
    rewrite N.add_0_r. exact Hd. }
  unfold pn_wire, pn_len. destruct la as [l|].
  - destruct Hla as (Hlt & Hr & Hle). destruct (N.ltb_spec pn l); [lia|].
    set (u := N.shiftl (pn - l) 1).
    assert (Hu : u = 2 * (pn - l)) by (subst u; rewrite N.shiftl_mul_pow2; lia).
    destruct (lz_bytes u (8 - leading_zeros64 u / 8)) as (B1 & B2 & B3); [|reflexivity|].
    { rewrite Hu. assert (2 ^ 32 <= 2 ^ 64) by (vm_compute; discriminate). assert (2 * 2 ^ 31 = 2 ^ 32) by reflexivity. lia. }
    set (n := (8 - leading_zeros64 u / 8)%nat) in *.
    destruct (Nat.eqb_spec n 0); [lia|]. eexists. split; [reflexivity|].
    apply G; [lia|].
    assert (Hw : u < 256 ^ N.of_nat (Nat.min 4 n)).
    { destruct (Nat.le_ge_cases n 4); [rewrite Nat.min_r by assumption; exact B1|]. rewrite Nat.min_l by assumption.
      change (256 ^ N.of_nat 4) with (2 * 2 ^ 31). lia. }
    destruct (half_window (Nat.min 4 n) ltac:(lia)) as (h & Hh & E & E2).
    apply decode_pn_exact; [lia| |]; rewrite E2; lia.
  - set (u := pn + 1).
    destruct (lz_bytes u (8 - leading_zeros64 u / 8)) as (B1 & B2 & B3); [|reflexivity|].
    { assert (2 ^ 32 <= 2 ^ 64) by (vm_compute; discriminate). lia. }
    set (n := (8 - leading_zeros64 u / 8)%nat) in *.
    destruct (Nat.eqb_spec n 0); [lia|]. eexists. split; [reflexivity|].
    apply G; [lia|].
    assert (Hw : pn < 256 ^ N.of_nat (Nat.min 4 n)).
    { destruct (Nat.le_ge_cases n 4); [rewrite Nat.min_r by assumption; lia|]. rewrite Nat.min_l by assumption.
      change (256 ^ N.of_nat 4) with (2 ^ 32). lia. }
    rewrite N.mod_small by exact Hw. apply decode_pn_low; [lia|exact Hw|exact He].
Qed.
