(** Integers, literals and instructions: round trips, reading in pieces, no panics. *)
From Verif Require Import Base Lib QpTables QiModel QiSpec QiProofs.
From Coq Require Import Lia.
Open Scope N_scope.
Open Scope list_scope.
Import ListNotations.

(** *** Integers *)
Lemma int_pieces_l : forall a b r, int_read r (a ++ b) = match int_read r a with IMore r' => int_read r' b | IOk v rest => IOk v (rest ++ b) | e => e end.
Proof.
  induction a as [|x a IH]; intros b r; cbn [List.app].
  - cbn [int_read]. destruct (i_done r) eqn:D; auto. destruct b; cbn [int_read]; rewrite D; auto.
  - cbn [int_read]. destruct (i_done r); auto. destruct (int_byte r x); auto.
Qed.
Lemma land127 : forall b, N.land b 127 = b mod 128. Proof. intros. change 127 with (N.ones 7). apply N.land_ones. Qed.
Lemma lor128 : forall x, x < 128 -> N.lor x 128 = 128 + x.
Proof. intros x H. rewrite N.lor_comm. exact (lor_shift 1 x 7 H). Qed.
Lemma low_bits : forall b v, b = v mod 128 \/ b = N.lor (v mod 128) 128 -> N.land b 127 = v mod 128.
Proof.
  intros b v H. rewrite land127. assert (v mod 128 < 128) by (apply N.mod_lt; lia). destruct H as [->| ->]; [apply N.mod_small; auto|].
  rewrite lor128 by auto. replace (128 + v mod 128) with (v mod 128 + 1 * 128) by lia. rewrite N.mod_add by lia. apply N.mod_small. auto.
Qed.
Lemma high_bit : forall x, x < 128 -> N.land x 128 = 0 /\ N.land (N.lor x 128) 128 = 128.
Proof.
  intros x H. assert (N.land x 128 = 0) as Z.
  { change 128 with (2 ^ 7). apply N.bits_inj. intros i. rewrite N.land_spec, N.bits_0, N.pow2_bits_eqb. destruct (N.eqb_spec 7 i) as [<-|]; [|apply andb_false_r].
    destruct (N.eq_dec x 0) as [->|D]; [reflexivity|]. rewrite N.bits_above_log2; auto. apply N.log2_lt_pow2; lia. }
  split; auto. rewrite N.land_lor_distr_l, Z, N.land_diag. reflexivity.
Qed.
Lemma int_tail_read : forall f n acc cnt rest, n < 2 ^ (7 * N.of_nat f) -> cnt + 7 * N.of_nat f = 70 -> acc + n * 2 ^ cnt < 2 ^ 64 -> (f <> 0)%nat ->
  int_read (mkI acc cnt false) (int_tail f n ++ rest) = IOk (acc + n * 2 ^ cnt) rest.
Proof.
  induction f as [|f IH]; intros n acc cnt rest Hn Hc Hs Hf; [congruence|]. clear Hf. cbn [int_tail]. rewrite land127.
  assert (n = 128 * N.shiftr n 7 + n mod 128) as En by (rewrite N.shiftr_div_pow2; apply N.div_mod; lia).
  assert (n mod 128 < 128) as Hm by (apply N.mod_lt; lia).
  assert (2 ^ cnt <> 0) as Hp by (apply N.pow_nonzero; lia).
  assert (forall b, (b = n mod 128 \/ b = N.lor (n mod 128) 128) -> (cnt = 63 -> b = n) -> int_byte (mkI acc cnt false) b = Good (mkI (acc + n mod 128 * 2 ^ cnt) (cnt + 7) ((N.land b 128 =? 0) || (64 <=? cnt + 7)))) as Byte.
  { intros b Hb H63. unfold int_byte. cbn [i_val i_cnt]. rewrite (low_bits b n Hb).
    assert (n mod 128 * 2 ^ cnt <= n * 2 ^ cnt) as Hle by (apply N.mul_le_mono_r; lia).
    rewrite N.shiftl_mul_pow2, N.mod_small by lia.
    destruct ((cnt =? 63) && ((1 <? b) || (b =? 1) && (N.shiftr acc 63 =? 1))) eqn:X.
    - exfalso. apply andb_true_iff in X. destruct X as (X1 & X2). apply N.eqb_eq in X1. subst cnt. rewrite (H63 eq_refl) in *. change (2 ^ 64) with (2 * 2 ^ 63) in Hs.
      apply orb_true_iff in X2. destruct X2 as [X2|X2].
      + apply N.ltb_lt in X2. assert (2 * 2 ^ 63 <= n * 2 ^ 63) by (apply N.mul_le_mono_r; lia). lia.
      + apply andb_true_iff in X2. destruct X2 as (X2 & X3). apply N.eqb_eq in X2, X3. rewrite X2 in Hs.
        rewrite N.shiftr_div_pow2 in X3. destruct (N.lt_ge_cases acc (2 ^ 63)) as [L|L]; [rewrite N.div_small in X3 by auto; discriminate|]. lia.
    - destruct (N.leb_spec (2 ^ 64) (acc + n mod 128 * 2 ^ cnt)); [lia|]. reflexivity. }
  destruct (N.ltb_spec 0 (N.shiftr n 7)) as [L|L].
  - assert (cnt < 63) as C63.
    { destruct (N.lt_ge_cases cnt 63); auto. exfalso. assert (f = 0)%nat as -> by lia. change (2 ^ (7 * N.of_nat 1)) with 128 in Hn. rewrite N.shiftr_div_pow2 in L. change (2 ^ 7) with 128 in L. rewrite N.div_small in L by auto. lia. }
    cbn [List.app int_read i_done]. rewrite (Byte (N.lor (n mod 128) 128)) by (auto; lia). destruct (high_bit _ Hm) as (_ & ->). cbn [N.eqb orb].
    destruct (N.leb_spec 64 (cnt + 7)) as [Z|Z]; [lia|]. change (128 =? 0) with false. cbn [orb].
    assert (N.shiftr n 7 * 2 ^ (cnt + 7) = 128 * N.shiftr n 7 * 2 ^ cnt) as Eq by (rewrite N.pow_add_r; change (2 ^ 7) with 128; lia).
    rewrite IH.
    + f_equal. rewrite Eq. rewrite En at 3. lia.
    + apply (N.mul_lt_mono_pos_l 128); [lia|]. replace (128 * 2 ^ (7 * N.of_nat f)) with (2 ^ (7 * N.of_nat (S f))) by (replace (7 * N.of_nat (S f)) with (7 + 7 * N.of_nat f) by lia; rewrite N.pow_add_r; reflexivity). lia.
    + lia.
    + rewrite Eq. rewrite En in Hs at 1. lia.
    + intros ->. lia.
  - assert (n mod 128 = n) as Em by lia. cbn [List.app]. cbn [int_read]. cbn [i_done]. rewrite (Byte (n mod 128)) by auto. destruct (high_bit _ Hm) as (-> & _). cbn [N.eqb orb].
    destruct rest; cbn [int_read i_done i_val]; rewrite Em; auto.
Qed.
Definition wf_prefix (p : prefix) : Prop := 1 <= p_len p <= 7 /\ exists q, p_val p = q * 2 ^ (8 - p_len p) /\ q < 2 ^ p_len p.
Lemma first_max_eq : forall l, 1 <= l -> first_max l = 2 ^ (8 - l) - 1. Proof. intros l H. unfold first_max. destruct (N.eqb_spec l 0); [lia|]. auto. Qed.
Lemma land_m : forall k q x, x < 2 ^ k -> N.land (q * 2 ^ k + x) (2 ^ k - 1) = x.
Proof. intros k q x H. rewrite <- N.pred_sub, <- N.ones_equiv, N.land_ones, N.add_comm, N.mod_add by (apply N.pow_nonzero; lia). apply N.mod_small. auto. Qed.
Lemma encode_int_eq : forall p v, wf_prefix p -> let m := first_max (p_len p) in
  encode_int p v = (p_val p + N.min v m) :: (if v <? m then [] else int_tail 10 (v - m)).
Proof.
  intros [pv pl pm] v (Hl & q & Ep & Hq). cbn [p_val p_len] in *. cbv zeta. unfold encode_int. cbn [p_val p_len]. rewrite first_max_eq by lia. subst pv.
  assert (2 ^ (8 - pl) <> 0) as Hn by (apply N.pow_nonzero; lia).
  assert (2 ^ pl * 2 ^ (8 - pl) = 256) as P by (rewrite <- N.pow_add_r; replace (pl + (8 - pl)) with 8 by lia; reflexivity).
  destruct (N.ltb_spec v (2 ^ (8 - pl) - 1)) as [L|L].
  - rewrite N.min_l by lia. f_equal. replace (N.land (q * 2 ^ (8 - pl)) (255 - (2 ^ (8 - pl) - 1))) with (q * 2 ^ (8 - pl)); [apply lor_shift; lia|].
    assert (255 - (2 ^ (8 - pl) - 1) = N.ones pl * 2 ^ (8 - pl)) as ->.
    { rewrite N.ones_equiv, N.pred_sub, N.mul_sub_distr_r, P. assert (2 ^ (8 - pl) <= 256) by (change 256 with (2 ^ 8); apply N.pow_le_mono_r; lia). lia. }
    rewrite <- !N.shiftl_mul_pow2, <- N.shiftl_land, N.land_ones, N.mod_small by auto. auto.
  - rewrite N.min_r by lia. f_equal. apply lor_shift. lia.
Qed.
Lemma read_int_tail : forall p v rest, wf_prefix p -> v < 2 ^ 64 -> exists b tl, encode_int p v = b :: tl /\ b = p_val p + N.min v (first_max (p_len p)) /\ int_read (int_new b (p_len p)) (tl ++ rest) = IOk v rest.
Proof.
  intros p v rest W Hv. rewrite encode_int_eq by auto. eexists _, _. split; [reflexivity|]. split; auto. destruct W as (Hl & q & Ep & Hq). unfold int_new. rewrite Ep, first_max_eq by lia.
  assert (2 ^ (8 - p_len p) <> 0) as Hn by (apply N.pow_nonzero; lia). rewrite land_m by lia.
  destruct (N.ltb_spec v (2 ^ (8 - p_len p) - 1)) as [L|L].
  - rewrite N.min_l by lia. destruct (N.ltb_spec v (2 ^ (8 - p_len p) - 1)); [|lia]. cbn [List.app]. destruct rest; reflexivity.
  - rewrite N.min_r by lia. rewrite N.ltb_irrefl. rewrite int_tail_read.
    + f_equal. rewrite N.pow_0_r. lia.
    + change (2 ^ (7 * N.of_nat 10)) with (64 * 2 ^ 64). lia.
    + reflexivity.
    + rewrite N.pow_0_r. lia.
    + lia.
Qed.
Lemma int_trip : forall p v rest, wf_prefix p -> v < 2 ^ 64 -> buf_int (p_len p) (encode_int p v ++ rest) = Good (v, rest).
Proof. intros p v rest W H. destruct (read_int_tail p v rest W H) as (b & tl & E & _ & R). rewrite E. cbn [List.app buf_int]. rewrite R. auto. Qed.
(** No panic; the state between pieces. *)
Definition i_ok (r : ireader) : Prop := i_done r = false -> exists k, i_cnt r = 7 * k /\ k <= 9 /\ i_val r < 2 ^ i_cnt r + 255.
Lemma int_new_ok : forall b l, i_ok (int_new b l).
Proof.
  intros b l _. exists 0. cbn. split; auto. split; [lia|]. assert (exists j, first_max l = N.ones j /\ j <= 8) as (j & Ej & Hj).
  { unfold first_max. destruct (l =? 0); [exists 8 | exists (8 - l)]; split; try lia; try reflexivity. rewrite N.ones_equiv, N.pred_sub. auto. }
  rewrite Ej, N.land_ones. assert (b mod 2 ^ j < 2 ^ j) by (apply N.mod_lt, N.pow_nonzero; lia). assert (2 ^ j <= 2 ^ 8) by (apply N.pow_le_mono_r; lia). change (2 ^ 8) with 256 in *. lia.
Qed.
Lemma int_byte_ok : forall r b, i_ok r -> i_done r = false -> b < 256 -> match int_byte r b with Good r' => i_ok r' /\ i_val r' = i_val r + b mod 128 * 2 ^ i_cnt r /\ i_cnt r' = i_cnt r + 7 /\ i_val r' < 2 ^ 64 /\ i_done r' = ((b <? 128) || (i_cnt r =? 63)) /\ i_cnt r <= 63 /\ (i_cnt r = 63 -> b < 128)
  | Bad => i_cnt r = 63 /\ (128 <= b \/ 2 ^ 64 <= i_val r + b mod 128 * 2 ^ 63) | Panic => False end.
Proof.
  intros r b O D B. destruct (O D) as (k & Ec & Hk & Hv). unfold int_byte. rewrite land127.
  assert (b mod 128 < 128) as Hm by (apply N.mod_lt; lia).
  assert ((N.land b 128 =? 0) = (b <? 128)) as E128.
  { destruct (N.ltb_spec b 128) as [L|L]; [destruct (high_bit b L) as (-> & _); reflexivity|].
    assert (b = N.lor (b - 128) 128) as Eb by (rewrite lor128; lia).
    rewrite Eb. destruct (high_bit (b - 128) ltac:(lia)) as (_ & ->). reflexivity. }
  destruct (N.eqb_spec (i_cnt r) 63) as [E|E]; cbn [andb].
  - rewrite E in *. destruct (N.ltb_spec 1 b) as [L|L]; cbn [orb].
    + split; auto. destruct (N.lt_ge_cases b 128); auto. right. rewrite N.mod_small by auto. change (2 ^ 64) with (2 * 2 ^ 63). assert (2 * 2 ^ 63 <= b * 2 ^ 63) by (apply N.mul_le_mono_r; lia). lia.
    + assert (b mod 128 = b) as Em by (apply N.mod_small; lia). rewrite Em. destruct ((b =? 1) && (N.shiftr (i_val r) 63 =? 1)) eqn:X.
      * split; auto. right. apply andb_true_iff in X. destruct X as (X1 & X2). apply N.eqb_eq in X1, X2. subst b. change (2 ^ 64) with (2 * 2 ^ 63). rewrite N.shiftr_div_pow2 in X2.
        destruct (N.lt_ge_cases (i_val r) (2 ^ 63)) as [Z|Z]; [rewrite N.div_small in X2 by auto; discriminate|]. lia.
      * rewrite N.shiftl_mul_pow2. rewrite (N.mod_small (b * 2 ^ 63)) by (change (2 ^ 64) with (2 * 2 ^ 63); apply N.mul_lt_mono_pos_r; lia).
        assert (i_val r + b * 2 ^ 63 < 2 ^ 64) as F.
        { change (2 ^ 64) with (2 * 2 ^ 63) in *. assert (b = 0 \/ b = 1) as [->| ->] by lia; [lia|]. cbn [N.eqb andb] in X. change (1 =? 1) with true in X. cbn [andb] in X. apply N.eqb_neq in X.
          destruct (N.lt_ge_cases (i_val r) (2 ^ 63)) as [Z|Z]; [lia|]. exfalso. apply X. rewrite N.shiftr_div_pow2. symmetry. apply (N.div_unique _ _ _ (i_val r - 2 ^ 63)); lia. }
        destruct (N.leb_spec (2 ^ 64) (i_val r + b * 2 ^ 63)); [lia|]. cbn [i_val i_cnt i_done]. rewrite E128. change (64 <=? 63 + 7) with true. rewrite !orb_true_r. split; [intros X0; discriminate X0|]. splits; auto; lia.
  - assert (i_cnt r <= 56) as C by lia. rewrite N.shiftl_mul_pow2.
    assert (2 ^ i_cnt r <= 2 ^ 56) as P by (apply N.pow_le_mono_r; lia). assert (b mod 128 * 2 ^ i_cnt r <= 127 * 2 ^ i_cnt r) as Q by (apply N.mul_le_mono_r; lia).
    change (2 ^ 56) with 72057594037927936 in P. change (2 ^ 64) with 18446744073709551616. rewrite N.mod_small by lia. destruct (N.leb_spec 18446744073709551616 (i_val r + b mod 128 * 2 ^ i_cnt r)); [lia|].
    cbn [i_val i_cnt i_done]. rewrite E128. destruct (N.leb_spec 64 (i_cnt r + 7)); [lia|]. split; [|splits; auto; lia].
    intros _. exists (k + 1). cbn [i_cnt i_val]. split; [lia|]. split; [lia|]. rewrite N.pow_add_r. change (2 ^ 7) with 128. lia.
Qed.
Lemma int_read_ok : forall bs r, i_ok r -> bytes_ok bs -> match int_read r bs with IOk _ rest => exists used, bs = used ++ rest | IMore r' => i_ok r' /\ i_done r' = false | IOverflow => True | IPanic => False end.
Proof.
  induction bs as [|b bs IH]; intros r O B; cbn [int_read]; destruct (i_done r) eqn:D; auto; try (exists []; auto; fail).
  inversion B; subst. pose proof (int_byte_ok r b O D H1) as Q. destruct (int_byte r b) as [r'| |]; auto. destruct Q as (O' & _). specialize (IH r' O' H2).
  destruct (int_read r' bs); auto. destruct IH as (u & ->). exists (b :: u). auto.
Qed.
Lemma int_sound : forall bs r v rest, i_ok r -> bytes_ok bs -> i_done r = false -> int_read r bs = IOk v rest -> i_val r < 2 ^ 64 ->
  exists tl, bs = tl ++ rest /\ is_tail tl /\ i_cnt r + 7 * lenN tl <= 70 /\ v = i_val r + 2 ^ i_cnt r * tail_value tl /\ v < 2 ^ 64.
Proof.
  induction bs as [|b bs IH]; intros r v rest O B D H Hv; cbn [int_read] in H; rewrite D in H; [discriminate|]. inversion B as [|? ? Bb Bs]; subst.
  pose proof (int_byte_ok r b O D Bb) as Q. destruct (int_byte r b) as [r'| |]; try discriminate H. destruct Q as (O' & Ev & Ec & L & Ed & C & Q63).
  destruct (i_done r') eqn:D'.
  - assert (IOk (i_val r') bs = IOk v rest) as H' by (destruct bs; cbn [int_read] in H; rewrite D' in H; exact H). injection H' as <- <-. exists [b]. unfold lenN. cbn [length is_tail tail_value List.app].
    assert (b < 128) as Hb.
    { destruct (N.ltb_spec b 128); auto. cbn [orb] in Ed. symmetry in Ed. apply N.eqb_eq in Ed. auto. }
    splits; auto; try lia.
  - destruct (IH r' v rest O' Bs D' H L) as (tl & -> & T & Lt & E & V). exists (b :: tl). symmetry in Ed. apply orb_false_iff in Ed. destruct Ed as (Ed & _). apply N.ltb_ge in Ed.
    splits; auto.
    + destruct tl; [destruct T|]. cbn [is_tail]. auto.
    + rewrite lenN_cons. rewrite Ec in Lt. lia.
    + cbn [tail_value]. rewrite E, Ev, Ec, N.pow_add_r. change (2 ^ 7) with 128. lia.
Qed.
Lemma int_complete : forall tl r rest, i_ok r -> bytes_ok tl -> i_done r = false -> is_tail tl -> i_cnt r + 7 * lenN tl <= 70 -> i_val r + 2 ^ i_cnt r * tail_value tl < 2 ^ 64 -> int_read r (tl ++ rest) = IOk (i_val r + 2 ^ i_cnt r * tail_value tl) rest.
Proof.
  induction tl as [|b tl IH]; intros r rest O B D T L V; [destruct T|]. cbn [List.app int_read]. rewrite D. inversion B as [|? ? Bb Bs]; subst. rewrite lenN_cons in L. cbn [tail_value] in V |- *.
  pose proof (int_byte_ok r b O D Bb) as Q. destruct (int_byte r b) as [r'| |]; [|exfalso|destruct Q].
  - destruct Q as (O' & Ev & Ec & L' & Ed & C & _). assert (tl = [] /\ b < 128 \/ 128 <= b /\ is_tail tl /\ tl <> []) as [(-> & Hb)|(Hb & T' & Ne)] by (destruct tl; [left; auto | right; cbn [is_tail] in T; split; [tauto|]; split; [tauto | discriminate]]).
    + destruct (N.ltb_spec b 128); [|lia]. cbn [orb] in Ed. cbn [List.app tail_value]. destruct rest; cbn [int_read]; rewrite Ed; f_equal; lia.
    + destruct (N.ltb_spec b 128); [lia|]. cbn [orb] in Ed. assert (1 <= lenN tl) by (destruct tl; [congruence | rewrite lenN_cons; lia]). destruct (N.eqb_spec (i_cnt r) 63); [lia|].
      rewrite IH; auto; rewrite Ec; try lia; rewrite ?Ev, N.pow_add_r; change (2 ^ 7) with 128; [f_equal|]; lia.
  - destruct Q as (C & [Hb|Hb]); [destruct tl; [cbn [is_tail] in T; lia|]; rewrite lenN_cons in L; lia|]. rewrite C in V. lia.
Qed.
Lemma int_len : forall bs r v rest, int_read r bs = IOk v rest -> exists used, bs = used ++ rest.
Proof.
  induction bs as [|b bs IH]; intros r v rest H; cbn [int_read] in H; destruct (i_done r); try discriminate H; try (injection H as <- <-; exists []; auto; fail).
  destruct (int_byte r b); try discriminate H. destruct (IH _ _ _ H) as (u & ->). exists (b :: u). auto.
Qed.

(** *** Literals *)
Lemma skipn_app_l : forall (A : Type) k (a b : list A), (k <= length a)%nat -> skipn k (a ++ b) = skipn k a ++ b.
Proof. intros. rewrite skipn_app. replace (k - length a)%nat with 0%nat by lia. auto. Qed.
Lemma firstn_app_l : forall (A : Type) k (a b : list A), (k <= length a)%nat -> firstn k (a ++ b) = firstn k a.
Proof. intros. rewrite firstn_app. replace (k - length a)%nat with 0%nat by lia. cbn. apply app_nil_r. Qed.
Lemma lit_body_pieces : forall h n got a b, lit_body h n got (a ++ b) = match lit_body h n got a with LOk v rest => LOk v (rest ++ b) | LMore l => lit_read l b | e => e end.
Proof.
  intros h n got a b. unfold lit_body. rewrite (lenN_app a b). destruct (N.le_gt_cases (n - lenN got) (lenN a)) as [L|L].
  - rewrite !N.min_l by lia. rewrite firstn_app_l, skipn_app_l by (unfold lenN in *; lia).
    destruct (lenN (got ++ firstn (N.to_nat (n - lenN got)) a) =? n) eqn:E.
    + destruct h; auto. destruct (huffman_decode _); auto.
    + cbn [lit_read l_state l_huff]. unfold lit_body. apply N.eqb_neq in E. rewrite lenN_app in E.
      assert (lenN (firstn (N.to_nat (n - lenN got)) a) = n - lenN got) as Ef by (unfold lenN; rewrite firstn_length_le; unfold lenN in *; lia). rewrite Ef in E.
      assert (n - lenN got = 0) as Z by lia. rewrite Z. cbn [N.to_nat firstn]. rewrite app_nil_r. rewrite Z. rewrite N.min_0_l. cbn [N.to_nat firstn]. rewrite app_nil_r.
      destruct (N.eqb_spec (lenN got) n); [lia|]. auto.
  - rewrite (N.min_r _ (lenN a)) by lia. assert (N.to_nat (lenN a) = length a) as -> by (unfold lenN; lia). rewrite firstn_all, skipn_all.
    destruct (N.eqb_spec (lenN (got ++ a)) n) as [E|E]; [rewrite lenN_app in E; lia|]. cbn [lit_read l_state l_huff]. unfold lit_body. rewrite (lenN_app got a).
    assert (N.min (n - lenN got) (lenN a + lenN b) = lenN a + N.min (n - (lenN got + lenN a)) (lenN b)) as -> by lia.
    assert (N.to_nat (lenN a + N.min (n - (lenN got + lenN a)) (lenN b)) = (length a + N.to_nat (N.min (n - (lenN got + lenN a)) (lenN b)))%nat) as -> by (unfold lenN; lia).
    rewrite firstn_app_2, <- app_assoc. rewrite skipn_app. rewrite skipn_all2 by lia. cbn [List.app]. replace (length a + _ - length a)%nat with (N.to_nat (N.min (n - (lenN got + lenN a)) (lenN b))) by lia. auto.
Qed.
Lemma lit_len_pieces : forall h r a b, lit_len h r (a ++ b) = match lit_len h r a with LOk v rest => LOk v (rest ++ b) | LMore l => lit_read l b | e => e end.
Proof. intros h r a b. unfold lit_len. rewrite int_pieces_l. destruct (int_read r a) as [n rest| | |]; auto. destruct (MAX_LEN <? n); auto. apply lit_body_pieces. Qed.
Lemma lit_pieces : forall l a b, lit_read l (a ++ b) = match lit_read l a with LOk v rest => LOk v (rest ++ b) | LMore l' => lit_read l' b | e => e end.
Proof. intros [s h] a b. unfold lit_read at 1 2. cbn [l_state l_huff]. destruct s as [|r|n got]; [destruct a; auto; apply lit_len_pieces | apply lit_len_pieces | apply lit_body_pieces]. Qed.
(** What a string takes in an instruction. *)
Definition enc (h : bool) (v : list N) : list N := if h then match huffman_encode v with Some e => e | None => [] end else v.
Lemma enc_decode : forall v, bytes_ok v -> exists e, huffman_encode v = Some e /\ bytes_ok e /\ huffman_decode e = Good v.
Proof.
  intros v B. destruct (encode_spec v B) as (e & E & Be & k & K & Eb). exists e. split; auto. split; auto. unfold huffman_decode. destruct e as [|x e'].
  - cbn in Eb. assert (v = []) as -> by (destruct v as [|c v]; auto; cbn [flat_map] in Eb; destruct (code c) eqn:Ec; [inversion B; subst; exfalso; eapply code_nonempty; [|exact Ec]; unfold byte_ok in *; lia | discriminate]). reflexivity.
  - destruct (start_ok (x :: e') ltac:(discriminate)) as (O & A & L). eapply loop_complete; [exact B | exact O | exact A | | exact K | lia]. unfold at_bits in A. rewrite <- Eb. cbn [b_in List.app] in A. rewrite A. auto.
Qed.
Lemma lit_body_whole : forall (h : bool) v (rest : list N), bytes_ok v -> lenN (enc h v) <= MAX_LEN -> lit_body h (lenN (enc h v)) [] (enc h v ++ rest) = LOk v rest.
Proof.
  intros h v rest B L. unfold lit_body. rewrite (lenN_app (enc h v) rest), lenN_nil, N.sub_0_r, N.min_l by lia. assert (N.to_nat (lenN (enc h v)) = length (enc h v)) as -> by (unfold lenN; lia).
  rewrite firstn_app_exact, skipn_app_exact. cbn [List.app]. rewrite N.eqb_refl. unfold enc in *. destruct h; auto. destruct (enc_decode v B) as (e & -> & _ & ->). auto.
Qed.
Definition lp (h : bool) (p : prefix) : prefix := mkP (p_val p + (if h then 2 ^ (7 - p_len p) else 0)) (p_len p + 1) ((2 ^ (p_len p + 1) - 1) * 2 ^ (8 - (p_len p + 1))).
Definition wf_lit (p : prefix) : Prop := p_len p <= 6 /\ exists q, p_val p = q * 2 ^ (8 - p_len p) /\ q < 2 ^ p_len p.
Lemma lit_bit : forall L, L <= 6 -> N.shiftr 128 L = 2 ^ (7 - L).
Proof. intros L H. rewrite N.shiftr_div_pow2. change 128 with (2 ^ 7). symmetry. apply (N.div_unique _ _ _ 0); [apply N.neq_0_lt_0, N.pow_nonzero; lia|]. rewrite N.add_0_r, <- N.pow_add_r. f_equal. lia. Qed.
Lemma lp_val : forall h p, wf_lit p -> exists q, p_val (lp h p) = (2 * q + N.b2n h) * 2 ^ (7 - p_len p) /\ q < 2 ^ p_len p /\ p_val p = q * 2 ^ (8 - p_len p).
Proof.
  intros h p (Hl & q & Ep & Hq). exists q. split; auto. cbn [lp p_val]. rewrite Ep. replace (8 - p_len p) with (1 + (7 - p_len p)) by lia. rewrite N.pow_add_r. change (2 ^ 1) with 2. destruct h; cbn [N.b2n]; lia.
Qed.
Lemma lp_wf : forall h p, wf_lit p -> wf_prefix (lp h p).
Proof.
  intros h p W. destruct (lp_val h p W) as (q & E & Hq & _). destruct W as (Hl & _). split; [cbn; lia|]. exists (2 * q + N.b2n h). split; [rewrite E; cbn [lp p_len]; do 2 f_equal; lia|].
  cbn [lp p_len]. rewrite N.pow_add_r. change (2 ^ 1) with 2. destruct h; cbn [N.b2n]; lia.
Qed.
Lemma prefix_lp : forall (h : bool) p, wf_lit p -> prefix_new (if h then N.lor (p_val p) (N.shiftr 128 (p_len p)) else p_val p) (p_len p + 1) = Some (lp h p).
Proof.
  intros h p W. pose proof W as W0. destruct W as (Hl & q & Ep & Hq). assert ((if h then N.lor (p_val p) (N.shiftr 128 (p_len p)) else p_val p) = p_val (lp h p)) as ->.
  { cbn [lp p_val]. destruct h; [|lia]. rewrite lit_bit by lia. rewrite Ep. apply lor_shift. apply N.pow_lt_mono_r; lia. }
  unfold prefix_new. destruct (N.leb_spec (p_len p + 1) 7); [|lia]. destruct (N.eqb_spec (p_len p + 1) 0); [lia|]. cbn [andb orb].
  destruct (lp_val h p W0) as (q' & E & _). rewrite E at 1. replace (8 - (p_len p + 1)) with (7 - p_len p) by lia.
  assert (N.land ((2 * q' + N.b2n h) * 2 ^ (7 - p_len p)) (2 ^ (7 - p_len p) - 1) = 0) as Z.
  { rewrite <- (N.add_0_r (_ * 2 ^ _)). apply land_m. apply N.neq_0_lt_0, N.pow_nonzero. lia. }
  rewrite Z. cbn [N.eqb]. unfold lp. cbn [p_val]. replace (8 - (p_len p + 1)) with (7 - p_len p) by lia. auto.
Qed.
Lemma lit_flag : forall h p x, wf_lit p -> x < 2 ^ (7 - p_len p) -> negb (N.land (p_val (lp h p) + x) (N.shiftr 128 (p_len p)) =? 0) = h.
Proof.
  intros h p x W Hx. destruct (lp_val h p W) as (q & -> & _). destruct W as (Hl & _). rewrite lit_bit by lia. set (k := 7 - p_len p) in *. clearbody k. clear Hl.
  assert (N.testbit ((2 * q + N.b2n h) * 2 ^ k + x) k = h) as T.
  { rewrite <- N.div_pow2_bits with (n := 0) in * || idtac. rewrite <- (N.add_0_l k) at 2. rewrite <- N.div_pow2_bits. rewrite N.div_add_l, N.div_small, N.add_0_r by (auto; apply N.pow_nonzero; lia).
    destruct h; cbn [N.b2n]; [apply N.testbit_odd_0 | rewrite N.add_0_r; apply N.testbit_even_0]. }
  destruct (N.eqb_spec (N.land ((2 * q + N.b2n h) * 2 ^ k + x) (2 ^ k)) 0) as [E|E]; cbn [negb].
  - apply (f_equal (fun z => N.testbit z k)) in E. rewrite N.land_spec, N.pow2_bits_true, N.bits_0, T, andb_true_r in E. auto.
  - destruct h; auto. exfalso. apply E. apply N.bits_inj. intros i. rewrite N.land_spec, N.pow2_bits_eqb, N.bits_0. destruct (N.eqb_spec k i) as [<-|]; [rewrite T; auto | apply andb_false_r].
Qed.
(** A literal starts with its prefix, the Huffman bit and its length. *)
Lemma literal_eq : forall h p v, wf_lit p -> bytes_ok v -> encode_literal h p v = Some (encode_int (lp h p) (lenN (enc h v)) ++ enc h v).
Proof. intros h p v W B. unfold encode_literal. rewrite prefix_lp by auto. unfold enc. destruct h; auto. destruct (enc_decode v B) as (e & -> & _). auto. Qed.
Lemma literal_first : forall h p v rest, wf_lit p -> bytes_ok v -> lenN (enc h v) <= MAX_LEN ->
  exists b tl, encode_literal h p v = Some (b :: tl) /\ p_val p <= b < p_val p + 2 ^ (8 - p_len p) /\ lit_read (lit_first b (p_len p)) (tl ++ rest) = LOk v rest /\ (p_len p = 0 -> lit_read lit_default (b :: tl ++ rest) = LOk v rest) /\
  buf_literal (p_len p) (b :: tl ++ rest) = Good (v, rest).
Proof.
  intros h p v rest W B L. rewrite literal_eq by auto. pose proof (lp_wf h p W) as Wl. assert (lenN (enc h v) < 2 ^ 64) as Hv by (unfold MAX_LEN in L; change (2 ^ 64) with 18446744073709551616; lia).
  destruct (read_int_tail (lp h p) (lenN (enc h v)) (enc h v ++ rest) Wl Hv) as (b & tl & E & Eb & R). rewrite E. exists b, (tl ++ enc h v). split; auto.
  assert (first_max (p_len (lp h p)) = 2 ^ (7 - p_len p) - 1) as Em by (rewrite first_max_eq by (cbn [lp p_len]; lia); cbn [lp p_len]; do 2 f_equal; lia).
  assert (2 ^ (7 - p_len p) <> 0) as Hn by (apply N.pow_nonzero; lia).
  assert (negb (N.land b (N.shiftr 128 (p_len p)) =? 0) = h) as F by (rewrite Eb; apply lit_flag; auto; rewrite Em; lia).
  rewrite <- app_assoc. assert (lit_len h (int_new b (p_len p + 1)) (tl ++ enc h v ++ rest) = LOk v rest) as Hlit.
  { unfold lit_len. change (p_len p + 1) with (p_len (lp h p)). rewrite R. destruct (N.ltb_spec MAX_LEN (lenN (enc h v))); [lia|]. apply lit_body_whole; auto. }
  split; [|split; [|split]].
  - rewrite Eb, Em. cbn [lp p_val]. destruct W as (Hl & _). replace (8 - p_len p) with (1 + (7 - p_len p)) by lia. rewrite N.pow_add_r. change (2 ^ 1) with 2. destruct h; lia.
  - unfold lit_first, lit_read. cbn [l_state l_huff]. rewrite F. exact Hlit.
  - intros Z. rewrite Z in *. unfold lit_default, lit_read. cbn [l_state]. change (N.shiftr 128 0) with 128 in F. rewrite F. exact Hlit.
  - unfold buf_literal. change (p_len p + 1) with (p_len (lp h p)). rewrite R. destruct (N.ltb_spec MAX_LEN (lenN (enc h v))); [lia|]. rewrite lenN_app. destruct (N.ltb_spec (lenN (enc h v) + lenN rest) (lenN (enc h v))); [lia|].
    assert (N.to_nat (lenN (enc h v)) = length (enc h v)) as -> by (unfold lenN; lia). rewrite firstn_app_exact, skipn_app_exact, F. unfold enc. destruct h; auto. destruct (enc_decode v B) as (e & -> & _ & ->). auto.
Qed.
Lemma wf_no : wf_lit NO_PREFIX. Proof. split; [cbn; lia|]. exists 0. split; [reflexivity | cbn; lia]. Qed.
Lemma lit_default_trip : forall h v rest, bytes_ok v -> lenN (enc h v) <= MAX_LEN -> exists w, encode_literal h NO_PREFIX v = Some w /\ lit_read lit_default (w ++ rest) = LOk v rest /\ buf_literal 0 (w ++ rest) = Good (v, rest).
Proof. intros h v rest B L. destruct (literal_first h NO_PREFIX v rest wf_no B L) as (b & tl & E & _ & _ & D & F). exists (b :: tl). split; auto. Qed.

(** *** Encoder instructions *)
Ltac bytecheck lo n := match goal with |- forall b, _ -> @?P b => 
  let H := fresh in assert (forall k, In k (seq lo n) -> P (N.of_nat k)) as H by (cbn [seq]; intros k Hk; repeat (destruct Hk as [<-|Hk]; [vm_compute; reflexivity|]); destruct Hk);
  intros b Hb; rewrite <- (N2Nat.id b); apply H; apply in_seq; lia end.
Lemma kind_static : forall b, 192 <= b < 256 -> e_kind b = Some KStatic. Proof. bytecheck 192%nat 64%nat. Qed.
Lemma kind_dynamic : forall b, 128 <= b < 192 -> e_kind b = Some KDynamic. Proof. bytecheck 128%nat 64%nat. Qed.
Lemma kind_literal : forall b, 64 <= b < 128 -> e_kind b = Some KLiteral. Proof. bytecheck 64%nat 64%nat. Qed.
Lemma kind_capacity : forall b, 32 <= b < 64 -> e_kind b = Some KCapacity. Proof. bytecheck 32%nat 32%nat. Qed.
Lemma kind_duplicate : forall b, 0 <= b < 32 -> e_kind b = Some KDuplicate. Proof. bytecheck 0%nat 32%nat. Qed.
Lemma d_ack : forall b, 128 <= b < 256 -> d_kind b = Some (GAck, int_new b 1). Proof. bytecheck 128%nat 128%nat. Qed.
Lemma d_cancel : forall b, 64 <= b < 128 -> d_kind b = Some (GCancel, int_new b 2). Proof. bytecheck 64%nat 64%nat. Qed.
Lemma d_incr : forall b, 0 <= b < 64 -> d_kind b = Some (GIncrement, int_new b 2). Proof. bytecheck 0%nat 64%nat. Qed.
Lemma wf_mkp : forall v l, 1 <= l <= 7 -> (exists q, v = q * 2 ^ (8 - l) /\ q < 2 ^ l) -> wf_prefix (mkp v l). Proof. intros v l H (q & E & Q). split; auto. exists q. auto. Qed.
Ltac wfp q := apply wf_mkp; [lia | exists q; split; [reflexivity | reflexivity]].
Definition i_fits (h : bool) (i : einstr) : Prop :=
  match i with
  | ECapacity v | EDuplicate v => v < 2 ^ 64
  | EInsertStatic x v | EInsertDynamic x v => x < 2 ^ 64 /\ bytes_ok v /\ lenN (enc h v) <= MAX_LEN
  | EInsertLiteral n v => bytes_ok n /\ lenN (enc h n) <= MAX_LEN /\ bytes_ok v /\ lenN (enc h v) <= MAX_LEN
  end.
Lemma first_range : forall p v, 1 <= p_len p <= 7 -> N.min v (first_max (p_len p)) < 2 ^ (8 - p_len p).
Proof. intros p v H. rewrite first_max_eq by lia. assert (2 ^ (8 - p_len p) <> 0) by (apply N.pow_nonzero; lia). lia. Qed.
Lemma e_trip : forall h i rest, i_fits h i -> exists w, e_marshal h i = Some w /\ w <> [] /\ e_read SInstr (w ++ rest) = EOk i rest.
Proof.
  intros h i rest F. destruct i as [v|x v|x v|n v|x]; cbn [i_fits e_marshal] in *.
  - assert (wf_prefix ENCODER_CAPACITY) as W by (wfp 1). destruct (read_int_tail _ v rest W F) as (b & tl & -> & Eb & R). eexists. split; [reflexivity|]. split; [discriminate|]. cbn [List.app e_read].
    pose proof (first_range ENCODER_CAPACITY v (proj1 W)) as Q. unfold e_first. rewrite kind_capacity; [|rewrite Eb; cbn [ENCODER_CAPACITY mkp p_val p_len] in *; change (2 ^ (8 - 3)) with 32 in Q; lia].
    unfold e_int. rewrite R. auto.
  - destruct F as (Fx & B & L). assert (wf_prefix ENCODER_INSERT_WITH_NAME_REF_STATIC) as W by (wfp 3). destruct (lit_default_trip h v rest B L) as (w & Ew & Rw & _). rewrite Ew. cbn [oapp].
    destruct (read_int_tail _ x (w ++ rest) W Fx) as (b & tl & -> & Eb & R). eexists. split; [reflexivity|]. split; [discriminate|]. cbn [List.app e_read]. rewrite <- app_assoc.
    pose proof (first_range ENCODER_INSERT_WITH_NAME_REF_STATIC x (proj1 W)) as Q. unfold e_first. rewrite kind_static; [|rewrite Eb; cbn [ENCODER_INSERT_WITH_NAME_REF_STATIC mkp p_val p_len] in *; change (2 ^ (8 - 2)) with 64 in Q; lia].
    unfold e_int. rewrite R. unfold e_lit1. rewrite Rw. auto.
  - destruct F as (Fx & B & L). assert (wf_prefix ENCODER_INSERT_WITH_NAME_REF_DYNAMIC) as W by (wfp 2). destruct (lit_default_trip h v rest B L) as (w & Ew & Rw & _). rewrite Ew. cbn [oapp].
    destruct (read_int_tail _ x (w ++ rest) W Fx) as (b & tl & -> & Eb & R). eexists. split; [reflexivity|]. split; [discriminate|]. cbn [List.app e_read]. rewrite <- app_assoc.
    pose proof (first_range ENCODER_INSERT_WITH_NAME_REF_DYNAMIC x (proj1 W)) as Q. unfold e_first. rewrite kind_dynamic; [|rewrite Eb; cbn [ENCODER_INSERT_WITH_NAME_REF_DYNAMIC mkp p_val p_len] in *; change (2 ^ (8 - 2)) with 64 in Q; lia].
    change (p_len ENCODER_INSERT_WITH_NAME_REF_STATIC) with (p_len ENCODER_INSERT_WITH_NAME_REF_DYNAMIC). unfold e_int. rewrite R. unfold e_lit1. rewrite Rw. auto.
  - destruct F as (Bn & Ln & B & L). destruct (lit_default_trip h v rest B L) as (w & Ew & Rw & _).
    assert (wf_lit ENCODER_INSERT_WITH_NAME_LITERAL) as W by (split; [cbn; lia | exists 1; split; reflexivity]).
    destruct (literal_first h _ n (w ++ rest) W Bn Ln) as (b & tl & -> & Hb & R & _). rewrite Ew. cbn [oapp]. eexists. split; [reflexivity|]. split; [discriminate|]. cbn [List.app e_read]. rewrite <- app_assoc.
    unfold e_first. rewrite kind_literal; [|cbn [ENCODER_INSERT_WITH_NAME_LITERAL mkp p_val p_len] in Hb; change (2 ^ (8 - 2)) with 64 in Hb; lia]. unfold e_lit1. rewrite R. unfold e_lit2. rewrite Rw. auto.
  - assert (wf_prefix ENCODER_DUPLICATE) as W by (wfp 0). destruct (read_int_tail _ x rest W F) as (b & tl & -> & Eb & R). eexists. split; [reflexivity|]. split; [discriminate|]. cbn [List.app e_read].
    pose proof (first_range ENCODER_DUPLICATE x (proj1 W)) as Q. unfold e_first. rewrite kind_duplicate; [|rewrite Eb; cbn [ENCODER_DUPLICATE mkp p_val p_len] in *; change (2 ^ (8 - 3)) with 32 in Q; lia].
    change (p_len ENCODER_CAPACITY) with (p_len ENCODER_DUPLICATE). unfold e_int. rewrite R. auto.
Qed.
Lemma e_lit2_pieces : forall n l a b, e_lit2 n l (a ++ b) = match e_lit2 n l a with EOk i r => EOk i (r ++ b) | EMore s => e_read s b | e => e end.
Proof. intros. unfold e_lit2. rewrite lit_pieces. destruct (lit_read l a); auto. Qed.
Lemma e_lit1_pieces : forall k i l a b, e_lit1 k i l (a ++ b) = match e_lit1 k i l a with EOk i r => EOk i (r ++ b) | EMore s => e_read s b | e => e end.
Proof. intros. unfold e_lit1. rewrite lit_pieces. destruct (lit_read l a); auto. destruct k; auto. apply e_lit2_pieces. Qed.
Lemma e_int_pieces : forall k r a b, e_int k r (a ++ b) = match e_int k r a with EOk i r => EOk i (r ++ b) | EMore s => e_read s b | e => e end.
Proof. intros. unfold e_int. rewrite int_pieces_l. destruct (int_read r a); auto. destruct k; auto; apply e_lit1_pieces. Qed.
Lemma e_pieces : forall s a b, e_read s (a ++ b) = match e_read s a with EOk i r => EOk i (r ++ b) | EMore s' => e_read s' b | e => e end.
Proof.
  intros [|k r|k i l|n l] a b; cbn [e_read]; [|apply e_int_pieces | apply e_lit1_pieces | apply e_lit2_pieces].
  destruct a as [|x a]; auto. cbn [List.app]. destruct (e_first x) as [[|k r|k i l|n l]|]; auto; [apply e_int_pieces | apply e_lit1_pieces].
Qed.
(** An instruction takes bytes. *)
Lemma lit_takes : forall l bs v r, lit_read l bs = LOk v r -> (length r <= length bs)%nat.
Proof.
  assert (forall h n got bs v r, lit_body h n got bs = LOk v r -> (length r <= length bs)%nat) as X.
  { intros h n got bs v r H. unfold lit_body in H. destruct (lenN _ =? n); [|discriminate]. destruct h; [destruct (huffman_decode _); try discriminate H|]; injection H as <- <-; rewrite skipn_length; lia. }
  assert (forall h rd bs v r, lit_len h rd bs = LOk v r -> (length r <= length bs)%nat) as Y.
  { intros h rd bs v r H. unfold lit_len in H. destruct (int_read rd bs) as [n rest| | |] eqn:E; try discriminate H. destruct (int_len _ _ _ _ E) as (u & ->). destruct (MAX_LEN <? n); [discriminate|]. apply X in H. rewrite app_length. lia. }
  intros [[|rd|n got] h] bs v r H; unfold lit_read in H; cbn [l_state l_huff] in H; [destruct bs; [discriminate|]; apply Y in H; cbn; lia | eauto | eauto].
Qed.
Lemma e_takes : forall s bs i r, e_read s bs = EOk i r -> (length r <= length bs)%nat /\ (s = SInstr -> (length r < length bs)%nat).
Proof.
  assert (forall n l bs i r, e_lit2 n l bs = EOk i r -> (length r <= length bs)%nat) as X2.
  { intros n l bs i r H. unfold e_lit2 in H. destruct (lit_read l bs) eqn:E; try discriminate H. injection H as <- <-. eapply lit_takes; eauto. }
  assert (forall k x l bs i r, e_lit1 k x l bs = EOk i r -> (length r <= length bs)%nat) as X1.
  { intros k x l bs i r H. unfold e_lit1 in H. destruct (lit_read l bs) eqn:E; try discriminate H. apply lit_takes in E. destruct k; try discriminate H; try (injection H as <- <-; auto; fail). apply X2 in H. lia. }
  assert (forall k rd bs i r, e_int k rd bs = EOk i r -> (length r <= length bs)%nat) as X0.
  { intros k rd bs i r H. unfold e_int in H. destruct (int_read rd bs) as [n rest| | |] eqn:E; try discriminate H. destruct (int_len _ _ _ _ E) as (u & ->). rewrite app_length.
    destruct k; try discriminate H; try (injection H as <- <-; lia); apply X1 in H; lia. }
  intros [|k rd|k x l|n l] bs i r H; cbn [e_read] in H; try (split; [eauto | discriminate]; fail).
  destruct bs as [|b bs]; [discriminate|]. assert (length r <= length bs)%nat; [|cbn; lia]. destruct (e_first b) as [[|k rd|k x l|n l]|]; try discriminate H; eauto.
Qed.
Lemma e_fuel : forall f1 f2 s bs, (length bs + (match s with SInstr => 1 | _ => 2 end) <= f1)%nat -> (length bs + (match s with SInstr => 1 | _ => 2 end) <= f2)%nat -> e_all f1 s bs = e_all f2 s bs.
Proof.
  induction f1 as [|f1 IH]; intros f2 s bs H1 H2; [destruct s; lia|]. destruct f2 as [|f2]; [destruct s; lia|]. cbn [e_all]. destruct (e_read s bs) as [i r| | |] eqn:E; auto.
  apply e_takes in E. destruct E as (E1 & E2). rewrite (IH f2 SInstr r); auto; destruct s; try specialize (E2 eq_refl); lia.
Qed.
Definition e_then (x : list einstr * estate * fin) (b : list N) : list einstr * estate * fin :=
  match x with (l, s, FOk) => let '(l', s', e) := e_feed s b in (l ++ l', s', e) | _ => x end.
Lemma e_feed_eq : forall s bs, e_feed s bs = match e_read s bs with
  | EOk i rest => let '(l, s', e) := e_feed SInstr rest in (i :: l, s', e) | EMore s' => ([], s', FOk) | EErr => ([], SInstr, FErr) | EPanic => ([], SInstr, FPanic) end.
Proof.
  intros s bs. unfold e_feed at 1. replace (length bs + 2)%nat with (S (length bs + 1)) by lia. cbn [e_all]. destruct (e_read s bs) as [i r| | |] eqn:E; auto.
  apply e_takes in E. destruct E as (E & _). unfold e_feed. rewrite (e_fuel (length bs + 1) (length r + 2) SInstr r); auto; lia.
Qed.
Lemma e_feed_pieces : forall n s a b, (length a <= n)%nat -> e_feed s (a ++ b) = e_then (e_feed s a) b.
Proof.
  assert (forall n a b, (length a <= n)%nat -> e_feed SInstr (a ++ b) = e_then (e_feed SInstr a) b) as X.
  { induction n as [|n IH]; intros a b L.
    - destruct a; [|cbn in L; lia]. cbn [List.app]. rewrite (e_feed_eq SInstr []). cbn [e_read e_then]. destruct (e_feed SInstr b) as ((l, s'), e). auto.
    - rewrite e_feed_eq, (e_feed_eq SInstr a), e_pieces. destruct (e_read SInstr a) as [i r|s'| |] eqn:E; auto.
      + apply e_takes in E. destruct E as (_ & E). specialize (E eq_refl). rewrite IH by lia. destruct (e_feed SInstr r) as ((l, s'), e). unfold e_then. destruct e; auto. destruct (e_feed s' b) as ((l', s2), e'). auto.
      + cbn [e_then]. rewrite <- e_feed_eq. destruct (e_feed s' b) as ((l, s2), e). auto. }
  intros n s a b _. rewrite e_feed_eq, (e_feed_eq s a), e_pieces. destruct (e_read s a) as [i r|s'| |] eqn:E; auto.
  - rewrite (X (length r)) by auto. destruct (e_feed SInstr r) as ((l, s'), e). unfold e_then. destruct e; auto. destruct (e_feed s' b) as ((l', s2), e'). auto.
  - cbn [e_then]. rewrite <- e_feed_eq. destruct (e_feed s' b) as ((l, s2), e). auto.
Qed.
(** Feeding pieces one after the other. *)
Fixpoint e_feeds (s : estate) (ps : list (list N)) : list einstr * estate * fin :=
  match ps with [] => ([], s, FOk) | a :: ps' => match e_feed s a with (l, s', FOk) => let '(l', s2, e) := e_feeds s' ps' in (l ++ l', s2, e) | x => x end end.
Lemma e_feeds_concat : forall ps s, e_feeds s ps = match ps with [] => ([], s, FOk) | _ => e_feed s (concat ps) end.
Proof.
  induction ps as [|a ps IH]; intros s; auto. cbn [e_feeds concat]. rewrite (e_feed_pieces (length a)) by auto. unfold e_then. destruct (e_feed s a) as ((l, s'), e) eqn:E. destruct e; auto. rewrite IH.
  destruct ps; auto. cbn [concat]. assert (e_feed s' [] = ([], s', FOk)) as X; [|rewrite X; auto].
  pose proof (e_feed_pieces (length a) s a [] (le_n _)) as P. rewrite app_nil_r, E in P. unfold e_then in P. destruct (e_feed s' []) as ((l1, s1), e1). apply pair_equal_spec in P. destruct P as (P & ->). apply pair_equal_spec in P. destruct P as (P & ->).
  rewrite <- (app_nil_r l) in P at 1. apply app_inv_head in P. rewrite <- P. auto.
Qed.
Fixpoint e_marshals (h : bool) (l : list einstr) : option (list N) := match l with [] => Some [] | i :: l' => oapp (e_marshal h i) (e_marshals h l') end.
Lemma e_stream : forall h l, Forall (i_fits h) l -> exists w, e_marshals h l = Some w /\ e_feed SInstr w = (l, SInstr, FOk).
Proof.
  intros h l. induction l as [|i l IH]; intros F; [exists []; auto|]. inversion F; subst. destruct (IH H2) as (w & E & R). destruct (e_trip h i w H1) as (wi & Ei & _ & Ri). cbn [e_marshals]. rewrite Ei, E. cbn [oapp].
  eexists. split; [reflexivity|]. rewrite e_feed_eq, Ri, R. auto.
Qed.
(** *** Nothing panics *)
Definition l_ok (l : lreader) : Prop := match l_state l with LHuff => True | LLen r => i_ok r | LLit n got => lenN got <= n <= MAX_LEN /\ bytes_ok got end.
Lemma decode_nopanic : forall l, huffman_decode l <> Panic.
Proof.
  intros [|x l]; [discriminate|]. unfold huffman_decode. destruct (start_ok (x :: l) ltac:(discriminate)) as (O & A & L). eapply loop_nopanic; eauto. lia.
Qed.
Lemma decode_sound : forall e s, huffman_decode e = Good s -> bytes_ok s /\ is_code s e.
Proof.
  intros [|x l] s H; [injection H as <-; split; [constructor | exists 0%nat; split; [lia | auto]]|]. unfold huffman_decode in H. destruct (start_ok (x :: l) ltac:(discriminate)) as (O & A & L).
  destruct (loop_sound _ _ _ [] O A H) as (B & k & K & E). split; auto. exists k. split; [exact K|]. unfold at_bits in A. cbn [b_in List.app] in A. rewrite A. exact E.
Qed.
Lemma code_len : forall s, bytes_ok s -> (5 * length s <= length (flat_map code s))%nat.
Proof.
  induction s as [|c s IH]; intros B; auto. inversion B; subst. cbn [flat_map length]. rewrite app_length. specialize (IH H2). unfold code at 1. destruct (table_some c H1) as ((v, n) & E). rewrite E. apply table_entry in E. rewrite bits_len. lia.
Qed.
Lemma decode_len : forall e s, huffman_decode e = Good s -> 5 * lenN s <= 8 * lenN e.
Proof. intros e s H. apply decode_sound in H. destruct H as (B & k & K & E). apply code_len in B. apply (f_equal (@length _)) in E. rewrite bytes_bits_len, app_length in E. unfold lenN. lia. Qed.
(** The bytes of a string as read. *)
Definition v_ok (v : list N) : Prop := bytes_ok v /\ 5 * lenN v <= 8 * MAX_LEN.
Lemma lit_body_ok : forall h n got bs, lenN got <= n <= MAX_LEN -> bytes_ok got -> bytes_ok bs -> match lit_body h n got bs with LOk v r => v_ok v /\ bytes_ok r | LMore l => l_ok l | LErr => True | LPanic => False end.
Proof.
  intros h n got bs Hn Bg B. unfold lit_body. set (k := N.min (n - lenN got) (lenN bs)). 
  assert (bytes_ok (got ++ firstn (N.to_nat k) bs)) as B1 by (apply bytes_ok_app; split; auto; apply bytes_ok_firstn; auto). assert (bytes_ok (skipn (N.to_nat k) bs)) as B2 by (apply bytes_ok_skipn; auto).
  assert (lenN (got ++ firstn (N.to_nat k) bs) <= n) as L by (rewrite lenN_app; unfold lenN at 2; rewrite firstn_length; unfold k, lenN in *; lia).
  destruct (N.eqb_spec (lenN (got ++ firstn (N.to_nat k) bs)) n) as [E|E]; [|split; [lia | auto]]. destruct h; [|split; auto; split; auto; lia].
  destruct (huffman_decode _) as [v| |] eqn:D; auto; [|eapply decode_nopanic; eauto]. split; auto. split; [apply decode_sound in D; tauto|]. apply decode_len in D. lia.
Qed.
Lemma lit_ok : forall l bs, l_ok l -> bytes_ok bs -> match lit_read l bs with LOk v r => v_ok v /\ bytes_ok r | LMore l => l_ok l | LErr => True | LPanic => False end.
Proof.
  assert (forall h r bs, i_ok r -> bytes_ok bs -> match lit_len h r bs with LOk v r => v_ok v /\ bytes_ok r | LMore l => l_ok l | LErr => True | LPanic => False end) as X.
  { intros h r bs O B. unfold lit_len. pose proof (int_read_ok bs r O B) as Q. destruct (int_read r bs) as [n rest|r'| |]; auto; [|apply Q]. destruct (N.ltb_spec MAX_LEN n); auto. destruct Q as (u & ->). apply bytes_ok_app in B. apply lit_body_ok; [cbn; lia | constructor | tauto]. }
  intros [[|r|n got] h] bs O B; unfold lit_read; unfold l_ok in O; cbn [l_state l_huff] in *; [|apply X; auto | apply lit_body_ok; tauto]. destruct bs as [|b bs]; [cbn; auto|]. inversion B; subst. apply X; auto. apply int_new_ok.
Qed.
Definition s_ok (s : estate) : Prop :=
  match s with SInstr => True | SInt k r => k <> KLiteral /\ i_ok r | SLit1 k _ l => (k = KStatic \/ k = KDynamic \/ k = KLiteral) /\ l_ok l | SLit2 n l => v_ok n /\ l_ok l end.
Definition in_ok (i : einstr) : Prop := match i with ECapacity _ | EDuplicate _ => True | EInsertStatic _ v | EInsertDynamic _ v => v_ok v | EInsertLiteral n v => v_ok n /\ v_ok v end.
Lemma e_read_ok : forall s bs, s_ok s -> bytes_ok bs -> match e_read s bs with EOk i r => in_ok i /\ bytes_ok r | EMore s' => s_ok s' | EErr => True | EPanic => False end.
Proof.
  assert (forall n l bs, v_ok n -> l_ok l -> bytes_ok bs -> match e_lit2 n l bs with EOk i r => in_ok i /\ bytes_ok r | EMore s' => s_ok s' | EErr => True | EPanic => False end) as X2.
  { intros n l bs V O B. unfold e_lit2. pose proof (lit_ok l bs O B) as Q. destruct (lit_read l bs); auto; cbn; tauto. }
  assert (forall k i l bs, (k = KStatic \/ k = KDynamic \/ k = KLiteral) -> l_ok l -> bytes_ok bs -> match e_lit1 k i l bs with EOk i r => in_ok i /\ bytes_ok r | EMore s' => s_ok s' | EErr => True | EPanic => False end) as X1.
  { intros k i l bs V O B. unfold e_lit1. pose proof (lit_ok l bs O B) as Q. destruct (lit_read l bs); auto; [|cbn; tauto]. destruct V as [->|[->| ->]]; auto. apply X2; try tauto. exact Logic.I. }
  assert (forall k r bs, k <> KLiteral -> i_ok r -> bytes_ok bs -> match e_int k r bs with EOk i r => in_ok i /\ bytes_ok r | EMore s' => s_ok s' | EErr => True | EPanic => False end) as X0.
  { intros k r bs V O B. unfold e_int. pose proof (int_read_ok bs r O B) as Q. destruct (int_read r bs) as [n rest| | |]; auto; [|cbn; tauto]. destruct Q as (u & ->). apply bytes_ok_app in B. destruct k; try (cbn; tauto); try congruence; apply X1; try tauto; exact Logic.I. }
  intros [|k r|k i l|n l] bs O B; cbn [e_read s_ok] in *; [|apply X0; tauto | apply X1; tauto | apply X2; tauto].
  destruct bs as [|b bs]; [exact Logic.I|]. inversion B; subst. unfold e_first.
  assert (exists k, e_kind b = Some k) as (k & ->).
  { unfold byte_ok in *. destruct (N.lt_ge_cases b 32); [rewrite kind_duplicate by lia; eauto|]. destruct (N.lt_ge_cases b 64); [rewrite kind_capacity by lia; eauto|]. destruct (N.lt_ge_cases b 128); [rewrite kind_literal by lia; eauto|].
    destruct (N.lt_ge_cases b 192); [rewrite kind_dynamic by lia; eauto | rewrite kind_static by lia; eauto]. }
  destruct k; try (apply X0; [discriminate | apply int_new_ok | auto]). apply X1; auto. apply int_new_ok.
Qed.
Lemma e_feed_ok : forall n s bs, (length bs <= n)%nat -> s_ok s -> bytes_ok bs -> match e_feed s bs with (l, s', e) => Forall in_ok l /\ s_ok s' /\ e <> FPanic end.
Proof.
  assert (forall n bs, (length bs <= n)%nat -> bytes_ok bs -> match e_feed SInstr bs with (l, s', e) => Forall in_ok l /\ s_ok s' /\ e <> FPanic end) as X.
  { induction n as [|n IH]; intros bs L B; rewrite e_feed_eq; pose proof (e_read_ok SInstr bs Logic.I B) as Q; destruct (e_read SInstr bs) as [i r|s'| |] eqn:E; try (destruct Q; fail); try (splits; auto; try discriminate; constructor; fail).
    - apply e_takes in E. destruct E as (_ & E). specialize (E eq_refl). lia.
    - apply e_takes in E. destruct E as (_ & E). specialize (E eq_refl). specialize (IH r ltac:(lia) (proj2 Q)). destruct (e_feed SInstr r) as ((l, s'), e). destruct IH as (I1 & I2 & I3). splits; auto. constructor; tauto. }
  intros n s bs _ O B. rewrite e_feed_eq. pose proof (e_read_ok s bs O B) as Q. destruct (e_read s bs) as [i r|s'| |] eqn:E; try (destruct Q; fail); try (splits; auto; try discriminate; constructor; fail).
  specialize (X (length r) r (le_n _) (proj2 Q)). destruct (e_feed SInstr r) as ((l, s'), e). destruct X as (I1 & I2 & I3). splits; auto. constructor; tauto.
Qed.
Lemma e_feeds_ok : forall ps s, s_ok s -> Forall bytes_ok ps -> match e_feeds s ps with (l, s', e) => Forall in_ok l /\ s_ok s' /\ e <> FPanic end.
Proof.
  induction ps as [|a ps IH]; intros s O B; cbn [e_feeds]; [splits; auto; discriminate|]. inversion B; subst. pose proof (e_feed_ok (length a) s a (le_n _) O H1) as Q. destruct (e_feed s a) as ((l, s'), e).
  destruct Q as (Q1 & Q2 & Q3). destruct e; [|splits; auto; discriminate | congruence]. specialize (IH s' Q2 H2). destruct (e_feeds s' ps) as ((l', s2), e'). destruct IH as (I1 & I2 & I3). splits; auto. apply Forall_app. auto.
Qed.

(** *** Decoder instructions *)
Definition d_fits (i : dinstr) : Prop := match i with DIncrement v | DAck v | DCancel v => v < 2 ^ 64 end.
Lemma d_trip : forall i rest, d_fits i -> d_marshal i <> [] /\ d_read DInstr (d_marshal i ++ rest) = DOk i rest.
Proof.
  intros i rest F. destruct i as [v|v|v]; cbn [d_fits d_marshal] in *.
  - assert (wf_prefix DECODER_INSERT_COUNT_INCREMENT) as W by (wfp 0). destruct (read_int_tail _ v rest W F) as (b & tl & -> & Eb & R). split; [discriminate|]. cbn [List.app d_read].
    pose proof (first_range DECODER_INSERT_COUNT_INCREMENT v (proj1 W)) as Q. rewrite d_incr; [|rewrite Eb; cbn [DECODER_INSERT_COUNT_INCREMENT mkp p_val p_len] in *; change (2 ^ (8 - 2)) with 64 in Q; lia].
    unfold d_int. change 2 with (p_len DECODER_INSERT_COUNT_INCREMENT). rewrite R. auto.
  - assert (wf_prefix DECODER_HEADER_ACK) as W by (wfp 1). destruct (read_int_tail _ v rest W F) as (b & tl & -> & Eb & R). split; [discriminate|]. cbn [List.app d_read].
    pose proof (first_range DECODER_HEADER_ACK v (proj1 W)) as Q. rewrite d_ack; [|rewrite Eb; cbn [DECODER_HEADER_ACK mkp p_val p_len] in *; change (2 ^ (8 - 1)) with 128 in Q; lia].
    unfold d_int. change 1 with (p_len DECODER_HEADER_ACK). rewrite R. auto.
  - assert (wf_prefix DECODER_STREAM_CANCELLATION) as W by (wfp 1). destruct (read_int_tail _ v rest W F) as (b & tl & -> & Eb & R). split; [discriminate|]. cbn [List.app d_read].
    pose proof (first_range DECODER_STREAM_CANCELLATION v (proj1 W)) as Q. rewrite d_cancel; [|rewrite Eb; cbn [DECODER_STREAM_CANCELLATION mkp p_val p_len] in *; change (2 ^ (8 - 2)) with 64 in Q; lia].
    unfold d_int. change 2 with (p_len DECODER_STREAM_CANCELLATION). rewrite R. auto.
Qed.
Lemma d_int_pieces : forall k r a b, d_int k r (a ++ b) = match d_int k r a with DOk i r => DOk i (r ++ b) | DMore s => d_read s b | e => e end.
Proof. intros. unfold d_int. rewrite int_pieces_l. destruct (int_read r a); auto. Qed.
Lemma d_pieces : forall s a b, d_read s (a ++ b) = match d_read s a with DOk i r => DOk i (r ++ b) | DMore s' => d_read s' b | e => e end.
Proof. intros [|k r] a b; cbn [d_read]; [|apply d_int_pieces]. destruct a as [|x a]; auto. cbn [List.app]. destruct (d_kind x) as [(k, r)|]; auto. apply d_int_pieces. Qed.
Lemma d_takes : forall s bs i r, d_read s bs = DOk i r -> (length r <= length bs)%nat /\ (s = DInstr -> (length r < length bs)%nat).
Proof.
  assert (forall k rd bs i r, d_int k rd bs = DOk i r -> (length r <= length bs)%nat) as X0.
  { intros k rd bs i r H. unfold d_int in H. destruct (int_read rd bs) as [n rest| | |] eqn:E; try discriminate H. destruct (int_len _ _ _ _ E) as (u & ->). rewrite app_length. injection H as <- <-. lia. }
  intros [|k rd] bs i r H; cbn [d_read] in H; [|split; [eauto | discriminate]].
  destruct bs as [|b bs]; [discriminate|]. assert (length r <= length bs)%nat; [|cbn; lia]. destruct (d_kind b) as [(k, rd)|]; try discriminate H; eauto.
Qed.
Lemma d_fuel : forall f1 f2 s bs, (length bs + (match s with DInstr => 1 | _ => 2 end) <= f1)%nat -> (length bs + (match s with DInstr => 1 | _ => 2 end) <= f2)%nat -> d_all f1 s bs = d_all f2 s bs.
Proof.
  induction f1 as [|f1 IH]; intros f2 s bs H1 H2; [destruct s; lia|]. destruct f2 as [|f2]; [destruct s; lia|]. cbn [d_all]. destruct (d_read s bs) as [i r| | |] eqn:E; auto.
  apply d_takes in E. destruct E as (E1 & E2). rewrite (IH f2 DInstr r); auto; destruct s; try specialize (E2 eq_refl); lia.
Qed.
Definition d_then (x : list dinstr * dstate * fin) (b : list N) : list dinstr * dstate * fin :=
  match x with (l, s, FOk) => let '(l', s', e) := d_feed s b in (l ++ l', s', e) | _ => x end.
Lemma d_feed_eq : forall s bs, d_feed s bs = match d_read s bs with
  | DOk i rest => let '(l, s', e) := d_feed DInstr rest in (i :: l, s', e) | DMore s' => ([], s', FOk) | DErr => ([], DInstr, FErr) | DPanic => ([], DInstr, FPanic) end.
Proof.
  intros s bs. unfold d_feed at 1. replace (length bs + 2)%nat with (S (length bs + 1)) by lia. cbn [d_all]. destruct (d_read s bs) as [i r| | |] eqn:E; auto.
  apply d_takes in E. destruct E as (E & _). unfold d_feed. rewrite (d_fuel (length bs + 1) (length r + 2) DInstr r); auto; lia.
Qed.
Lemma d_feed_pieces : forall n s a b, (length a <= n)%nat -> d_feed s (a ++ b) = d_then (d_feed s a) b.
Proof.
  assert (forall n a b, (length a <= n)%nat -> d_feed DInstr (a ++ b) = d_then (d_feed DInstr a) b) as X.
  { induction n as [|n IH]; intros a b L.
    - destruct a; [|cbn in L; lia]. cbn [List.app]. rewrite (d_feed_eq DInstr []). cbn [d_read d_then]. destruct (d_feed DInstr b) as ((l, s'), e). auto.
    - rewrite d_feed_eq, (d_feed_eq DInstr a), d_pieces. destruct (d_read DInstr a) as [i r|s'| |] eqn:E; auto.
      + apply d_takes in E. destruct E as (_ & E). specialize (E eq_refl). rewrite IH by lia. destruct (d_feed DInstr r) as ((l, s'), e). unfold d_then. destruct e; auto. destruct (d_feed s' b) as ((l', s2), e'). auto.
      + cbn [d_then]. rewrite <- d_feed_eq. destruct (d_feed s' b) as ((l, s2), e). auto. }
  intros n s a b _. rewrite d_feed_eq, (d_feed_eq s a), d_pieces. destruct (d_read s a) as [i r|s'| |] eqn:E; auto.
  - rewrite (X (length r)) by auto. destruct (d_feed DInstr r) as ((l, s'), e). unfold d_then. destruct e; auto. destruct (d_feed s' b) as ((l', s2), e'). auto.
  - cbn [d_then]. rewrite <- d_feed_eq. destruct (d_feed s' b) as ((l, s2), e). auto.
Qed.
Fixpoint d_feeds (s : dstate) (ps : list (list N)) : list dinstr * dstate * fin :=
  match ps with [] => ([], s, FOk) | a :: ps' => match d_feed s a with (l, s', FOk) => let '(l', s2, e) := d_feeds s' ps' in (l ++ l', s2, e) | x => x end end.
Lemma d_feeds_concat : forall ps s, d_feeds s ps = match ps with [] => ([], s, FOk) | _ => d_feed s (concat ps) end.
Proof.
  induction ps as [|a ps IH]; intros s; auto. cbn [d_feeds concat]. rewrite (d_feed_pieces (length a)) by auto. unfold d_then. destruct (d_feed s a) as ((l, s'), e) eqn:E. destruct e; auto. rewrite IH.
  destruct ps; auto. cbn [concat]. assert (d_feed s' [] = ([], s', FOk)) as X; [|rewrite X; auto].
  pose proof (d_feed_pieces (length a) s a [] (le_n _)) as P. rewrite app_nil_r, E in P. unfold d_then in P. destruct (d_feed s' []) as ((l1, s1), e1). apply pair_equal_spec in P. destruct P as (P & ->). apply pair_equal_spec in P. destruct P as (P & ->).
  rewrite <- (app_nil_r l) in P at 1. apply app_inv_head in P. rewrite <- P. auto.
Qed.
Lemma d_stream : forall l, Forall d_fits l -> d_feed DInstr (flat_map d_marshal l) = (l, DInstr, FOk).
Proof. induction l as [|i l IH]; intros F; auto. inversion F; subst. cbn [flat_map]. destruct (d_trip i (flat_map d_marshal l) H1) as (_ & R). rewrite d_feed_eq, R, IH; auto. Qed.
Definition ds_ok (s : dstate) : Prop := match s with DInstr => True | DInt _ r => i_ok r end.
Lemma d_read_ok : forall s bs, ds_ok s -> bytes_ok bs -> match d_read s bs with DOk i r => bytes_ok r | DMore s' => ds_ok s' | DErr => True | DPanic => False end.
Proof.
  assert (forall k r bs, i_ok r -> bytes_ok bs -> match d_int k r bs with DOk i r => bytes_ok r | DMore s' => ds_ok s' | DErr => True | DPanic => False end) as X0.
  { intros k r bs O B. unfold d_int. pose proof (int_read_ok bs r O B) as Q. destruct (int_read r bs) as [n rest| | |]; auto; [|cbn; tauto]. destruct Q as (u & ->). apply bytes_ok_app in B. tauto. }
  intros [|k r] bs O B; cbn [d_read ds_ok] in *; [|apply X0; tauto]. destruct bs as [|b bs]; [exact Logic.I|]. inversion B; subst.
  assert (exists k l, d_kind b = Some (k, int_new b l)) as (k & l & ->).
  { unfold byte_ok in *. destruct (N.lt_ge_cases b 64); [rewrite d_incr by lia; eauto|]. destruct (N.lt_ge_cases b 128); [rewrite d_cancel by lia; eauto | rewrite d_ack by lia; eauto]. }
  apply X0; auto. apply int_new_ok.
Qed.
Lemma d_feed_ok : forall n s bs, (length bs <= n)%nat -> ds_ok s -> bytes_ok bs -> match d_feed s bs with (l, s', e) => ds_ok s' /\ e <> FPanic end.
Proof.
  assert (forall n bs, (length bs <= n)%nat -> bytes_ok bs -> match d_feed DInstr bs with (l, s', e) => ds_ok s' /\ e <> FPanic end) as X.
  { induction n as [|n IH]; intros bs L B; rewrite d_feed_eq; pose proof (d_read_ok DInstr bs Logic.I B) as Q; destruct (d_read DInstr bs) as [i r|s'| |] eqn:E; try (destruct Q; fail); try (split; [cbn; auto | discriminate]; fail).
    - apply d_takes in E. destruct E as (_ & E). specialize (E eq_refl). lia.
    - apply d_takes in E. destruct E as (_ & E). specialize (E eq_refl). specialize (IH r ltac:(lia) Q). destruct (d_feed DInstr r) as ((l, s'), e). exact IH. }
  intros n s bs _ O B. rewrite d_feed_eq. pose proof (d_read_ok s bs O B) as Q. destruct (d_read s bs) as [i r|s'| |] eqn:E; try (destruct Q; fail); try (split; [cbn; auto | discriminate]; fail).
  specialize (X (length r) r (le_n _) Q). destruct (d_feed DInstr r) as ((l, s'), e). exact X.
Qed.
Lemma d_feeds_ok : forall ps s, ds_ok s -> Forall bytes_ok ps -> match d_feeds s ps with (l, s', e) => ds_ok s' /\ e <> FPanic end.
Proof.
  induction ps as [|a ps IH]; intros s O B; cbn [d_feeds]; [split; [auto | discriminate]|]. inversion B; subst. pose proof (d_feed_ok (length a) s a (le_n _) O H1) as Q. destruct (d_feed s a) as ((l, s'), e).
  destruct Q as (Q1 & Q2). destruct e; [|split; [auto | discriminate] | congruence]. specialize (IH s' Q1 H2). destruct (d_feeds s' ps) as ((l', s2), e'). exact IH.
Qed.
