(** Huffman codes: encoding packs codes, decoding unpacks them. *)
From Verif Require Import Base Lib QpTables QiModel QiSpec.
From Coq Require Import Lia.
Open Scope N_scope.
Open Scope list_scope.
Import ListNotations.

(** *** Bits *)
Lemma bits_len : forall n v, length (bits n v) = n. Proof. induction n; cbn; auto. Qed.
Lemma bits_ext : forall n a b, (forall i, i < N.of_nat n -> N.testbit a i = N.testbit b i) -> bits n a = bits n b.
Proof. induction n; intros a b H; cbn; auto. f_equal; [apply H; lia | apply IHn; intros; apply H; lia]. Qed.
Lemma bits_split : forall n m v, bits (n + m) v = bits n (N.shiftr v (N.of_nat m)) ++ bits m v.
Proof. induction n; intros m v; cbn; auto. rewrite IHn. f_equal. rewrite N.shiftr_spec by lia. f_equal. lia. Qed.
Lemma bits_mod : forall n v, bits n (v mod 2 ^ N.of_nat n) = bits n v.
Proof. intros n v. apply bits_ext. intros i H. apply N.mod_pow2_bits_low. auto. Qed.
Lemma bits_mul_add : forall n m q v, v < 2 ^ N.of_nat m -> bits (n + m) (q * 2 ^ N.of_nat m + v) = bits n q ++ bits m v.
Proof.
  intros n m q v H. rewrite bits_split, N.shiftr_div_pow2. f_equal.
  - f_equal. rewrite N.div_add_l by (apply N.pow_nonzero; lia). rewrite N.div_small by auto. lia.
  - rewrite <- (bits_mod m (_ + _)). rewrite N.add_comm, N.mod_add by (apply N.pow_nonzero; lia). rewrite N.mod_small by auto. auto.
Qed.
Lemma bits_ones : forall n, bits n (2 ^ N.of_nat n - 1) = repeat true n.
Proof.
  intros n. assert (forall k, (k <= n)%nat -> bits k (2 ^ N.of_nat n - 1) = repeat true k) as H; [|apply H; auto].
  induction k; intros L; cbn; auto. rewrite IHk by lia. f_equal. rewrite <- N.pred_sub. rewrite <- N.ones_equiv. apply N.ones_spec_low. lia.
Qed.
Lemma bits_inj : forall n a b, a < 2 ^ N.of_nat n -> b < 2 ^ N.of_nat n -> bits n a = bits n b -> a = b.
Proof.
  intros n a b A B H. apply N.bits_inj. intros i. destruct (N.lt_ge_cases i (N.of_nat n)) as [L|L].
  - clear A B. revert H i L. induction n as [|n IH]; cbn; intros H i L; [lia|]. injection H as H1 H2. destruct (N.eq_dec i (N.of_nat n)) as [->|D]; auto. apply IH; auto. lia.
  - assert (forall x, x < 2 ^ N.of_nat n -> N.testbit x i = false) as Z; [|rewrite !Z; auto].
    intros x Hx. destruct (N.eq_dec x 0) as [->|D]; [apply N.bits_0|]. apply N.bits_above_log2. apply N.log2_lt_pow2 in Hx; lia.
Qed.
Lemma bytes_bits_app : forall a b, bytes_bits (a ++ b) = bytes_bits a ++ bytes_bits b. Proof. intros. apply flat_map_app. Qed.
Lemma bytes_bits_len : forall l, length (bytes_bits l) = (8 * length l)%nat.
Proof. induction l as [|a l IH]; auto. cbn [bytes_bits flat_map]. rewrite app_length, bits_len. unfold bytes_bits in IH. rewrite IH. cbn. lia. Qed.
Lemma bytes_bits_inj : forall a b, bytes_ok a -> bytes_ok b -> bytes_bits a = bytes_bits b -> a = b.
Proof.
  induction a as [|x a IH]; intros [|y b] A B H; auto.
  - apply (f_equal (@length _)) in H. rewrite !bytes_bits_len in H. cbn in H. lia.
  - apply (f_equal (@length _)) in H. rewrite !bytes_bits_len in H. cbn in H. lia.
  - inversion A as [|? ? HA1 HA2]; inversion B as [|? ? HB1 HB2]; subst. change (bits 8 x ++ bytes_bits a = bits 8 y ++ bytes_bits b) in H.
    assert (bits 8 x = bits 8 y /\ bytes_bits a = bytes_bits b) as (E1 & E2).
    { apply (f_equal (firstn 8)) in H as H1. apply (f_equal (skipn 8)) in H as H2.
      rewrite <- (bits_len 8 x) in H1 at 1. rewrite firstn_app_exact in H1. rewrite <- (bits_len 8 y) in H1 at 2. rewrite firstn_app_exact in H1.
      rewrite <- (bits_len 8 x) in H2 at 1. rewrite skipn_app_exact in H2. rewrite <- (bits_len 8 y) in H2. rewrite skipn_app_exact in H2. auto. }
    f_equal; auto. apply (bits_inj 8); auto.
Qed.
Lemma lor_shift : forall q v k, v < 2 ^ k -> N.lor (q * 2 ^ k) v = q * 2 ^ k + v.
Proof.
  intros q v k H. symmetry. assert (N.land (q * 2 ^ k) v = 0) as Z.
  { apply N.bits_inj. intros i. rewrite N.land_spec, N.bits_0. destruct (N.lt_ge_cases i k).
    - rewrite N.mul_pow2_bits_low by auto. auto.
    - destruct (N.eq_dec v 0) as [->|D]; [rewrite N.bits_0; apply andb_false_r|]. rewrite (N.bits_above_log2 v) by (apply N.log2_lt_pow2 in H; lia). apply andb_false_r. }
  rewrite <- N.lxor_lor by auto. apply N.add_nocarry_lxor. auto.
Qed.

Lemma fit : forall q x A B, q < A -> x < B -> A * B = 256 -> q * B + x < 256.
Proof. intros q x A B H1 H2 H3. assert (q + 1 <= A) as H by lia. apply (N.mul_le_mono_r _ _ B) in H. rewrite H3, N.mul_add_distr_r in H. lia. Qed.

(** *** Encoding *)
(** The code lengths and values fit. *)
Definition entry_ok (e : N * N) : bool := (5 <=? snd e) && (snd e <=? 30) && (fst e <? 2 ^ snd e).
Lemma table_ok : forallb entry_ok HUFFMAN = true. Proof. vm_compute. reflexivity. Qed.
Lemma table_entry : forall c v n, nth_error HUFFMAN c = Some (v, n) -> 5 <= n <= 30 /\ v < 2 ^ n.
Proof.
  intros c v n H. pose proof table_ok as T. rewrite forallb_forall in T. apply nth_error_In in H. apply T in H. unfold entry_ok in H. cbn in H.
  apply andb_true_iff in H. destruct H as (H & H3). apply andb_true_iff in H. destruct H as (H1 & H2).
  apply N.leb_le in H1, H2. apply N.ltb_lt in H3. auto.
Qed.
Lemma table_some : forall c, c < 256 -> exists e, nth_error HUFFMAN (N.to_nat c) = Some e.
Proof.
  intros c H. destruct (nth_error HUFFMAN (N.to_nat c)) as [e|] eqn:E; eauto. apply nth_error_None in E.
  assert (length HUFFMAN = 257%nat) as L by (vm_compute; reflexivity). rewrite L in E. lia.
Qed.
Definition st_ok (s : list N * N * N) (b : list bool) : Prop :=
  let '(out, room, saved) := s in 1 <= room <= 8 /\ bytes_ok out /\ exists q, saved = q * 2 ^ room /\ q < 2 ^ (8 - room) /\ b = bytes_bits out ++ bits (N.to_nat (8 - room)) q.
Lemma pow_split : forall a b, a <= b -> 2 ^ b = 2 ^ (b - a) * 2 ^ a. Proof. intros. rewrite <- N.pow_add_r. f_equal. lia. Qed.
Lemma full_bytes_spec : forall f len v out, len < 8 * N.of_nat f + 8 -> bytes_ok out -> exists out' len', full_bytes f len v out = (out', len') /\ len' < 8 /\ bytes_ok out' /\
  bytes_bits out' ++ bits (N.to_nat len') v = bytes_bits out ++ bits (N.to_nat len) v.
Proof.
  induction f as [|f IH]; intros len v out L B; cbn [full_bytes]; [exists out, len; split; [auto|]; split; [lia|split; auto]|].
  destruct (N.leb_spec 8 len) as [H|H]; [|exists out, len; auto].
  assert (bytes_ok (out ++ [N.land (N.shiftr v (len - 8)) 255])) as B'.
  { apply bytes_ok_app; split; auto. constructor; [|constructor]. change 255 with (N.ones 8). rewrite N.land_ones. unfold byte_ok. change (2 ^ 8) with 256. apply N.mod_lt. lia. }
  destruct (IH (len - 8) v _ ltac:(lia) B') as (o & l & E & L' & Bo & Eb). exists o, l. split; auto. split; auto. split; auto. rewrite Eb, bytes_bits_app, <- app_assoc. f_equal.
  cbn [bytes_bits flat_map]. rewrite app_nil_r. replace (N.to_nat len) with (8 + N.to_nat (len - 8))%nat by lia. rewrite bits_split, N2Nat.id. f_equal.
  change 255 with (N.ones 8). rewrite N.land_ones. change 8 with (N.of_nat 8) at 3. apply bits_mod.
Qed.
Lemma put_char_spec : forall c s b, c < 256 -> st_ok s b -> exists s', put_char c s = Some s' /\ st_ok s' (b ++ code c).
Proof.
  intros c ((out, room), saved) b Hc (Hr & Bo & q & -> & Hq & ->). unfold put_char, code. destruct (table_some c Hc) as ((v, n) & E). rewrite E. destruct (table_entry _ _ _ E) as (Hn & Hv). clear E.
  destruct (N.ltb_spec n room) as [L|L].
  - eexists. split; [reflexivity|]. split; [lia|]. split; auto. exists (q * 2 ^ n + v).
    assert (2 ^ n <= 2 ^ 7) as P7 by (apply N.pow_le_mono_r; lia). change (2 ^ 7) with 128 in P7.
    assert (N.land v 255 = v) as -> by (change 255 with (N.ones 8); rewrite N.land_ones; apply N.mod_small; change (2 ^ 8) with 256; lia).
    assert (2 ^ room = 2 ^ n * 2 ^ (room - n)) as Pr by (rewrite <- N.pow_add_r; f_equal; lia).
    assert (2 ^ room <= 2 ^ 8) as P8 by (apply N.pow_le_mono_r; lia). change (2 ^ 8) with 256 in P8.
    assert (v * 2 ^ (room - n) < 2 ^ room) as Hs by (rewrite Pr; apply N.mul_lt_mono_pos_r; auto; apply N.neq_0_lt_0, N.pow_nonzero; lia).
    rewrite N.shiftl_mul_pow2, (N.mod_small (_ * _)) by lia. split; [rewrite lor_shift by auto; rewrite Pr; lia|]. split.
    + replace (8 - (room - n)) with (8 - room + n) by lia. rewrite N.pow_add_r. nia.
    + rewrite <- app_assoc. f_equal. replace (N.to_nat (8 - (room - n))) with (N.to_nat (8 - room) + N.to_nat n)%nat by lia.
      rewrite <- (N2Nat.id n) at 3. rewrite bits_mul_add by (rewrite N2Nat.id; auto). auto.
  - assert (N.shiftr v (n - room) < 2 ^ room) as Hx.
    { rewrite N.shiftr_div_pow2. apply N.div_lt_upper_bound; [apply N.pow_nonzero; lia|]. rewrite <- N.pow_add_r. replace (n - room + room) with n by lia. auto. }
    assert (2 ^ room <= 2 ^ 8) as P8 by (apply N.pow_le_mono_r; lia). change (2 ^ 8) with 256 in P8.
    destruct (N.leb_spec 256 (N.shiftr v (n - room))) as [Z|_]; [lia|].
    assert (2 ^ (8 - room) * 2 ^ room = 256) as P9 by (rewrite <- N.pow_add_r; replace (8 - room + room) with 8 by lia; reflexivity).
    set (y := N.lor (q * 2 ^ room) (N.shiftr v (n - room))). assert (y = q * 2 ^ room + N.shiftr v (n - room)) as Ey by (apply lor_shift; auto).
    assert (bytes_ok (out ++ [y])) as By by (apply bytes_ok_app; split; auto; constructor; [|constructor]; unfold byte_ok; rewrite Ey; eapply fit; eauto).
    destruct (full_bytes_spec 4 (n - room) v (out ++ [y]) ltac:(lia) By) as (o & l & Ef & Hl & Bo2 & Eb). rewrite Ef.
    assert (bytes_bits (out ++ [y]) ++ bits (N.to_nat (n - room)) v = (bytes_bits out ++ bits (N.to_nat (8 - room)) q) ++ bits (N.to_nat n) v) as Eq.
    { rewrite bytes_bits_app, <- !app_assoc. f_equal. cbn [bytes_bits flat_map]. rewrite app_nil_r, Ey. replace 8%nat with (N.to_nat (8 - room) + N.to_nat room)%nat by lia.
      rewrite <- (N2Nat.id room) at 3. rewrite bits_mul_add by (rewrite N2Nat.id; auto). rewrite <- app_assoc. f_equal.
      replace (N.to_nat n) with (N.to_nat room + N.to_nat (n - room))%nat by lia. rewrite bits_split, N2Nat.id. auto. }
    destruct (N.ltb_spec 0 l) as [Z|Z].
    + assert (N.land v (2 ^ l - 1) = v mod 2 ^ l) as Em by (rewrite <- N.pred_sub, <- N.ones_equiv; apply N.land_ones).
      assert (v mod 2 ^ l < 2 ^ l) as Hm by (apply N.mod_lt, N.pow_nonzero; lia). assert (2 ^ l <= 2 ^ 7) as P7 by (apply N.pow_le_mono_r; lia). change (2 ^ 7) with 128 in P7.
      rewrite Em. destruct (N.leb_spec 256 (v mod 2 ^ l)) as [W|_]; [lia|]. eexists. split; [reflexivity|]. split; [lia|]. split; auto. exists (v mod 2 ^ l).
      assert (2 ^ l * 2 ^ (8 - l) = 256) as P10 by (rewrite <- N.pow_add_r; replace (l + (8 - l)) with 8 by lia; reflexivity).
      rewrite N.shiftl_mul_pow2, N.mod_small by nia. split; auto. replace (8 - (8 - l)) with l by lia. split; auto. rewrite <- Eq, <- Eb. f_equal.
      rewrite <- (N2Nat.id l) at 3. symmetry. apply bits_mod.
    + assert (l = 0) as -> by lia. eexists. split; [reflexivity|]. split; [lia|]. split; auto. exists 0. split; auto. split; [cbn; lia|]. rewrite <- Eq, <- Eb. auto.
Qed.
Lemma put_chars_spec : forall l s b, bytes_ok l -> st_ok s b -> exists s', put_chars l s = Some s' /\ st_ok s' (b ++ flat_map code l).
Proof.
  induction l as [|c l IH]; intros s b B S; cbn [put_chars flat_map]; [exists s; rewrite app_nil_r; auto|]. inversion B; subst.
  destruct (put_char_spec c s b H1 S) as (s1 & E & S1). rewrite E. destruct (IH s1 _ H2 S1) as (s2 & E2 & S2). exists s2. rewrite <- app_assoc in S2. auto.
Qed.
Lemma encode_spec : forall l, bytes_ok l -> exists e, huffman_encode l = Some e /\ bytes_ok e /\ is_code l e.
Proof.
  intros l B. unfold huffman_encode. destruct (put_chars_spec l ([], 8, 0) [] B) as (((out, room), saved) & E & (Hr & Bo & q & -> & Hq & Eb)).
  { split; [lia|]. split; [constructor|]. exists 0. split; auto. split; [cbn; lia|]. auto. }
  rewrite E. destruct (N.ltb_spec room 8) as [L|L].
  - assert (2 ^ room - 1 < 2 ^ room) as H1 by (assert (2 ^ room <> 0) by (apply N.pow_nonzero; lia); lia).
    assert (2 ^ (8 - room) * 2 ^ room = 256) as P9 by (rewrite <- N.pow_add_r; replace (8 - room + room) with 8 by lia; reflexivity).
    eexists. split; [reflexivity|]. rewrite lor_shift by auto. split; [apply bytes_ok_app; split; auto; constructor; [unfold byte_ok; eapply fit; eauto | constructor]|].
    exists (N.to_nat room). split; [lia|]. cbn in Eb. rewrite Eb, bytes_bits_app, <- app_assoc. f_equal. cbn [bytes_bits flat_map]. rewrite app_nil_r.
    replace 8%nat with (N.to_nat (8 - room) + N.to_nat room)%nat by lia. rewrite <- (N2Nat.id room) at 3 4. rewrite bits_mul_add by (rewrite N2Nat.id; auto). rewrite bits_ones. auto.
  - assert (room = 8) as -> by lia. eexists. split; [reflexivity|]. split; auto. exists 0%nat. split; [lia|]. cbn in Eb. rewrite Eb, !app_nil_r. auto.
Qed.
Lemma code_unique : forall s e e', bytes_ok e -> bytes_ok e' -> is_code s e -> is_code s e' -> e = e'.
Proof.
  intros s e e' B B' (k & L & E) (k' & L' & E'). apply bytes_bits_inj; auto. rewrite E, E'. do 2 f_equal.
  apply (f_equal (@length _)) in E, E'. rewrite bytes_bits_len, app_length, repeat_length in E, E'. lia.
Qed.

(** *** Decoding *)
Fixpoint full (t : tree) : bool := match t with TNil => false | TLeaf _ => true | TNode a b => full a && full b end.
Fixpoint path (t : tree) (b : list bool) {struct b} : tree := match b with [] => t | x :: b' => match t with TNode a c => path (if x then c else a) b' | _ => TNil end end.
Fixpoint leaves (t : tree) (pre : list bool) : list (list bool * N) :=
  match t with TNil => [] | TLeaf v => [(pre, v)] | TNode a b => leaves a (pre ++ [false]) ++ leaves b (pre ++ [true]) end.
Fixpoint beqb (a b : list bool) : bool := match a, b with [], [] => true | x :: a', y :: b' => Bool.eqb x y && beqb a' b' | _, _ => false end.
Lemma beqb_eq : forall a b, beqb a b = true -> a = b.
Proof. induction a; intros [|? ?]; cbn; intros H; try discriminate; auto. apply andb_true_iff in H. destruct H as (H1 & H2). apply eqb_prop in H1. subst. f_equal. auto. Qed.
Lemma root_full : full root = true. Proof. vm_compute. reflexivity. Qed.
Lemma root_leaves : forallb (fun e => beqb (fst e) (code (snd e)) && (snd e <? 257)) (leaves root []) = true. Proof. vm_compute. reflexivity. Qed.
Lemma root_codes : forallb (fun c => match path root (code (N.of_nat c)) with TLeaf v => v =? N.of_nat c | _ => false end) (seq 0 257) = true. Proof. vm_compute. reflexivity. Qed.
Lemma root_ones : forallb (fun k => match path root (repeat true k) with TNode _ _ => true | _ => false end) (seq 0 8) = true. Proof. vm_compute. reflexivity. Qed.
Lemma root_node : exists a b, root = TNode a b.
Proof. pose proof root_ones as H. rewrite forallb_forall in H. specialize (H 0%nat ltac:(apply in_seq; lia)). cbn [repeat path] in H. destruct root; try discriminate; eauto. Qed.
Global Opaque root.
Lemma path_leaf : forall t c v pre, path t c = TLeaf v -> In (pre ++ c, v) (leaves t pre).
Proof.
  intros t c. revert t. induction c as [|x c IH]; intros t v pre H; cbn in H; [subst; cbn; rewrite app_nil_r; auto|]. destruct t as [|w|a b]; [discriminate H | discriminate H|]. cbn [leaves].
  apply in_or_app. destruct x; [right; apply (IH _ _ (pre ++ [true])) in H | left; apply (IH _ _ (pre ++ [false])) in H]; rewrite <- app_assoc in H; exact H.
Qed.
Lemma root_sym : forall c v, path root c = TLeaf v -> c = code v /\ v < 257.
Proof.
  intros c v H. apply (path_leaf _ _ _ []) in H. pose proof root_leaves as R. rewrite forallb_forall in R. apply R in H. cbn in H. apply andb_true_iff in H.
  destruct H as (H1 & H2). split; [apply beqb_eq; auto | apply N.ltb_lt; auto].
Qed.
Lemma root_code : forall c, c < 257 -> path root (code c) = TLeaf c.
Proof.
  intros c H. pose proof root_codes as R. rewrite forallb_forall in R. specialize (R (N.to_nat c) ltac:(apply in_seq; lia)). rewrite N2Nat.id in R.
  destruct (path root (code c)); try discriminate. apply N.eqb_eq in R. congruence.
Qed.
(** What is left of the input. *)
Definition b_ok (r : breader) : Prop := b_in r <> [] /\ ((b_off r < length (b_in r))%nat /\ b_bit r <= 8 \/ b_off r = length (b_in r) /\ b_bit r = 0).
Definition rem (r : breader) : list bool := bits (N.to_nat (b_bit r)) (nth (b_off r) (b_in r) 0) ++ bytes_bits (skipn (S (b_off r)) (b_in r)).
Lemma skipn_nth : forall (l : list N) n, (n < length l)%nat -> skipn n l = nth n l 0 :: skipn (S n) l.
Proof. induction l as [|a l IH]; intros [|n] H; cbn in H; try lia; auto. cbn [skipn nth]. apply IH. lia. Qed.
Lemma read_bit_spec : forall r, b_ok r ->
  match rem r with
  | b :: bs => exists r', read_bit r = (r', Some b) /\ b_ok r' /\ b_in r' = b_in r /\ rem r' = bs
  | [] => exists r', read_bit r = (r', None) /\ b_ok r' /\ b_in r' = b_in r /\ b_off r' = length (b_in r) /\ b_bit r' = 0
  end.
Proof.
  intros [l off bit] (NE & H). cbn [b_in b_off b_bit] in *. unfold read_bit, rem. cbn [b_in b_off b_bit]. destruct H as [(L & B)|(-> & ->)].
  - destruct (Nat.eqb_spec (length l) off) as [E|_]; [lia|]. destruct (N.eqb_spec bit 0) as [->|D].
    + cbn [N.to_nat bits List.app b_off b_bit andb]. destruct (Nat.eqb_spec (S off) (length l)) as [E|E].
      * rewrite skipn_all2 by lia. cbn. eexists. split; [reflexivity|]. unfold b_ok. cbn. auto.
      * rewrite (skipn_nth l (S off)) by lia. cbn [bytes_bits flat_map]. change (bits 8 (nth (S off) l 0)) with (N.testbit (nth (S off) l 0) (N.of_nat 7) :: bits 7 (nth (S off) l 0)). cbn [List.app].
        eexists. split; [reflexivity|]. split; [split; cbn; auto; left; split; lia|]. split; reflexivity.
    + cbn [b_off b_bit andb]. replace (N.to_nat bit) with (S (N.to_nat (bit - 1))) by lia. cbn [bits List.app]. rewrite N2Nat.id. eexists. split; [reflexivity|]. split; [split; cbn; auto; left; split; auto; lia|]. split; reflexivity.
  - cbn [N.to_nat bits List.app]. rewrite skipn_all2 by lia. cbn. rewrite Nat.eqb_refl. eexists. split; [reflexivity|]. unfold b_ok. cbn. auto.
Qed.
(** A walk: to a leaf, or to the end of the input. *)
Lemma walk_spec : forall t r i, full t = true -> b_ok r ->
  (exists c v r', rem r = c ++ rem r' /\ path t c = TLeaf v /\ walk t r i = HSym v r' /\ b_ok r' /\ b_in r' = b_in r) \/
  ((exists x y, path t (rem r) = TNode x y) /\ exists r', b_in r' = b_in r /\ b_off r' = length (b_in r) /\ b_bit r' = 0 /\ walk t r i = ending r' (i + lenN (rem r))).
Proof.
  induction t as [|v|a IHa b IHb]; intros r i F B; cbn [full] in F; [discriminate | left; exists [], v, r; auto|]. apply andb_true_iff in F. destruct F as (Fa & Fb).
  pose proof (read_bit_spec r B) as R. cbn [walk]. destruct (rem r) as [|x bs] eqn:E.
  - destruct R as (r' & -> & _ & A & C & D). right. split; [cbn; eauto|]. exists r'. rewrite N.add_0_r. auto.
  - destruct R as (r1 & -> & B1 & A1 & R1).
    assert (forall t', (if x then b else a) = t' -> full t' = true -> match t' with TNil => ending r1 (i + 1) | _ => walk t' r1 (i + 1) end = walk t' r1 (i + 1)) as X by (intros [| |] _ H; auto; discriminate).
    destruct x; [rewrite (X b) by auto; destruct (IHb r1 (i + 1) Fb B1) as [(c & v & r' & E1 & P & W & B' & A')|((y & z & P) & r' & A' & O' & Z' & W)] |
                 rewrite (X a) by auto; destruct (IHa r1 (i + 1) Fa B1) as [(c & v & r' & E1 & P & W & B' & A')|((y & z & P) & r' & A' & O' & Z' & W)]].
    1,3: left; eexists (_ :: c), v, r'; rewrite <- R1, E1; split; [reflexivity|]; split; [exact P|]; split; [exact W|]; split; [exact B'|]; congruence.
    all: right; split; [cbn [path]; rewrite <- R1, P; eauto|]; exists r'; split; [congruence|]; split; [congruence|]; split; [auto|]; rewrite W, R1, lenN_cons; f_equal; lia.
Qed.
(** The bits before what is left. *)
Definition at_bits (r : breader) (done : list bool) : Prop := bytes_bits (b_in r) = done ++ rem r.
Lemma last_bits : forall l (pre tl : list bool), l <> [] -> bytes_bits l = pre ++ tl -> (length tl <= 7)%nat ->
  (N.land (nth (length l - 1) l 0) (2 ^ lenN tl - 1) =? 2 ^ lenN tl - 1) = forallb (fun b => b) tl.
Proof.
  intros l pre tl NE E L. destruct (exists_last NE) as (l' & x & ->). rewrite app_length. cbn [length]. replace (length l' + 1 - 1)%nat with (length l') by lia. rewrite app_nth2, Nat.sub_diag by lia. cbn [nth].
  rewrite bytes_bits_app in E. cbn [bytes_bits flat_map] in E. rewrite app_nil_r in E.
  assert (bits (length tl) x = tl) as T.
  { replace 8%nat with ((8 - length tl) + length tl)%nat in E by lia. rewrite bits_split, app_assoc in E.
    assert (forall (a b c d : list bool), a ++ b = c ++ d -> length b = length d -> b = d) as X.
    { intros a b c d H Hl. apply (f_equal (@rev _)) in H. rewrite !rev_app_distr in H. apply (f_equal (firstn (length (rev b)))) in H. rewrite firstn_app_exact in H.
      rewrite rev_length, Hl, <- rev_length, firstn_app_exact in H. rewrite <- (rev_involutive b), H, rev_involutive. auto. }
    eapply X; [exact E|]. apply bits_len. }
  rewrite <- N.pred_sub, <- N.ones_equiv, N.land_ones. unfold lenN. rewrite <- T at 3. set (n := length tl). clearbody n. clear.
  rewrite <- (bits_mod n x). assert (x mod 2 ^ N.of_nat n < 2 ^ N.of_nat n) as H by (apply N.mod_lt, N.pow_nonzero; lia). set (y := x mod 2 ^ N.of_nat n) in *. clearbody y. clear x.
  destruct (N.eqb_spec y (N.ones (N.of_nat n))) as [->|D].
  - rewrite N.ones_equiv, N.pred_sub, bits_ones. clear. induction n; cbn; auto.
  - symmetry. apply not_true_is_false. intros A. apply D. apply (bits_inj n); auto; [rewrite N.ones_equiv; assert (2 ^ N.of_nat n <> 0) by (apply N.pow_nonzero; lia); lia|].
    rewrite N.ones_equiv, N.pred_sub, bits_ones. rewrite forallb_forall in A. clear - A. induction n as [|n IH]; cbn in *; auto. f_equal; [apply A; auto | apply IH; auto].
Qed.
Lemma all_true : forall b, forallb (fun x : bool => x) b = true -> b = repeat true (length b).
Proof. induction b as [|[|] b IH]; cbn; intros H; try discriminate; auto. f_equal; auto. Qed.
Lemma loop_end : forall f r, b_ok r -> b_off r = length (b_in r) -> b_bit r = 0 -> decode_loop f r = Good [].
Proof. intros f r _ O Z. assert (has_more r = false) as H by (unfold has_more; rewrite O, Nat.eqb_refl, Z; cbn; apply andb_false_r). destruct f; cbn [decode_loop]; rewrite H; auto. Qed.
Lemma more_or_end : forall r, b_ok r -> has_more r = true \/ (b_off r = length (b_in r) /\ b_bit r = 0 /\ rem r = []).
Proof.
  intros r (NE & [(L & B)|(O & Z)]).
  - left. unfold has_more. destruct (b_in r); [congruence|]. cbn [length] in *. destruct (Nat.eqb_spec (b_off r) (S (length l))); [lia|]. reflexivity.
  - right. split; auto. split; auto. unfold rem. rewrite Z, O, skipn_all2 by lia. auto.
Qed.
Lemma end_spec : forall r r' done, b_in r <> [] -> at_bits r done -> b_in r' = b_in r -> b_off r' = length (b_in r) -> b_bit r' = 0 ->
  (exists r2, ending r' (0 + lenN (rem r)) = HEnd r2 /\ b_ok r2 /\ b_off r2 = length (b_in r2) /\ b_bit r2 = 0 /\ (length (rem r) <= 7)%nat /\ rem r = repeat true (length (rem r))) \/
  (ending r' (0 + lenN (rem r)) = HErr /\ ~ ((length (rem r) <= 7)%nat /\ rem r = repeat true (length (rem r)))).
Proof.
  intros r r' done NE A I O Z. unfold ending, verify_ending. rewrite I, O, Z, Nat.eqb_refl. replace (0 + lenN (rem r) + 0) with (lenN (rem r)) by lia. destruct (N.ltb_spec 7 (lenN (rem r))) as [L|L].
  - right. split; auto. unfold lenN in L. lia.
  - assert (length (rem r) <= 7)%nat as L' by (unfold lenN in L; lia). destruct (Nat.eqb_spec (length (b_in r)) 0) as [D|_]; [destruct (b_in r); [congruence | discriminate]|]. cbn [negb].
    rewrite (last_bits (b_in r) done (rem r) NE A L'). destruct (forallb (fun b => b) (rem r)) eqn:T.
    + left. eexists. split; [reflexivity|]. split; [split; auto|]. split; auto. split; auto. split; auto. apply all_true; auto.
    + right. split; auto. intros (_ & E). rewrite E in T. clear - T. induction (length (rem r)); cbn in T; [discriminate | auto].
Qed.
Lemma code_nonempty : forall c, c < 257 -> code c <> [].
Proof. intros c H E. pose proof (root_code c H) as P. rewrite E in P. cbn in P. destruct root_node as (a & b & R). congruence. Qed.
(** Decoding finds the string of which the input is the code. *)
Lemma loop_complete : forall s r f k done, bytes_ok s -> b_ok r -> at_bits r done -> rem r = flat_map code s ++ repeat true k -> (k < 8)%nat -> (length (rem r) + 2 <= f)%nat -> decode_loop f r = Good s.
Proof.
  induction s as [|c s IH]; intros r f k done B O A E K F.
  - cbn in E. destruct (more_or_end r O) as [M|(e1 & e2 & e3)]; [|apply loop_end; auto]. destruct f as [|f]; [lia|]. cbn [decode_loop]. rewrite M. cbn [negb].
    destruct (walk_spec root r 0 root_full O) as [(c & v & r' & E1 & P & W & _)|((x & y & P) & r' & I & Of & Z & W)].
    + exfalso. assert (exists j, (j < 8)%nat /\ c = repeat true j) as (j & J & ->).
      { rewrite E in E1. exists (length c). assert (length c <= k)%nat as L by (apply (f_equal (@length _)) in E1; rewrite repeat_length, app_length in E1; lia). split; [lia|].
        apply (f_equal (firstn (length c))) in E1. rewrite firstn_app_exact in E1. rewrite <- E1. clear - L. revert k L. induction (length c) as [|n IH]; intros k L; auto. destruct k; [lia|]. cbn. f_equal. apply IH. lia. }
      pose proof root_ones as R. rewrite forallb_forall in R. specialize (R j ltac:(apply in_seq; lia)). rewrite P in R. discriminate.
    + rewrite W. destruct (end_spec r r' done (proj1 O) A I Of Z) as [(r2 & -> & B2 & O2 & Z2 & _)|(_ & N)]; [apply loop_end; auto|].
      exfalso. apply N. rewrite E, repeat_length. split; [lia | auto].
  - inversion B; subst. cbn [flat_map] in E. rewrite <- app_assoc in E. assert (c < 257) as Hc by (unfold byte_ok in *; lia).
    destruct (more_or_end r O) as [M|(e1 & e2 & e3)]; [|rewrite e3 in E; destruct (code c) eqn:Ec; [apply code_nonempty in Ec; auto; destruct Ec | discriminate]].
    destruct f as [|f]; [lia|]. cbn [decode_loop]. rewrite M. cbn [negb].
    assert (forall t b1 b2 x y v, path t b1 = TLeaf v -> path t (b1 ++ b2) = TNode x y -> False) as Pre.
    { intros t b1. revert t. induction b1 as [|z b1 IH1]; intros t b2 x y v P Q; cbn in P, Q; [subst; destruct b2; cbn in Q; discriminate|]. destruct t; try discriminate. eapply IH1; eauto. }
    assert (forall t b1 b2 t1 t2 v w, path t b1 = TLeaf v -> path t b2 = TLeaf w -> b1 ++ t1 = b2 ++ t2 -> b1 = b2) as Uq.
    { intros t b1. revert t. induction b1 as [|z b1 IH1]; intros t [|z2 b2] t1 t2 v w P Q X; cbn in P, Q; auto; try (subst; discriminate). destruct t; try discriminate. injection X as -> X. f_equal. eapply IH1; eauto. }
    destruct (walk_spec root r 0 root_full O) as [(c' & v & r' & E1 & P & W & B' & I')|((x & y & P) & _)].
    + pose proof (root_code c Hc) as Pc. rewrite E in E1. assert (code c = c') as Ecc by (eapply Uq; eauto). rewrite <- Ecc in *. rewrite Pc in P. injection P as <-. apply app_inv_head in E1.
      rewrite W. destruct (N.ltb_spec c 256) as [_|Z]; [|unfold byte_ok in *; lia].
      rewrite (IH r' f k (done ++ code c)); auto.
      * unfold at_bits in *. rewrite I', A, E, <- E1, <- app_assoc. auto.
      * rewrite E in F. rewrite <- E1. rewrite app_length in F. pose proof (code_nonempty c Hc). destruct (code c); [congruence|]. cbn in F. lia.
    + exfalso. rewrite E in P. eapply Pre; [apply (root_code c Hc) | exact P].
Qed.
Lemma loop_sound : forall f r s done, b_ok r -> at_bits r done -> decode_loop f r = Good s -> bytes_ok s /\ exists k, (k < 8)%nat /\ rem r = flat_map code s ++ repeat true k.
Proof.
  induction f as [|f IH]; intros r s done O A H; cbn [decode_loop] in H; (destruct (more_or_end r O) as [M|(e1 & e2 & e3)];
    [rewrite M in H; cbn [negb] in H | assert (has_more r = false) as M by (unfold has_more; rewrite e1, Nat.eqb_refl, e2; apply andb_false_r); rewrite M in H; cbn [negb] in H; injection H as <-; split; [constructor|]; exists 0%nat; rewrite e3; split; [lia | auto]]).
  - discriminate.
  - destruct (walk_spec root r 0 root_full O) as [(c & v & r' & E1 & P & W & B' & I')|((x & y & P) & r' & I & Of & Z & W)]; rewrite W in H.
    + destruct (N.ltb_spec v 256) as [L|L]; [|discriminate]. destruct (root_sym c v P) as (-> & _). destruct (decode_loop f r') as [l| |] eqn:D; try discriminate. cbn in H. injection H as <-.
      destruct (IH r' l (done ++ code v) B') as (Bs & k & K & E); [unfold at_bits in *; rewrite I', A, E1, <- app_assoc; auto | exact D|]. split; [constructor; auto|]. exists k. split; auto. rewrite E1, E. cbn [flat_map]. rewrite app_assoc. auto.
    + destruct (end_spec r r' done (proj1 O) A I Of Z) as [(r2 & E2 & B2 & O2 & Z2 & L & T)|(E2 & _)]; rewrite E2 in H; [|discriminate]. rewrite loop_end in H by auto. injection H as <-. split; [constructor|].
      exists (length (rem r)). split; [lia | auto].
Qed.
Lemma loop_nopanic : forall f r done, b_ok r -> at_bits r done -> (length (rem r) + 2 <= f)%nat -> decode_loop f r <> Panic.
Proof.
  induction f as [|f IH]; intros r done O A F; [lia|]. cbn [decode_loop]. destruct (has_more r); cbn [negb]; [|discriminate].
  destruct (walk_spec root r 0 root_full O) as [(c & v & r' & E1 & P & W & B' & I')|((x & y & P) & r' & I & Of & Z & W)]; rewrite W.
  - destruct (v <? 256); [|discriminate]. destruct (root_sym c v P) as (-> & Hv). assert (decode_loop f r' <> Panic) as N.
    { apply (IH r' (done ++ code v)); auto; [unfold at_bits in *; rewrite I', A, E1, <- app_assoc; auto|]. rewrite E1, app_length in F. pose proof (code_nonempty v Hv). destruct (code v); [congruence|]. cbn in F. lia. }
    destruct (decode_loop f r'); cbn; congruence.
  - destruct (end_spec r r' done (proj1 O) A I Of Z) as [(r2 & -> & B2 & O2 & Z2 & _)|(-> & _)]; [rewrite loop_end by auto|]; discriminate.
Qed.
Lemma start_ok : forall l, l <> [] -> b_ok (mkB l 0 8) /\ at_bits (mkB l 0 8) [] /\ length (rem (mkB l 0 8)) = (8 * length l)%nat.
Proof.
  intros [|x l] H; [congruence|]. split; [split; cbn; auto; left; split; [lia|lia]|]. assert (rem (mkB (x :: l) 0 8) = bytes_bits (x :: l)) as E by (unfold rem; cbn [b_in b_off b_bit nth skipn]; reflexivity).
  split; [unfold at_bits; rewrite E; auto|]. rewrite E. apply bytes_bits_len.
Qed.
