(** The QPACK decoder against any bytes; the encoder against any peer. *)
From Verif Require Import Base Lib QpTables QiModel QiSpec QiProofs QiProofs2 QbModel QbSpec QbProofs QbProofs2 QeModel QeProofs QeProofs2 QeProofs3 QjModel QjSpec QjProofs.
Open Scope N_scope.
Open Scope list_scope.
Import ListNotations.

(** *** Reading *)
Lemma buf_int_ok : forall len bs, bytes_ok bs -> match buf_int len bs with Good (_, r) => bytes_ok r /\ (length r < length bs)%nat | Bad => True | Panic => False end.
Proof.
  intros len [|b bs] B; cbn [buf_int]; auto. inversion B; subst. pose proof (int_read_ok bs (int_new b len) (int_new_ok b len) H2) as Q. destruct (int_read (int_new b len) bs) as [v r| | |]; auto. destruct Q as (u & ->). apply bytes_ok_app in H2. split; [tauto|]. cbn [length]. rewrite app_length. lia.
Qed.
Lemma buf_literal_ok : forall len bs, bytes_ok bs -> match buf_literal len bs with Good (_, r) => bytes_ok r /\ (length r < length bs)%nat | Bad => True | Panic => False end.
Proof.
  intros len [|b bs] B; cbn [buf_literal]; auto. inversion B; subst. pose proof (int_read_ok bs (int_new b (len + 1)) (int_new_ok b (len + 1)) H2) as Q. destruct (int_read (int_new b (len + 1)) bs) as [n r| | |]; auto. destruct Q as (u & ->). apply bytes_ok_app in H2. destruct H2 as (_ & H2).
  assert (L : bytes_ok (skipn (N.to_nat n) r) /\ (length (skipn (N.to_nat n) r) < length (b :: u ++ r))%nat) by (split; [apply bytes_ok_skipn; auto | cbn [length]; rewrite skipn_length, app_length; lia]).
  destruct (MAX_LEN <? n); auto. destruct (lenN r <? n); auto. destruct (negb _); auto. destruct (huffman_decode (firstn (N.to_nat n) r)) as [v| |] eqn:D; cbn [rbind]; auto. eapply decode_nopanic; eauto.
Qed.
Lemma get_dynamic_ok : forall t i base post, get_dynamic t i base post <> Panic.
Proof. intros t i base post. unfold get_dynamic, get_rel. repeat (match goal with |- context [if ?b then _ else _] => destruct b end; try discriminate); destruct (nth_error _ _); discriminate. Qed.
Lemma dynamic_entry_ok : forall t base req i post, dynamic_entry t base req i post <> Panic.
Proof. intros. unfold dynamic_entry. pose proof (get_dynamic_ok t i base post). destruct (get_dynamic t i base post); cbn [rbind]; try congruence. destruct (_ <=? _); discriminate. Qed.
Definition f_good (bs : list N) (r : rres (header * list N)) : Prop := match r with Good (_, rest) => bytes_ok rest /\ (length rest < length bs)%nat | Bad => True | Panic => False end.
Lemma named_ok : forall bs n v r, bytes_ok r -> (length r < length bs)%nat -> f_good bs (named n v r). Proof. intros. unfold named. destruct (utf8 n); cbn; auto. Qed.
Lemma with_value_ok : forall bs n r, bytes_ok r -> (length r < length bs)%nat -> f_good bs (with_value n r).
Proof. intros bs n r B L. unfold with_value. destruct (utf8 n); cbn [f_good]; auto. pose proof (buf_literal_ok 0 r B) as Q. destruct (buf_literal 0 r) as [(v, r2)| |]; cbn [rbind f_good]; auto. split; [tauto | lia]. Qed.
Lemma field_good : forall t base req bs, bytes_ok bs -> f_good bs (field t base req bs).
Proof.
  intros t base req bs B. destruct bs as [|b bs]; [exact Logic.I|]. unfold field.
  assert (I : forall len post, f_good (b :: bs) (indexed_dynamic t base req len post (b :: bs))).
  { intros len post. unfold indexed_dynamic. pose proof (buf_int_ok len (b :: bs) B) as Q. destruct (buf_int len (b :: bs)) as [(i, r)| |]; cbn [rbind]; auto. pose proof (dynamic_entry_ok t base req i post). destruct (dynamic_entry t base req i post); cbn [rbind]; try congruence; [|exact Logic.I]. apply named_ok; tauto. }
  assert (NR : forall len post, f_good (b :: bs) (name_ref_dynamic t base req len post (b :: bs))).
  { intros len post. unfold name_ref_dynamic. pose proof (buf_int_ok len (b :: bs) B) as Q. destruct (buf_int len (b :: bs)) as [(i, r)| |]; cbn [rbind]; auto. pose proof (dynamic_entry_ok t base req i post). destruct (dynamic_entry t base req i post); cbn [rbind]; try congruence; [|exact Logic.I]. apply with_value_ok; tauto. }
  assert (ST : forall len (f : list N * list N -> list N -> rres (header * list N)), (forall e r, bytes_ok r -> (length r < length (b :: bs))%nat -> f_good (b :: bs) (f e r)) -> f_good (b :: bs) (rbind (buf_int len (b :: bs)) (fun '(i, r) => rbind (get_static i) (fun e => f e r)))).
  { intros len f F. pose proof (buf_int_ok len (b :: bs) B) as Q. destruct (buf_int len (b :: bs)) as [(i, r)| |]; cbn [rbind]; auto. unfold get_static. destruct (nth_error STATIC (N.to_nat i)); cbn [rbind]; [apply F; tauto | exact Logic.I]. }
  destruct (cmp_prefix HEADER_FIELD_INDEX_STATIC b) eqn:C1; [apply ST; intros; apply named_ok; auto|]. destruct (cmp_prefix HEADER_FIELD_INDEX_DYNAMIC b) eqn:C2; [apply I|]. destruct (cmp_prefix HEADER_FIELD_INDEX_DYNAMIC_POST b) eqn:C3; [apply I|].
  destruct (cmp_prefix HEADER_FIELD_LITERAL_NAME_REF_STATIC b) eqn:C4; [apply ST; intros; apply with_value_ok; auto|]. destruct (cmp_prefix HEADER_FIELD_LITERAL_NAME_REF_DYNAMIC b) eqn:C5; [apply NR|]. destruct (cmp_prefix HEADER_FIELD_LITERAL_NAME_LITERAL b) eqn:C6.
  - pose proof (buf_literal_ok (p_len HEADER_FIELD_LITERAL_NAME_LITERAL) (b :: bs) B) as Q. destruct (buf_literal _ (b :: bs)) as [(n, r)| |]; cbn [rbind]; auto. apply with_value_ok; tauto.
  - destruct (cmp_prefix HEADER_FIELD_LITERAL_NAME_REF_DYNAMIC_POST b) eqn:C7; [apply NR|]. exfalso. inversion B; subst. pose proof (fk_any b ltac:(unfold byte_ok in *; lia)) as Q. unfold cmps in Q. rewrite C1, C2, C3, C4, C5, C6, C7 in Q. discriminate.
Qed.
Lemma fields_ok : forall fuel t base req bs room, (length bs <= fuel)%nat -> bytes_ok bs -> match fields fuel t base req bs room with Good l => total_size l <= room | Bad => True | Panic => False end.
Proof.
  induction fuel as [|f IH]; intros t base req bs room L B; destruct bs as [|b bs]; cbn [fields]; try (cbn; lia); [cbn [length] in L; lia|].
  pose proof (field_good t base req (b :: bs) B) as Q. destruct (field t base req (b :: bs)) as [(h, r)| |]; cbn [rbind f_good] in *; auto. destruct Q as (Q1 & Q2). destruct (N.ltb_spec room (lenN (fst h) + lenN (snd h) + 32)); auto.
  specialize (IH t base req r (room - (lenN (fst h) + lenN (snd h) + 32)) ltac:(cbn [length] in *; lia) Q1). destruct (fields f t base req r _); cbn [rbind]; auto. unfold total_size in *. cbn [fold_right]. set (z := fold_right _ 0 a) in *. unfold header_size. lia.
Qed.
(** The required insert count: exactly the RFC's window (RFC 9204, 4.5.1.1). *)
Lemma mod_mul_add : forall q P x, x < P -> (q * P + x) mod P = x.
Proof. intros q P x X. rewrite N.add_comm, N.mod_add by lia. apply N.mod_small; auto. Qed.
Lemma calc_req_ok : forall c M total, total < 2 ^ 62 -> M < 2 ^ 60 -> match calc_req c M total with Good r => (c = 0 /\ r = 0) \/ (c = r mod (2 * M) + 1 /\ 0 < M /\ 0 < r /\ total < r + M /\ r <= total + M) | Bad => True | Panic => False end.
Proof.
  intros c M total TB MB. unfold calc_req. destruct (N.eqb_spec c 0); [subst; auto|]. destruct (N.eqb_spec M 0); auto. destruct (N.ltb_spec (2 * M) c); auto.
  replace (2 ^ 64) with 18446744073709551616 by reflexivity. replace (2 ^ 62) with 4611686018427387904 in TB by reflexivity. replace (2 ^ 60) with 1152921504606846976 in MB by reflexivity.
  destruct (N.leb_spec 18446744073709551616 (total + M)); [lia|]. assert (PM : exists P, P = 2 * M /\ 0 < P) by (exists (2 * M); lia). destruct PM as (P & PM & P0). rewrite <- PM in *.
  assert (F : exists A m, A = (total + M) / P * P /\ total + M = A + m /\ m < P /\ (A + (c - 1)) mod P = c - 1 /\ (P <= A -> (A - P + (c - 1)) mod P = c - 1)).
  { exists ((total + M) / P * P), ((total + M) mod P). splits; auto.
    - rewrite N.mul_comm. apply N.div_mod. lia.
    - apply N.mod_lt. lia.
    - apply mod_mul_add. lia.
    - intros L. assert (Q : (total + M) / P <> 0) by (intros Z; rewrite Z in L; simpl in L; lia). replace ((total + M) / P * P - P) with (((total + M) / P - 1) * P); [apply mod_mul_add; lia|]. rewrite N.mul_sub_distr_r. lia. }
  destruct F as (A & m & EA & DM & ML & F1 & F2). rewrite <- EA. clear EA. assert (PA : A < P -> A = 0 \/ True) by auto. destruct (N.leb_spec 18446744073709551616 (A + c - 1 + 1)); [lia|].
  destruct (N.ltb_spec (total + M) (A + c - 1)) as [L|L].
  - destruct (N.ltb_spec (A + c - 1) P); auto. destruct (N.eqb_spec (A + c - 1 - P) 0); auto. right. destruct (N.le_gt_cases P A) as [PL|PL].
    + replace (A + c - 1 - P) with (A - P + (c - 1)) by lia. rewrite (F2 PL). splits; lia.
    + exfalso. destruct (N.eq_dec A 0); [lia|]. assert (A mod P = 0 -> False) by (rewrite N.mod_small by lia; lia). apply H3. replace A with ((A + (c - 1)) - (c - 1)) by lia. clear - F1 PL P0 n0 H3 n1 L. pose proof (N.div_mod (A + (c - 1)) P ltac:(lia)) as D. rewrite F1 in D. assert (A = P * ((A + (c - 1)) / P)) by lia. rewrite H in *. replace (P * ((A + (c - 1)) / P) + (c - 1) - (c - 1)) with (((A + (c - 1)) / P) * P) by lia. apply N.mod_mul. lia.
  - destruct (N.eqb_spec (A + c - 1) 0); auto. right. replace (A + c - 1) with (A + (c - 1)) by lia. rewrite F1. splits; lia.
Qed.
Lemma read_base_ok : forall bs M total, bytes_ok bs -> total < 2 ^ 62 -> M < 2 ^ 60 -> match read_base bs M total with Good (_, _, r) => bytes_ok r | Bad => True | Panic => False end.
Proof.
  intros bs M total B TB MB. unfold read_base. pose proof (buf_int_ok 0 bs B) as Q. destruct (buf_int 0 bs) as [(c, r1)| |]; cbn [rbind]; auto. destruct Q as (Q & _). pose proof (calc_req_ok c M total TB MB) as CQ. destruct (calc_req c M total) as [req| |]; cbn [rbind]; auto.
  destruct r1 as [|b r1]; auto. pose proof (buf_int_ok 1 (b :: r1) Q) as Q2. destruct (buf_int 1 (b :: r1)) as [(d, r2)| |]; cbn [rbind]; auto. destruct (negb _); [destruct (req <=? d)|destruct (2 ^ 64 <=? req + d)]; tauto.
Qed.
Lemma decode_ok : forall t M bs, bytes_ok bs -> t_base t < 2 ^ 62 -> M < 2 ^ 60 -> match decode_block t M bs with Good (Blocked req) => t_base t < req | Good (Headers req l) => req <= t_base t /\ total_size l <= MAX_LEN | Bad => True | Panic => False end.
Proof.
  intros t M bs B TB MB. unfold decode_block. pose proof (read_base_ok bs M (t_base t) B TB MB) as Q. destruct (read_base bs M (t_base t)) as [((req, base), r)| |]; cbn [rbind]; auto. destruct (N.ltb_spec (t_base t) req); auto.
  pose proof (fields_ok (length r) t base req r MAX_LEN (le_n _) Q) as F. destruct (fields _ t base req r MAX_LEN); cbn [rbind]; auto.
Qed.

Lemma filter_len {A} : forall (f : A -> bool) l, (length (filter f l) <= length l)%nat. Proof. induction l as [|a l IH]; cbn [filter length]; auto. destruct (f a); cbn [length]; lia. Qed.
(** *** The decoder *)
Record dinv (k : N) (H : list header) (d : decoder) : Prop := mkDv {
  dv_t : t_ok H (d_table d); dv_base : t_base (d_table d) = lenN H; dv_k : lenN H <= k; dv_free : free (d_table d); dv_cap : t_cap (d_table d) <= d_max_table d; dv_reader : s_ok (d_reader d);
  dv_acked : d_acked d <= t_base (d_table d); dv_ent : d_max_entries d = d_max_table d / 32; dv_bl : lenN (d_blocked d) <= d_maxb d; dv_max : d_max_table d < 2 ^ 30 }.
Ltac ddv V := destruct V as [dv_t0 dv_base0 dv_k0 dv_free0 dv_cap0 dv_reader0 dv_acked0 dv_ent0 dv_bl0 dv_max0].
Definition dsame (d d' : decoder) : Prop := d_max_table d' = d_max_table d /\ d_maxb d' = d_maxb d /\ d_reader d' = d_reader d /\ d_blocked d' = d_blocked d /\ d_out d' = d_out d /\ d_local d' = d_local d.
Lemma dinv_insert : forall k H d n v, dinv k H d -> match rbind (insert (d_table d) n v) (fun '(t, _) => Good (dwith_table t d)) with Good d' => exists H', dinv (k + 1) H' d' /\ dsame d d' /\ t_base (d_table d) <= t_base (d_table d') | Bad => True | Panic => False end.
Proof.
  intros k H d n v V. ddv V. destruct (insert_spec H (d_table d) n v dv_t0 dv_base0) as (r & E & SP). rewrite E. destruct r as [(t, i)| |]; cbn [rbind]; auto. destruct SP as (-> & OT & B1 & A1 & C1 & O1 & I1 & _).
  exists (H ++ [(n, v)]). split; [|split; [unfold dsame; auto 10 | cbn; lia]]. constructor; cbn [dwith_table d_table d_max_table d_reader d_acked d_max_entries d_maxb d_blocked]; auto; try lia.
  - rewrite B1, lenN_app, lenN_cons, lenN_nil. lia.
  - rewrite lenN_app, lenN_cons, lenN_nil. lia.
  - destruct dv_free0 as (F1 & F2). split; [|congruence]. rewrite Forall_forall in *. intros e I. destruct (I1 e I) as [J| ->]; auto.
Qed.
Lemma execute_any : forall k H d i, dinv k H d -> match execute d i with Good d' => exists H', dinv (k + 1) H' d' /\ dsame d d' /\ t_base (d_table d) <= t_base (d_table d') | Bad => True | Panic => False end.
Proof.
  intros k H d i V. destruct i as [v|x v|x v|n v|x]; cbn [execute].
  - destruct (N.ltb_spec (d_max_table d) v); auto. ddv V. pose proof (set_capacity_spec H (d_table d) v dv_t0) as SP. destruct (set_capacity (d_table d) v) as [t| |]; cbn [rbind]; auto. destruct SP as (O1 & B1 & A1 & C1 & L1 & I1 & _).
    exists H. split; [|split; [unfold dsame; auto 10 | cbn; lia]]. constructor; cbn [dwith_table d_table d_max_table d_reader d_acked d_max_entries d_maxb d_blocked]; auto; try lia. destruct dv_free0 as (F1 & F2). split; [|congruence]. rewrite Forall_forall in *. auto.
  - unfold insert_with_name_ref, get_static. destruct (nth_error STATIC (N.to_nat x)); cbn [rbind]; auto. apply (dinv_insert k H d _ _ V).
  - unfold insert_with_name_ref. pose proof (get_dynamic_ok (d_table d) x (t_base (d_table d)) false) as G. destruct (get_dynamic _ x _ false); cbn [rbind]; auto. apply (dinv_insert k H d _ _ V).
  - apply (dinv_insert k H d _ _ V).
  - unfold duplicate. pose proof (get_dynamic_ok (d_table d) x (t_base (d_table d)) false) as G. destruct (get_dynamic _ x _ false); cbn [rbind]; auto. apply (dinv_insert k H d _ _ V).
Qed.
Lemma execute_all_any : forall l k H d, dinv k H d -> match execute_all d l with Good d' => exists H', dinv (k + lenN l) H' d' /\ dsame d d' /\ t_base (d_table d) <= t_base (d_table d') | Bad => True | Panic => False end.
Proof.
  induction l as [|i l IH]; intros k H d V; cbn [execute_all].
  - exists H. rewrite lenN_nil, N.add_0_r. split; auto. split; [unfold dsame; auto 10 | lia].
  - pose proof (execute_any k H d i V) as X. destruct (execute d i) as [d1| |]; cbn [rbind]; auto. destruct X as (H1 & V1 & S1 & B1). specialize (IH (k + 1) H1 d1 V1). destruct (execute_all d1 l) as [d'| |]; auto. destruct IH as (H' & V' & S' & B'). exists H'. rewrite lenN_cons. replace (k + (1 + lenN l)) with (k + 1 + lenN l) by lia. split; auto. split; [|lia].
    unfold dsame in *. decompose [and] S1. decompose [and] S'. splits; congruence.
Qed.
Lemma e_count : forall n s bs, (length bs <= n)%nat -> match e_feed s bs with (l, _, _) => lenN l <= lenN bs + match s with SInstr => 0 | _ => 1 end end.
Proof.
  induction n as [|n IH]; intros s bs L; rewrite e_feed_eq; destruct (e_read s bs) as [i r| | |] eqn:E; try (rewrite lenN_nil; lia); pose proof (e_takes _ _ _ _ E) as (T1 & T2).
  - destruct bs; [|cbn in L; lia]. destruct r; [|cbn in T1; lia]. destruct s; [specialize (T2 eq_refl); cbn in T2; lia| | |]; vm_compute; discriminate.
  - assert (Z : match e_feed SInstr r with (l, _, _) => lenN l <= lenN r end).
    { destruct (Nat.le_gt_cases (length r) n) as [Q|Q]; [specialize (IH SInstr r Q); destruct (e_feed SInstr r) as ((l, ?), ?); lia|]. assert (length r = Datatypes.S n) as LR by lia. rewrite e_feed_eq. destruct (e_read SInstr r) as [i2 r2| | |] eqn:E2; try (rewrite lenN_nil; lia). pose proof (e_takes _ _ _ _ E2) as (_ & T4). specialize (T4 eq_refl).
      specialize (IH SInstr r2 ltac:(lia)). destruct (e_feed SInstr r2) as ((l, ?), ?). rewrite lenN_cons. unfold lenN in *. lia. }
    destruct (e_feed SInstr r) as ((l, ?), ?). rewrite lenN_cons. destruct s; [specialize (T2 eq_refl)| | |]; unfold lenN in *; lia.
Qed.
Lemma receive_any : forall k H d bs, dinv k H d -> bytes_ok bs -> match dec_receive d bs with Good (d', _) => exists H', dinv (k + lenN bs + 1) H' d' /\ d_max_table d' = d_max_table d /\ d_maxb d' = d_maxb d | Bad => True | Panic => False end.
Proof.
  intros k H d bs V B. unfold dec_receive. pose proof (e_feed_ok (length bs) (d_reader d) bs (le_n _) (dv_reader _ _ _ V) B) as EO. pose proof (e_count (length bs) (d_reader d) bs (le_n _)) as EC. destruct (e_feed (d_reader d) bs) as ((l, r), f). destruct EO as (_ & RO & NP).
  assert (V1 : dinv k H (mkD r (d_table d) (d_acked d) (d_max_entries d) (d_out d) (d_local d) (d_max_table d) (d_maxb d) (d_blocked d))) by (ddv V; constructor; auto).
  pose proof (execute_all_any l k H _ V1) as X. destruct (execute_all _ l) as [d'| |]; cbn [rbind]; auto. destruct X as (H' & V' & (S1 & S2 & S3 & S4 & S5 & S6) & BB). destruct f; auto.
  assert (KK : lenN H' <= k + lenN bs + 1) by (pose proof (dv_k _ _ _ V'); destruct (d_reader d); lia). destruct (t_base (d_table d) =? t_base (d_table d')).
  - exists H'. split; auto. ddv V'. constructor; auto.
  - exists H'. split; [|cbn; auto]. ddv V'. constructor; auto. cbn [d_blocked d_maxb]. etransitivity; [|exact dv_bl0]. unfold lenN. pose proof (filter_len (fun p => negb (snd p <=? t_base (d_table d'))) (d_blocked d')). lia.
Qed.
Lemma block_any : forall k H d bs s, dinv k H d -> k < 2 ^ 62 -> bytes_ok bs -> match dec_block d bs s with Good (d', o) => dinv k H d' /\ d_max_table d' = d_max_table d /\ d_maxb d' = d_maxb d /\ (forall l, o = Some l -> total_size l <= MAX_LEN) | Bad => True | Panic => False end.
Proof.
  intros k H d bs s V KB B. pose proof V as V0. ddv V0. unfold dec_block.
  assert (M60 : d_max_entries d < 2 ^ 60). { rewrite dv_ent0. eapply N.le_lt_trans; [apply N.div_le_upper_bound with (q := d_max_table d); lia|]. eapply N.lt_trans; [exact dv_max0|]. reflexivity. }
  pose proof (decode_ok (d_table d) (d_max_entries d) bs B ltac:(lia) M60) as D. destruct (decode_block (d_table d) (d_max_entries d) bs) as [[req|req l]| |]; cbn [rbind]; auto.
  - destruct (existsb _ _); [splits; auto; intros; discriminate|]. destruct (N.leb_spec (d_maxb d) (lenN (d_blocked d))); auto. splits; auto; [|intros; discriminate]. constructor; auto. cbn [d_blocked d_maxb]. rewrite lenN_app, lenN_cons, lenN_nil. lia.
  - destruct D as (D1 & D2). destruct (req =? 0); splits; auto; try (intros l0 L; apply some_inj in L; subst; auto; fail). constructor; auto. cbn [d_acked d_table]. lia.
Qed.
(** *** Runs *)
Lemma dstep_any : forall k H d o, dinv k H d -> dop_ok o -> k + dweight o < 2 ^ 62 -> match dstep d o with Good (d', x) => exists H', dinv (k + dweight o) H' d' /\ small x /\ d_max_table d' = d_max_table d /\ d_maxb d' = d_maxb d | Bad => True | Panic => False end.
Proof.
  intros k H d o V O KB. destruct o as [bs|bs s|s|n|]; cbn [dstep dweight dop_ok] in *.
  - pose proof (receive_any k H d bs V O) as Q. destruct (dec_receive d bs) as [(d', ?)| |]; cbn [rbind]; auto. destruct Q as (H' & Q & Q1 & Q2). exists H'. rewrite N.add_assoc. cbn. auto.
  - rewrite N.add_0_r in *. pose proof (block_any k H d bs s V KB O) as Q. destruct (dec_block d bs s) as [(d', r)| |]; cbn [rbind]; auto. destruct Q as (Q & Q1 & Q2 & Q3). exists H. splits; auto. destruct r; cbn; auto.
  - rewrite N.add_0_r in *. exists H. unfold cancel_stream. destruct (0 <? _); cbn [small d_max_table d_maxb]; splits; auto. ddv V. constructor; auto. cbn [d_blocked d_maxb]. etransitivity; [|exact dv_bl0]. unfold lenN. pose proof (filter_len (fun p => negb (fst p =? s)) (d_blocked d)). lia.
  - rewrite N.add_0_r in *. unfold dec_send. pose proof (dv_acked _ _ _ V). destruct (N.ltb_spec (t_base (d_table d)) (d_acked d)); [lia|]. cbn [rbind]. exists H. cbn [small d_max_table d_maxb]. splits; auto. ddv V. constructor; auto. cbn [d_acked d_table]. destruct (0 <? _); lia.
  - rewrite N.add_0_r in *. destruct (d_local d) eqn:L; [exists H; cbn; auto|]. unfold dec_add_stream. rewrite L. cbn [rbind]. exists H. cbn [small d_max_table d_maxb]. splits; auto. ddv V. constructor; auto.
Qed.
Lemma drun_any : forall l k H d, dinv k H d -> Forall dop_ok l -> k + dweights l < 2 ^ 62 -> match drun d l with Good (d', xs) => exists H', dinv (k + dweights l) H' d' /\ Forall small xs /\ d_max_table d' = d_max_table d /\ d_maxb d' = d_maxb d | Bad => True | Panic => False end.
Proof.
  induction l as [|o l IH]; intros k H d V F KB; cbn [drun dweights fold_right] in *.
  - exists H. rewrite N.add_0_r. auto.
  - fold (dweights l) in *. inversion F as [|? ? F1 F2]. subst. pose proof (dstep_any k H d o V F1 ltac:(lia)) as Q. destruct (dstep d o) as [(d1, x)| |]; cbn [rbind]; auto. destruct Q as (H1 & V1 & S1 & Q1 & Q2).
    specialize (IH (k + dweight o) H1 d1 V1 F2 ltac:(lia)). destruct (drun d1 l) as [(d2, xs)| |]; cbn [rbind]; auto. destruct IH as (H2 & V2 & S2 & Q3 & Q4). exists H2. rewrite N.add_assoc. splits; auto; congruence.
Qed.
Lemma dnew_inv : forall mt mb, mt < 2 ^ 30 -> dinv 0 [] (dec_new mt mb).
Proof.
  intros mt mb L. constructor; cbn [dec_new d_table d_max_table d_reader d_acked d_max_entries d_maxb d_blocked table_new t_base t_cap]; auto; try lia; try (cbn; lia); try exact Logic.I.
  - unfold t_ok. cbn. splits; auto; discriminate.
  - split; [constructor | reflexivity].
  - rewrite N.shiftr_div_pow2. auto.
Qed.
Lemma firstn_last {A} : forall n (l : list A) x, nth_error l n = Some x -> firstn (S n) l = firstn n l ++ [x].
Proof. induction n as [|n IH]; intros [|a l] x E; cbn in E; try discriminate; [apply some_inj in E; subst; auto|]. cbn [firstn List.app]. rewrite <- (IH l x E). auto. Qed.
Definition pairs (l : list entry) : list header := map (fun e => (x_name e, x_value e)) l.
Lemma win_holds : forall l H b, win H b l -> exists old, firstn (N.to_nat b) H = old ++ rev (pairs l).
Proof.
  induction l as [|e l IH]; intros H b W; [exists (firstn (N.to_nat b) H); cbn; rewrite app_nil_r; auto|]. destruct W as (P & _ & E & W). destruct (IH H (b - 1) W) as (old & O). exists old. replace (N.to_nat b) with (S (N.to_nat (b - 1))) by lia. rewrite (firstn_last _ _ _ E), O. cbn [pairs map rev]. rewrite app_assoc. auto.
Qed.
Lemma sizes_total : forall l, sizes l = total_size (pairs l). Proof. induction l as [|e l IH]; auto. cbn [sizes fold_right pairs map total_size]. unfold sizes, total_size, pairs in IH. rewrite IH. reflexivity. Qed.
Lemma t_ok_holds : forall H t, t_ok H t -> holds H t.
Proof. intros H t (W & U1 & U2 & U3). destruct (win_holds _ _ _ W) as (old & E). exists old. splits; auto. rewrite U1. apply sizes_total. Qed.

(** The encoder alone. *)
Definition enxt (b : N) (o : eop) : N := match o with ELimits _ b' => b' | _ => b end.
Lemma estep_any : forall k H e o, einv H [] e -> lenN H <= k -> k + eweight o < 2 ^ 62 -> eop_ok (n_huff e) o -> n_maxb e <= enxt (n_maxb e) o -> t_cap (n_table e) <= n_max_table e -> cap_ok (n_max_table e) e ->
  match estep e o with Good e' => exists H', einv H' [] e' /\ lenN H' <= k + eweight o /\ n_huff e' = n_huff e /\ n_max_table e' = n_max_table e /\ n_maxb e' = enxt (n_maxb e) o /\ t_cap (n_table e') <= n_max_table e /\ cap_ok (n_max_table e) e' | Bad => True | Panic => False end.
Proof.
  intros k H e o V L KB O GR CA CO. destruct o as [cap b| |s l sends|sends|bs]; cbn [estep eweight eop_ok enxt] in *; rewrite ?N.add_0_r in *.
  - unfold set_max_capacity. destruct (N.ltb_spec (2 ^ 30 - 1) cap) as [C|C]; [exact Logic.I|]. replace (2 ^ 30 - 1) with 1073741823 in C by reflexivity. destruct (cap =? t_cap (n_table e)); cbn [rbind]; unfold set_max_blocked; destruct (N.leb_spec 65536 b); auto; exists H; cbn [with_maxb with_next n_huff n_max_table n_maxb n_table n_next]; splits; auto.
    + dev V. constructor; auto. cbn [with_maxb n_cnt n_maxb]. lia.
    + dev V. constructor; auto; cbn [with_maxb with_next n_cnt n_maxb n_next]; [lia|]. intros c X. apply some_inj in X. replace (2 ^ 30) with 1073741824 by reflexivity. lia.
    + intros c X. cbn in X. apply some_inj in X. lia.
  - destruct (n_local e) eqn:NL; try (exists H; splits; auto; fail). unfold add_send_stream. rewrite NL. exists H. cbn [with_local n_huff n_max_table n_maxb n_table]. splits; auto. apply set_next_ev. auto.
  - destruct (encode_spec H (n_max_table e) e (sends, []) l s V O ltac:(lia) CO) as (e1 & x1 & b1 & l1 & ins & refs & -> & V1 & LI & _ & _ & _ & CO1 & (C1 & C2 & C3 & C4 & _) & _ & _ & CC & _). cbn [rbind]. exists (H ++ ins). rewrite lenN_app. splits; auto; try lia; destruct CC as [Z|(Z & _)]; lia.
  - destruct (send_updates_spec H (n_max_table e) e (sends, []) V) as (e1 & x1 & ok & l1 & -> & V1 & (C1 & C2 & C3 & C4 & _) & _ & _ & _ & _ & _ & CO1 & CC & _); auto; [change (2 ^ 63) with (2 * 2 ^ 62); lia|]. cbn [rbind]. exists H. splits; auto. destruct CC as [(Z & _)|(Z & _)]; [rewrite Z; auto | lia].
  - unfold enc_receive. pose proof (d_feed_ok (length bs) _ _ (le_n _) (ev_reader _ _ _ V) O) as DO. destruct (d_feed (n_reader e) bs) as ((l, r), f). destruct DO as (DO & NP).
    assert (VR : einv H [] (with_reader r e)) by (dev V; constructor; auto). pose proof (call_all_spec H l _ VR ltac:(change (2 ^ 63) with (2 * 2 ^ 62); lia)) as CS. destruct (call_all (with_reader r e) l) as [e'| |]; cbn [rbind]; auto. destruct CS as (V' & (K1 & K2 & K3 & K4 & K5 & K6 & K7 & K8) & (T1 & T2 & _)). cbn [with_reader n_table n_max_table n_max_entries n_local n_maxb n_maxt n_huff n_next n_reader] in *.
    destruct f; auto. exists H. splits; auto; [lia|]. unfold cap_ok. rewrite K7. auto.
Qed.
Lemma erun_any : forall l k H e, einv H [] e -> lenN H <= k -> k + eweights l < 2 ^ 62 -> Forall (eop_ok (n_huff e)) l -> grows (n_maxb e) l -> t_cap (n_table e) <= n_max_table e -> cap_ok (n_max_table e) e ->
  match erun e l with Good e' => exists H', einv H' [] e' /\ t_cap (n_table e') <= n_max_table e | Bad => True | Panic => False end.
Proof.
  induction l as [|o l IH]; intros k H e V L KB F G CA CO; cbn [erun]; [eauto|]. cbn [eweights fold_right] in KB. fold (eweights l) in KB. inversion F as [|? ? F1 F2]. subst.
  assert (G2 : n_maxb e <= enxt (n_maxb e) o /\ grows (enxt (n_maxb e) o) l) by (destruct o; cbn [grows enxt] in *; split; try lia; tauto). destruct G2 as (G2 & G3).
  pose proof (estep_any k H e o V L ltac:(lia) F1 G2 CA CO) as Q. destruct (estep e o) as [e1| |]; cbn [rbind]; auto. destruct Q as (H1 & V1 & L1 & E1 & E2 & E3 & E4 & E5).
  rewrite <- E2 in E4, E5 |- *. rewrite <- E1 in F2. rewrite <- E3 in G3. apply (IH (k + eweight o) H1 e1); auto. lia.
Qed.
Lemma enew_inv : forall mt tr huff, einv [] [] (enc_new mt tr huff).
Proof.
  intros. constructor; cbn [enc_new n_table n_max_table n_max_entries n_reader n_local n_maxb n_maxt n_unacked n_cnt n_huff n_next table_new t_dyn t_base t_acked t_cap t_used ublocks flat_map List.app]; auto; try (cbn; lia); try constructor; try discriminate; cbn; auto; try (splits; auto; lia); try (intros e []).
Qed.
