From Verif Require Import Base Lib QpTables QiModel QiSpec QiProofs QiProofs2 QbModel QbSpec QbProofs.
Open Scope N_scope.
Open Scope list_scope.
Import ListNotations.

(** *** The lines of a header block *)
Inductive fld := FS (i : N) | FD (i : N) | FNS (i : N) (v : list N) | FND (i : N) (v : list N) | FL (n v : list N).
Definition f_bytes (huff : bool) (base : N) (f : fld) : option (list N) :=
  match f with
  | FS i => Some (encode_int HEADER_FIELD_INDEX_STATIC i)
  | FD i => Some (if i <? base then encode_int HEADER_FIELD_INDEX_DYNAMIC (base - i - 1) else encode_int HEADER_FIELD_INDEX_DYNAMIC_POST (i - base))
  | FNS i v => oapp (Some (encode_int HEADER_FIELD_LITERAL_NAME_REF_STATIC i)) (encode_literal huff NO_PREFIX v)
  | FND i v => oapp (Some (if i <? base then encode_int HEADER_FIELD_LITERAL_NAME_REF_DYNAMIC (base - i - 1) else encode_int HEADER_FIELD_LITERAL_NAME_REF_DYNAMIC_POST (i - base))) (encode_literal huff NO_PREFIX v)
  | FL n v => oapp (encode_literal huff HEADER_FIELD_LITERAL_NAME_LITERAL n) (encode_literal huff NO_PREFIX v)
  end.
Definition f_head (H : list header) (f : fld) : option header :=
  match f with
  | FS i => nth_error STATIC (N.to_nat i)
  | FD i => nth_error H (N.to_nat i)
  | FNS i v => match nth_error STATIC (N.to_nat i) with Some e => Some (fst e, v) | None => None end
  | FND i v => match nth_error H (N.to_nat i) with Some e => Some (fst e, v) | None => None end
  | FL n v => Some (n, v)
  end.
Definition f_ref (f : fld) : option N := match f with FD i | FND i _ => Some i | _ => None end.
(** A header that can be sent and read. *)
Definition h_fits (huff : bool) (h : header) : Prop := bytes_ok (fst h) /\ bytes_ok (snd h) /\ utf8 (fst h) = true /\ lenN (enc huff (fst h)) <= MAX_LEN /\ lenN (enc huff (snd h)) <= MAX_LEN.

(** Integers with an eight-bit prefix. *)
Lemma land255 : forall x, x < 256 -> N.land x 255 = x. Proof. intros. change 255 with (N.ones 8). rewrite N.land_ones. apply N.mod_small. auto. Qed.
Lemma int_trip0 : forall v rest, v < 2 ^ 64 -> buf_int 0 (encode_int NO_PREFIX v ++ rest) = Good (v, rest) /\ encode_int NO_PREFIX v <> [].
Proof.
  intros v rest V. unfold encode_int, buf_int. change (first_max (p_len NO_PREFIX)) with 255. cbn [p_val NO_PREFIX]. destruct (N.ltb_spec v 255).
  - change (N.land 0 (255 - 255)) with 0. rewrite N.lor_0_l. cbn [List.app]. unfold int_new. change (first_max 0) with 255. rewrite land255 by lia. apply N.ltb_lt in H. rewrite H.
    destruct rest; cbn; split; auto; discriminate.
  - cbn [List.app]. change (N.lor 0 255) with 255. unfold int_new. change (first_max 0) with 255. rewrite land255 by lia. change (255 <? 255) with false.
    rewrite (int_tail_read 10 (v - 255) 255 0 rest); try lia.
    change (2 ^ 0) with 1. replace (255 + (v - 255) * 1) with v by lia. split; auto. discriminate.
Qed.

(** Which line a first byte starts. *)
Definition isb (p : prefix) (b : N) (x : bool) : Prop := cmp_prefix p b = x.
Lemma fk_static : forall b, 192 <= b < 256 -> cmp_prefix HEADER_FIELD_INDEX_STATIC b = true. Proof. bytecheck 192%nat 64%nat. Qed.
Lemma fk_dynamic : forall b, 128 <= b < 192 -> (cmp_prefix HEADER_FIELD_INDEX_STATIC b, cmp_prefix HEADER_FIELD_INDEX_DYNAMIC b) = (false, true). Proof. bytecheck 128%nat 64%nat. Qed.
Lemma fk_post : forall b, 16 <= b < 32 -> (cmp_prefix HEADER_FIELD_INDEX_STATIC b, cmp_prefix HEADER_FIELD_INDEX_DYNAMIC b, cmp_prefix HEADER_FIELD_INDEX_DYNAMIC_POST b) = (false, false, true). Proof. bytecheck 16%nat 16%nat. Qed.
Definition cmps (b : N) := (cmp_prefix HEADER_FIELD_INDEX_STATIC b, cmp_prefix HEADER_FIELD_INDEX_DYNAMIC b, cmp_prefix HEADER_FIELD_INDEX_DYNAMIC_POST b,
  (cmp_prefix HEADER_FIELD_LITERAL_NAME_REF_STATIC b, cmp_prefix HEADER_FIELD_LITERAL_NAME_REF_DYNAMIC b, cmp_prefix HEADER_FIELD_LITERAL_NAME_LITERAL b, cmp_prefix HEADER_FIELD_LITERAL_NAME_REF_DYNAMIC_POST b)).
Lemma fk_nstatic : forall b, 80 <= b < 96 -> cmps b = (false, false, false, (true, false, false, false)). Proof. bytecheck 80%nat 16%nat. Qed.
Lemma fk_ndynamic : forall b, 64 <= b < 80 -> cmps b = (false, false, false, (false, true, false, false)). Proof. bytecheck 64%nat 16%nat. Qed.
Lemma fk_literal : forall b, 32 <= b < 48 -> cmps b = (false, false, false, (false, false, true, false)). Proof. bytecheck 32%nat 16%nat. Qed.
Lemma fk_npost : forall b, 0 <= b < 8 -> cmps b = (false, false, false, (false, false, false, true)). Proof. bytecheck 0%nat 8%nat. Qed.
Lemma fk_any : forall b, 0 <= b < 256 -> (let '(a, c, d, (e, f, g, h)) := cmps b in a || c || d || e || f || g || h) = true. Proof. bytecheck 0%nat 256%nat. Qed.

Lemma wf_any : forall v l m, 1 <= l <= 7 -> (exists q, v = q * 2 ^ (8 - l) /\ q < 2 ^ l) -> wf_prefix (mkP v l m). Proof. intros v l m H (q & E & Q). split; auto. exists q. auto. Qed.
Ltac wfa q := apply wf_any; [lia | exists q; split; [reflexivity | reflexivity]].
Lemma wf_is : wf_prefix HEADER_FIELD_INDEX_STATIC. Proof. wfp 3. Qed.
Lemma wf_id : wf_prefix HEADER_FIELD_INDEX_DYNAMIC. Proof. wfp 2. Qed.
Lemma wf_ip : wf_prefix HEADER_FIELD_INDEX_DYNAMIC_POST. Proof. wfp 1. Qed.
Lemma wf_ns : wf_prefix HEADER_FIELD_LITERAL_NAME_REF_STATIC. Proof. wfa 5. Qed.
Lemma wf_nd : wf_prefix HEADER_FIELD_LITERAL_NAME_REF_DYNAMIC. Proof. wfa 4. Qed.
Lemma wf_np : wf_prefix HEADER_FIELD_LITERAL_NAME_REF_DYNAMIC_POST. Proof. wfa 0. Qed.
Lemma wf_bp : wf_prefix BASE_PREFIX_POSITIVE. Proof. wfp 0. Qed.
Lemma wf_bn : wf_prefix BASE_PREFIX_NEGATIVE. Proof. wfp 1. Qed.
Lemma wf_nl : wf_lit HEADER_FIELD_LITERAL_NAME_LITERAL. Proof. split; [cbn; lia|]. exists 2. split; reflexivity. Qed.
(** The first byte and the value. *)
Lemma int_first : forall p v rest, wf_prefix p -> v < 2 ^ 64 -> exists b tl, encode_int p v ++ rest = b :: tl /\ p_val p <= b < p_val p + 2 ^ (8 - p_len p) /\ buf_int (p_len p) (b :: tl) = Good (v, rest).
Proof.
  intros p v rest W V. destruct (read_int_tail p v rest W V) as (b & tl & E & B & _). exists b, (tl ++ rest). pose proof (int_trip p v rest W V) as T. rewrite E in *. cbn [List.app] in *. splits; auto.
  - lia.
  - rewrite B. pose proof (first_range p v (proj1 W)). lia.
Qed.
Lemma static_facts : forallb (fun e => utf8 (fst e) && forallb (fun b => b <? 256) (fst e) && forallb (fun b => b <? 256) (snd e)) STATIC = true. Proof. vm_compute. reflexivity. Qed.
Lemma static_utf8 : forall i e, nth_error STATIC i = Some e -> utf8 (fst e) = true.
Proof. intros i e H. apply nth_error_In in H. pose proof static_facts as F. rewrite forallb_forall in F. apply F in H. apply andb_prop in H. destruct H as (H & _). apply andb_prop in H. tauto. Qed.
Lemma get_dyn_good : forall H t base i, t_ok H t -> pres t i -> base < 2 ^ 63 -> t_base t < 2 ^ 63 ->
  (if i <? base then get_dynamic t (base - i - 1) base false else get_dynamic t (i - base) base true) = match get_abs t i with Good e => Good e | _ => Bad end.
Proof.
  intros H t base i O P B1 B2. destruct (get_abs_good H t i (proj1 O) P) as (e & G & _). rewrite G. unfold get_abs in G. destruct P as (P1 & P2). destruct (N.leb_spec (t_base t) i); [lia|].
  unfold get_dynamic. destruct (N.ltb_spec i base).
  - destruct (N.leb_spec (2 ^ 64) (t_base t + (base - i - 1))); [change (2 ^ 64) with (2 ^ 63 + 2 ^ 63) in *; lia|]. destruct (N.ltb_spec (t_base t + (base - i - 1)) base); [lia|].
    replace (t_base t + (base - i - 1) - base) with (t_base t - i - 1) by lia. auto.
  - destruct (N.leb_spec (2 ^ 64) (base + (i - base) + 1)); [change (2 ^ 64) with (2 ^ 63 + 2 ^ 63) in *; lia|]. destruct (N.ltb_spec (t_base t) (base + (i - base) + 1)); [lia|].
    replace (t_base t - (base + (i - base) + 1)) with (t_base t - i - 1) by lia. auto.
Qed.
Lemma dyn_entry_good : forall H t base req i h, t_ok H t -> pres t i -> i < req -> base < 2 ^ 63 -> t_base t < 2 ^ 63 -> nth_error H (N.to_nat i) = Some h ->
  exists e, (if i <? base then dynamic_entry t base req (base - i - 1) false else dynamic_entry t base req (i - base) true) = Good e /\ (x_name e, x_value e) = h.
Proof.
  intros H t base req i h O P R B1 B2 N1. pose proof (get_dyn_good H t base i O P B1 B2) as G. destruct (get_abs_good H t i (proj1 O) P) as (e & A & _ & X & N2). rewrite A in G. exists e. split; [|congruence].
  unfold dynamic_entry. destruct (i <? base); rewrite G; cbn [rbind]; rewrite X; destruct (N.leb_spec req i); try lia; auto.
Qed.
Ltac pairs E := repeat (apply pair_equal_spec in E; let F := fresh "K" in destruct E as (E & F)).
Lemma field_trip : forall huff H t base req f h rest, t_ok H t -> base < 2 ^ 63 -> t_base t < 2 ^ 63 -> f_head H f = Some h -> h_fits huff h ->
  (forall i, f_ref f = Some i -> pres t i /\ i < req) -> (forall i v, f = FS i \/ f = FNS i v -> i < 2 ^ 63) ->
  exists w, f_bytes huff base f = Some w /\ w <> [] /\ field t base req (w ++ rest) = Good (h, rest).
Proof.
  intros huff H t base req f h rest O B1 B2 E (Q1 & Q2 & Q3 & Q4 & Q5) R SI. destruct f as [i|i|i v|i v|n v]; cbn [f_bytes f_head f_ref] in *.
  - exists (encode_int HEADER_FIELD_INDEX_STATIC i). split; auto. assert (I : i < 2 ^ 64) by (specialize (SI i [] ltac:(auto)); change (2 ^ 64) with (2 ^ 63 + 2 ^ 63); lia).
    destruct (int_first _ i rest wf_is I) as (b & tl & A & B & C). split; [intros X; rewrite X in A; pose proof (int_first _ i [] wf_is I) as (? & ? & Z & _); rewrite X in Z; discriminate|].
    rewrite A. unfold field. cbn [p_val p_len HEADER_FIELD_INDEX_STATIC mkp] in B. rewrite fk_static by (change (2 ^ (8 - 2)) with 64 in B; lia). rewrite C. cbn [rbind]. unfold get_static. rewrite E. cbn [rbind]. unfold named. rewrite Q3. destruct h; auto.
  - destruct (R i eq_refl) as (P & Rq). destruct (dyn_entry_good H t base req i h O P Rq B1 B2 E) as (e & D & DH). subst h. cbn [fst snd] in *. assert (L1 : i < 2 ^ 63) by (destruct P; lia).
    destruct (N.ltb_spec i base).
    + assert (I : base - i - 1 < 2 ^ 64) by (change (2 ^ 64) with (2 ^ 63 + 2 ^ 63); lia). eexists. split; [reflexivity|]. destruct (int_first _ _ rest wf_id I) as (b & tl & A & B & C).
      split; [intros X; pose proof (int_first _ _ [] wf_id I) as (? & ? & Z & _); rewrite X in Z; discriminate|]. rewrite A. unfold field. cbn [p_val p_len HEADER_FIELD_INDEX_DYNAMIC mkp] in B.
      pose proof (fk_dynamic b ltac:(change (2 ^ (8 - 2)) with 64 in B; lia)) as K. pairs K. rewrite K, K0. unfold indexed_dynamic. rewrite C. cbn [rbind]. rewrite D. cbn [rbind]. unfold named. rewrite Q3. auto.
    + assert (I : i - base < 2 ^ 64) by (change (2 ^ 64) with (2 ^ 63 + 2 ^ 63); lia). eexists. split; [reflexivity|]. destruct (int_first _ _ rest wf_ip I) as (b & tl & A & B & C).
      split; [intros X; pose proof (int_first _ _ [] wf_ip I) as (? & ? & Z & _); rewrite X in Z; discriminate|]. rewrite A. unfold field. cbn [p_val p_len HEADER_FIELD_INDEX_DYNAMIC_POST mkp] in B.
      pose proof (fk_post b ltac:(change (2 ^ (8 - 4)) with 16 in B; lia)) as K. pairs K. rewrite K, K0, K1. unfold indexed_dynamic. rewrite C. cbn [rbind]. rewrite D. cbn [rbind]. unfold named. rewrite Q3. auto.
  - destruct (nth_error STATIC (N.to_nat i)) as [e|] eqn:S; [|discriminate]. apply some_inj in E. subst h. cbn [fst snd] in *. assert (I : i < 2 ^ 64) by (specialize (SI i v ltac:(auto)); change (2 ^ 64) with (2 ^ 63 + 2 ^ 63); lia).
    destruct (lit_default_trip huff v rest Q2 Q5) as (w & W1 & _ & W2). rewrite W1. cbn [oapp]. eexists. split; [reflexivity|].
    destruct (int_first _ i (w ++ rest) wf_ns I) as (b & tl & A & B & C). split; [intros X; apply app_eq_nil in X; destruct X as (X & _); pose proof (int_first _ _ [] wf_ns I) as (? & ? & Z & _); rewrite X in Z; discriminate|].
    rewrite <- app_assoc, A. unfold field. cbn [p_val p_len HEADER_FIELD_LITERAL_NAME_REF_STATIC] in B. pose proof (fk_nstatic b ltac:(change (2 ^ (8 - 4)) with 16 in B; lia)) as K. unfold cmps in K. pairs K.
    pairs K0. rewrite K, K2, K1, K0. rewrite C. cbn [rbind]. unfold get_static. rewrite S. cbn [rbind]. unfold with_value. rewrite Q3, W2. auto.
  - destruct (nth_error H (N.to_nat i)) as [e0|] eqn:S; [|discriminate]. apply some_inj in E. subst h. cbn [fst snd] in *. destruct (R i eq_refl) as (P & Rq).
    destruct (dyn_entry_good H t base req i e0 O P Rq B1 B2 S) as (e & D & DH). subst e0. cbn [fst snd] in *. assert (L1 : i < 2 ^ 63) by (destruct P; lia).
    destruct (lit_default_trip huff v rest Q2 Q5) as (w & W1 & _ & W2). rewrite W1. cbn [oapp]. destruct (N.ltb_spec i base).
    + assert (I : base - i - 1 < 2 ^ 64) by (change (2 ^ 64) with (2 ^ 63 + 2 ^ 63); lia). eexists. split; [reflexivity|]. destruct (int_first _ _ (w ++ rest) wf_nd I) as (b & tl & A & B & C).
      split; [intros X; apply app_eq_nil in X; destruct X as (X & _); pose proof (int_first _ _ [] wf_nd I) as (? & ? & Z & _); rewrite X in Z; discriminate|]. rewrite <- app_assoc, A. unfold field.
      cbn [p_val p_len HEADER_FIELD_LITERAL_NAME_REF_DYNAMIC] in B. pose proof (fk_ndynamic b ltac:(change (2 ^ (8 - 4)) with 16 in B; lia)) as K. unfold cmps in K. pairs K. pairs K0.
      rewrite K, K2, K1, K0, K5. unfold name_ref_dynamic. rewrite C. cbn [rbind]. rewrite D. cbn [rbind]. unfold with_value. rewrite Q3, W2. auto.
    + assert (I : i - base < 2 ^ 64) by (change (2 ^ 64) with (2 ^ 63 + 2 ^ 63); lia). eexists. split; [reflexivity|]. destruct (int_first _ _ (w ++ rest) wf_np I) as (b & tl & A & B & C).
      split; [intros X; apply app_eq_nil in X; destruct X as (X & _); pose proof (int_first _ _ [] wf_np I) as (? & ? & Z & _); rewrite X in Z; discriminate|]. rewrite <- app_assoc, A. unfold field.
      cbn [p_val p_len HEADER_FIELD_LITERAL_NAME_REF_DYNAMIC_POST] in B. pose proof (fk_npost b ltac:(change (2 ^ (8 - 5)) with 8 in B; lia)) as K. unfold cmps in K. pairs K. pairs K0.
      rewrite K, K2, K1, K0, K5, K4, K3. unfold name_ref_dynamic. rewrite C. cbn [rbind]. rewrite D. cbn [rbind]. unfold with_value. rewrite Q3, W2. auto.
  - apply some_inj in E. subst h. cbn [fst snd] in *. destruct (lit_default_trip huff v rest Q2 Q5) as (w & W1 & _ & W2).
    destruct (literal_first huff HEADER_FIELD_LITERAL_NAME_LITERAL n (w ++ rest) wf_nl Q1 Q4) as (b & tl & A & B & _ & _ & C). rewrite A, W1. cbn [oapp]. eexists. split; [reflexivity|]. split; [discriminate|].
    cbn [p_val p_len HEADER_FIELD_LITERAL_NAME_LITERAL] in B. pose proof (fk_literal b ltac:(change (2 ^ (8 - 4)) with 16 in B; lia)) as K. unfold cmps in K. pairs K. pairs K0.
    rewrite <- app_assoc. cbn [List.app]. unfold field. rewrite K, K2, K1, K0, K5, K4. rewrite C. cbn [rbind]. unfold with_value. rewrite Q3, W2. auto.
Qed.

(** *** The whole block *)
Fixpoint concat_o (l : list (option (list N))) : option (list N) := match l with [] => Some [] | x :: l' => oapp x (concat_o l') end.
Lemma concat_o_snoc : forall l x, concat_o (l ++ [x]) = oapp (concat_o l) x.
Proof.
  induction l as [|y l IH]; intros x; cbn [List.app concat_o].
  - destruct x; cbn; rewrite ?app_nil_r; auto.
  - rewrite IH. destruct y, (concat_o l), x; cbn; rewrite ?app_assoc; auto.
Qed.
Definition f_static_ok (f : fld) : Prop := match f with FS i | FNS i _ => i < 2 ^ 63 | _ => True end.
Lemma fields_trip : forall huff H t base req fs hs room w, t_ok H t -> base < 2 ^ 63 -> t_base t < 2 ^ 63 -> Forall2 (fun f h => f_head H f = Some h) fs hs -> Forall (h_fits huff) hs -> Forall f_static_ok fs ->
  (forall f i, In f fs -> f_ref f = Some i -> pres t i /\ i < req) -> total_size hs <= room -> concat_o (map (f_bytes huff base) fs) = Some w ->
  forall fuel, (length w <= fuel)%nat -> fields fuel t base req w room = Good hs.
Proof.
  intros huff H t base req fs. induction fs as [|f fs IH]; intros hs room w O B1 B2 F2 Ff Fs R T C fuel L.
  - inversion F2; subst. cbn in C. apply some_inj in C. subst w. destruct fuel; auto.
  - inversion F2 as [|? h ? hs' E1 E2]; subst. inversion Ff as [|? ? G1 G2]; subst. inversion Fs as [|? ? S1 S2]; subst. cbn [map concat_o] in C.
    destruct (concat_o (map (f_bytes huff base) fs)) as [w2|] eqn:C2; [|destruct (f_bytes huff base f); discriminate].
    destruct (field_trip huff H t base req f h w2 O B1 B2 E1 G1) as (w1 & A1 & A2 & A3).
    { intros i I. apply (R f i); auto. left. auto. }
    { intros i v [->| ->]; exact S1. }
    rewrite A1 in C. cbn [oapp] in C. apply some_inj in C. subst w. destruct w1 as [|x w1]; [tauto|]. rewrite app_length in L. cbn [length] in L. destruct fuel as [|fuel]; [lia|].
    cbn [fields]. cbn [List.app] in A3 |- *. rewrite A3. cbn [rbind]. unfold total_size in T. cbn [fold_right] in T. fold (total_size hs') in T. unfold header_size at 1 in T. destruct (N.ltb_spec room (lenN (fst h) + lenN (snd h) + 32)); [lia|].
    rewrite (IH hs' (room - (lenN (fst h) + lenN (snd h) + 32)) w2); auto; try lia. intros f' i I. apply R. right. auto.
Qed.
(** The required insert count (RFC 9204, section 4.5.1.1). *)
Lemma calc_req_trip : forall req M total, 0 < req -> 0 < M -> total < req + M -> req <= total + M -> total < 2 ^ 62 -> M < 2 ^ 60 -> calc_req (req mod (2 * M) + 1) M total = Good req.
Proof.
  intros req M total R Mp L U T Mb. unfold calc_req. destruct (N.eqb_spec (req mod (2 * M) + 1) 0); [lia|]. destruct (N.eqb_spec M 0); [lia|].
  pose proof (N.mod_lt req (2 * M) ltac:(lia)) as Hm. destruct (N.ltb_spec (2 * M) (req mod (2 * M) + 1)); [lia|].
  change (2 ^ 62) with 4611686018427387904 in *. change (2 ^ 60) with 1152921504606846976 in *. change (2 ^ 64) with 18446744073709551616.
  destruct (N.leb_spec 18446744073709551616 (total + M)); [lia|].
  pose proof (N.div_mod' req (2 * M)) as D1. pose proof (N.div_mod' (total + M) (2 * M)) as D2. pose proof (N.mod_lt (total + M) (2 * M) ltac:(lia)) as Hm2.
  set (q1 := req / (2 * M)) in *. set (q2 := (total + M) / (2 * M)) in *. set (s1 := req mod (2 * M)) in *. set (s2 := (total + M) mod (2 * M)) in *. clearbody q1 q2 s1 s2.
  replace (q2 * (2 * M) + (s1 + 1) - 1) with (2 * M * q2 + s1) by nia.
  assert (q1 = q2 \/ q1 + 1 = q2) as [Q|Q] by nia.
  - subst q2. rewrite <- D1. destruct (N.leb_spec 18446744073709551616 (req + 1)); [lia|]. destruct (N.ltb_spec (total + M) req); [lia|]. destruct (N.eqb_spec req 0); [lia|]. auto.
  - assert (X : 2 * M * q2 + s1 = req + 2 * M) by nia. rewrite X. destruct (N.leb_spec 18446744073709551616 (req + 2 * M + 1)); [lia|].
    destruct (N.ltb_spec (total + M) (req + 2 * M)); [|lia]. destruct (N.ltb_spec (req + 2 * M) (2 * M)); [lia|]. replace (req + 2 * M - 2 * M) with req by lia. destruct (N.eqb_spec req 0); [lia|]. auto.
Qed.
Lemma read_base_pos : forall c delta rest req M total, c < 2 ^ 64 -> delta < 2 ^ 63 -> calc_req c M total = Good req -> req < 2 ^ 63 ->
  read_base (encode_int NO_PREFIX c ++ encode_int BASE_PREFIX_POSITIVE delta ++ rest) M total = Good (req, req + delta, rest).
Proof.
  intros c delta rest req M total C D E R. assert (DD : delta < 2 ^ 64) by (change (2 ^ 64) with (2 ^ 63 + 2 ^ 63); lia). unfold read_base. destruct (int_trip0 c (encode_int BASE_PREFIX_POSITIVE delta ++ rest) C) as (A & _). rewrite A. cbn [rbind]. rewrite E. cbn [rbind].
  destruct (int_first _ delta rest wf_bp DD) as (b & tl & A2 & B & T). rewrite A2. cbn [p_val p_len BASE_PREFIX_POSITIVE mkp] in *. change (2 ^ (8 - 1)) with 128 in B. rewrite (proj1 (high_bit b ltac:(lia))). cbn [N.eqb negb]. rewrite T. cbn [rbind].
  destruct (N.leb_spec (2 ^ 64) (req + delta)); [change (2 ^ 64) with (2 ^ 63 + 2 ^ 63) in *; lia|]. auto.
Qed.
Lemma read_base_neg : forall c delta rest req M total, c < 2 ^ 64 -> delta < req -> calc_req c M total = Good req -> req < 2 ^ 63 ->
  read_base (encode_int NO_PREFIX c ++ encode_int BASE_PREFIX_NEGATIVE delta ++ rest) M total = Good (req, req - delta - 1, rest).
Proof.
  intros c delta rest req M total C D E R. assert (DD : delta < 2 ^ 64) by (change (2 ^ 64) with (2 ^ 63 + 2 ^ 63); lia). unfold read_base. destruct (int_trip0 c (encode_int BASE_PREFIX_NEGATIVE delta ++ rest) C) as (A & _). rewrite A. cbn [rbind]. rewrite E. cbn [rbind].
  destruct (int_first _ delta rest wf_bn DD) as (b & tl & A2 & B & T). rewrite A2. cbn [p_val p_len BASE_PREFIX_NEGATIVE mkp] in *. change (2 ^ (8 - 1)) with 128 in B.
  assert (HB : N.land b 128 = 128). { replace b with (N.lor (b - 128) 128) by (rewrite lor128 by lia; lia). apply high_bit. lia. }
  rewrite HB. cbn [N.eqb negb]. rewrite T. cbn [rbind]. destruct (N.leb_spec req delta); [lia|]. auto.
Qed.
Definition max_ref (fs : list fld) (r : option N) : Prop :=
  match r with None => forall f, In f fs -> f_ref f = None | Some x => (exists f, In f fs /\ f_ref f = Some x) /\ forall f i, In f fs -> f_ref f = Some i -> i <= x end.
Lemma block_trip : forall huff H t base Me M fs hs w r bytes, t_ok H t -> base < 2 ^ 62 -> lenN H < 2 ^ 62 -> M < 2 ^ 60 -> Forall2 (fun f h => f_head H f = Some h) fs hs -> Forall (h_fits huff) hs -> Forall f_static_ok fs ->
  total_size hs <= MAX_LEN -> concat_o (map (f_bytes huff base) fs) = Some w -> max_ref fs r -> h_prefix (mkH w base huff Me r) = Good bytes ->
  match r with
  | None => decode_block t M bytes = Good (Headers 0 hs)
  | Some x => Me = M -> t_base t < x + 1 + M -> x + 1 <= t_base t + M ->
      decode_block t M bytes = if t_base t <? x + 1 then Good (Blocked (x + 1)) else
        if forallb (fun f => match f_ref f with Some i => oldest t <=? i | None => true end) fs then Good (Headers (x + 1) hs) else decode_block t M bytes
  end.
Proof.
  intros huff H t base Me M fs hs w r bytes O B LH MB F2 Ff Fs T C R P. pose proof O as (_ & _ & _ & TB).
  assert (P62 : 2 ^ 63 = 2 ^ 62 + 2 ^ 62) by reflexivity. assert (P63 : 2 ^ 64 = 2 ^ 63 + 2 ^ 63) by reflexivity. unfold h_prefix in P. cbn [h_ref h_base h_buf h_max] in P. destruct r as [x|].
  - intros -> U1 U2. destruct (N.eqb_spec M 0); [discriminate|]. assert (M0 : 0 < M) by lia.
    assert (CR : calc_req ((x + 1) mod (2 * M) + 1) M (t_base t) = Good (x + 1)) by (apply calc_req_trip; lia).
    pose proof (N.mod_lt (x + 1) (2 * M) ltac:(lia)) as Hm. assert (P60 : 2 ^ 62 = 2 ^ 60 + 2 ^ 60 + 2 ^ 60 + 2 ^ 60) by reflexivity.
    assert (RB : read_base bytes M (t_base t) = Good (x + 1, base, w)).
    { apply (f_equal (fun z => match z with Good y => y | _ => [] end)) in P. cbn beta iota in P. subst bytes. destruct (N.leb_spec (x + 1) base).
      - rewrite (read_base_pos _ _ w (x + 1) M (t_base t)); auto; try lia. do 3 f_equal. lia.
      - rewrite (read_base_neg _ _ w (x + 1) M (t_base t)); auto; try lia. do 3 f_equal. lia. }
    unfold decode_block. rewrite RB. cbn [rbind]. destruct (N.ltb_spec (t_base t) (x + 1)); auto.
    destruct (forallb _ fs) eqn:FA; auto. rewrite (fields_trip huff H t base (x + 1) fs hs MAX_LEN w); auto; try lia. intros f i I E. rewrite forallb_forall in FA. specialize (FA f I). rewrite E in FA. apply N.leb_le in FA.
    destruct R as (_ & R). specialize (R f i I E). unfold pres. lia.
  - apply (f_equal (fun z => match z with Good y => y | _ => [] end)) in P. cbn beta iota in P. subst bytes. unfold decode_block.
    rewrite (read_base_pos 0 base w 0 M (t_base t)); auto; try lia. cbn [rbind]. destruct (N.ltb_spec (t_base t) 0); [lia|].
    rewrite (fields_trip huff H t (0 + base) 0 fs hs MAX_LEN w); auto; try lia. intros f i I E. rewrite (R f I) in E. discriminate.
Qed.
