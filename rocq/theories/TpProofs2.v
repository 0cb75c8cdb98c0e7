(** Encoding, and the use of decoded parameters. *)
From Coq Require Import Lia.
From Verif Require Import Base Lib CodecModel CodecSpec CodecProofs Reader VerModel TpModel TpSpec TpProofs.

Lemma flat_map_ok vs : bytes_ok (flat_map (be_bytes 4) vs).
Proof. induction vs as [|v vs IH]; [constructor|]. cbn [flat_map]. apply bytes_ok_app. split; [apply be_bytes_ok|exact IH]. Qed.
Lemma repeat_ok n : bytes_ok (repeat 0 n).
Proof. induction n as [|n IH]; constructor; [unfold byte_ok; lia|exact IH]. Qed.
Lemma content_int k n v lo hi : int_range k = Some (lo, hi) -> lo <= n <= hi -> rd_varint v = Some (n, []) -> content k v (PInt n).
Proof. intros R L V. destruct k; try discriminate R; cbn [content]; exists n, lo, hi; auto. Qed.
Lemma range_fits k lo hi : int_range k = Some (lo, hi) -> hi < 2 ^ 62.
Proof. intros H. destruct k; try discriminate H; cbn [int_range] in H; apply some_inj in H; apply pair_equal_spec in H; destruct H as [_ <-]; lia. Qed.
Lemma varint_short n l : varint_bytes n = Some l -> lenN l <= 8.
Proof. intros H. apply varint_bytes_len in H. unfold varint_len in H. repeat (match type of H with context[if ?c then _ else _] => destruct c end; try (apply some_inj in H; lia)); discriminate. Qed.
Lemma be_bytes_1 n : n < 256 -> be_bytes 1 n = [n].
Proof. intros L. cbn [be_bytes]. change (256 ^ N.of_nat 0) with 1. rewrite N.div_1_r, N.mod_small by lia. reflexivity. Qed.
Lemma addr_bytes (v4 : option (list N * N)) n :
  match v4 with Some (ip, p) => bytes_ok ip /\ length ip = n /\ ip <> repeat 0 n /\ 0 < p < 65536 | None => True end ->
  exists ip p, (match v4 with Some (ip, port) => ip ++ be_bytes 2 port | None => repeat 0 (n + 2) end) = ip ++ be_bytes 2 p /\ bytes_ok ip /\ socket n ip p /\
    v4 = (if p =? 0 then None else Some (ip, p)) /\ (v4 <> None -> p <> 0).
Proof.
  destruct v4 as [[ip p]|].
  - intros (B & L & NZ & P). exists ip, p. unfold socket. splits; auto; try lia; try (intros; lia). { split; [intros E; contradiction|lia]. } destruct (N.eqb_spec p 0); [lia|reflexivity].
  - intros _. exists (repeat 0 n), 0. unfold socket. rewrite repeat_length, repeat_app. splits; auto using repeat_ok; try tauto; lia.
Qed.
Lemma body_content k x : sendable k x -> exists body, tp_body x = Some body /\ content k body x /\ lenN body < 2 ^ 62 /\ bytes_ok body.
Proof.
  intros H. destruct x as [l|n| |v4 v6 cid srt|c o]; cbn [sendable] in H.
  - destruct H as (K & B & L & R). exists l. cbn [tp_body]. splits; auto. destruct k; try discriminate K; cbn [content]; auto.
  - destruct H as (lo & hi & R & L). assert (n < 2 ^ 62) by (apply range_fits in R; lia). destruct (varint_bytes_some n H) as [l V]. exists l. cbn [tp_body]. splits; auto.
    + eapply content_int; eauto. rewrite <- (app_nil_r l). apply rd_varint_encode. exact V.
    + apply varint_short in V. lia.
    + eapply varint_bytes_ok; eauto.
  - exists []. cbn [tp_body]. splits; auto; try constructor. destruct k; try discriminate H; cbn [content]; auto.
  - destruct H as (-> & Z & Bc & C & Bs & S & A4 & A6). apply (addr_bytes v4 4) in A4. destruct A4 as (ip4 & p4 & E4 & B4 & S4 & V4 & Q4).
    assert (A6' : match (match v6 with Some (ip, p, _, _) => Some (ip, p) | None => None end) with Some (ip, p) => bytes_ok ip /\ length ip = 16%nat /\ ip <> repeat 0 16 /\ 0 < p < 65536 | None => True end) by (destruct v6 as [[[[ip p] fl] sc]|]; tauto).
    apply (addr_bytes _ 16) in A6'. destruct A6' as (ip6 & p6 & E6 & B6 & S6 & V6 & Q6).
    assert (V6' : v6 = if p6 =? 0 then None else Some (ip6, p6, 0, 0)) by (destruct v6 as [[[[ip p] fl] sc]|]; destruct (p6 =? 0); try discriminate V6; try reflexivity; destruct A6 as (_ & _ & _ & _ & -> & ->); congruence).
    assert (Z' : p4 <> 0 \/ p6 <> 0) by (destruct Z as [Z|Z]; [left; auto|right; apply Q6; destruct v6 as [[[[ip p] fl] sc]|]; congruence]).
    assert (E6' : match v6 with Some (ip, port, _, _) => ip ++ be_bytes 2 port | None => repeat 0 18 end = ip6 ++ be_bytes 2 p6) by (rewrite <- E6; destruct v6 as [[[[ip p] fl] sc]|]; reflexivity).
    cbn [tp_body]. rewrite E6'. change (repeat 0 (4 + 2)) with (repeat 0 6) in E4. rewrite E4. rewrite be_bytes_1 by lia. eexists. split; [reflexivity|]. splits.
    + exists ip4, p4, ip6, p6, cid, srt. rewrite <- !app_assoc. splits; auto; try lia. congruence.
    + rewrite !lenN_app. unfold lenN in *. rewrite !be_bytes_length. destruct S4 as (-> & _), S6 as (-> & _). rewrite S. cbn [length]. lia.
    + repeat (apply bytes_ok_app; split); auto using be_bytes_ok. constructor; [unfold byte_ok; lia|constructor].
  - destruct H as (-> & F & L). exists (be_bytes 4 c ++ flat_map (be_bytes 4) o). cbn [tp_body]. splits; auto.
    + exists c, o. auto.
    + unfold lenN in *. rewrite app_length, be_bytes_length, flat_map_4. change (2 ^ 62) with (8 * 2 ^ 59). lia.
    + apply bytes_ok_app. auto using be_bytes_ok, flat_map_ok.
Qed.
Lemma code_varint k : exists h, varint_bytes (tp_code k) = Some h /\ bytes_ok h.
Proof.
  assert (tp_code k < 2 ^ 62) by (destruct k; cbn [tp_code]; lia). destruct (varint_bytes_some _ H) as [h E]. exists h. split; [exact E|]. eapply varint_bytes_ok; eauto.
Qed.
Lemma vvec_some b : lenN b < 2 ^ 62 -> exists v, vvec b = Some v /\ (bytes_ok b -> bytes_ok v).
Proof.
  intros L. unfold vvec. destruct (varint_bytes_some _ L) as [h E]. rewrite E. eexists. split; [reflexivity|]. intros B. apply bytes_ok_app. split; [eapply varint_bytes_ok; eauto|exact B].
Qed.
Lemma vvec_rd b v r : vvec b = Some v -> rd_vvec (v ++ r) = Some (b, r).
Proof.
  unfold vvec. destruct (varint_bytes (lenN b)) as [h|] eqn:E; [|discriminate]. intros H. apply some_inj in H. subst v. rewrite <- app_assoc.
  unfold rd_vvec. rewrite (rd_varint_encode _ _ _ E). apply rd_bytes_spec. auto.
Qed.
Lemma times_pos k ts : (1 <= times k ts)%nat -> exists v, In (tp_code k, v) ts.
Proof.
  induction ts as [|[c v] ts IH]; intros H; [cbn in H; lia|]. rewrite times_cons in H. destruct (N.eqb_spec c (tp_code k)) as [->|]; [exists v; left; reflexivity|].
  destruct IH as [w W]; [lia|]. exists w. right. exact W.
Qed.
Lemma enc_ids_tlvs f t ks : (forall k x, f k = true -> t k = Some x -> sendable k x) -> exists b ts, enc_ids f t ks = Some b /\ bytes_ok b /\ tlvs b ts /\
  (forall k v, In (tp_code k, v) ts -> In k ks /\ f k = true /\ exists x, t k = Some x /\ content k v x) /\
  (forall k x, In k ks -> f k = true -> t k = Some x -> exists v, In (tp_code k, v) ts /\ content k v x) /\
  (NoDup ks -> forall k, (times k ts <= 1)%nat).
Proof.
  intros S. induction ks as [|k ks IH]; cbn [enc_ids].
  - exists [], []. splits; auto; try constructor; intros; try contradiction.
  - destruct IH as (b & ts & E & B & T & I1 & I2 & I3). rewrite E.
    assert (SKIP : (f k = false \/ t k = None) -> exists b0 ts0, Some ([] ++ b) = Some b0 /\ bytes_ok b0 /\ tlvs b0 ts0 /\
      (forall k0 v, In (tp_code k0, v) ts0 -> In k0 (k :: ks) /\ f k0 = true /\ exists x, t k0 = Some x /\ content k0 v x) /\
      (forall k0 x, In k0 (k :: ks) -> f k0 = true -> t k0 = Some x -> exists v, In (tp_code k0, v) ts0 /\ content k0 v x) /\
      (NoDup (k :: ks) -> forall k0, (times k0 ts0 <= 1)%nat)).
    { intros D. exists b, ts. splits; auto.
      - intros k0 v H. apply I1 in H. destruct H as (H1 & H2 & H3). splits; auto. right. exact H1.
      - intros k0 x [<-|H] F X; [destruct D; congruence|]. eauto.
      - intros ND. inv ND. auto. }
    destruct (f k) eqn:F; [|apply SKIP; auto]. destruct (t k) as [x|] eqn:X; [|apply SKIP; auto]. clear SKIP.
    destruct (body_content k x (S k x F X)) as (body & Bd & C & L & Bb). unfold tp_encode. destruct (code_varint k) as (h & H & Hb). rewrite H, Bd.
    destruct (vvec_some body L) as (v & V & Vb). rewrite V. exists ((h ++ v) ++ b), ((tp_code k, body) :: ts). splits.
    + reflexivity.
    + repeat (apply bytes_ok_app; split); auto.
    + rewrite <- app_assoc. econstructor; [apply rd_varint_encode; exact H|apply vvec_rd; exact V|exact T].
    + intros k0 w [W|W]; [|apply I1 in W; destruct W as (W1 & W2 & W3); splits; auto; right; exact W1]. injection W as W <-. apply code_inj in W. subst k0. splits; auto; [left; reflexivity|eauto].
    + intros k0 y [<-|K] F0 Y; [|destruct (I2 _ _ K F0 Y) as (w & W & Q); exists w; split; [right; exact W|exact Q]]. exists body. split; [left; reflexivity|]. congruence.
    + intros ND k0. inv ND. rewrite times_cons. specialize (I3 H3 k0). destruct (N.eqb_spec (tp_code k) (tp_code k0)) as [K|K]; [|lia]. apply code_inj in K. subst k0.
      destruct (times k ts) as [|n] eqn:TK; [lia|]. destruct (times_pos k ts) as [w W]; [lia|]. apply I1 in W. tauto.
Qed.
Lemma all_ids_nodup : NoDup all_ids.
Proof. repeat constructor; cbn; intuition discriminate. Qed.
Lemma eq_opt {A} (a b : option A) : (forall x, a = Some x <-> b = Some x) -> a = b.
Proof. intros H. destruct a as [x|]; [symmetry; apply H; reflexivity|]. destruct b as [y|]; [apply H; reflexivity|reflexivity]. Qed.
Lemma decode_facts server b t : bytes_ok b -> tps_decode server b = inl t -> exists ts, tlvs b ts /\ Forall (fun p => bytes_ok (snd p)) ts /\ forall k,
  (times k ts <= 1)%nat /\ (forall v, In (tp_code k, v) ts -> (server = true -> server_only k = false) /\ exists x, content k v x) /\
  (forall x, t k = Some x <-> exists v, In (tp_code k, v) ts /\ content k v x).
Proof.
  intros B H. unfold tps_decode in H. apply loop_sound in H; [|lia]. destruct H as (ts & T & A). exists ts. pose proof (tlvs_ok _ _ T B) as BT. splits; auto.
  intros k. destruct (absorb_sound _ _ _ _ BT A k) as (_ & I2 & I3). destruct (I2 eq_refl) as [I4 I5]. splits; auto.
Qed.
Lemma decode_exists server b ts : bytes_ok b -> tlvs b ts -> (forall k, (times k ts <= 1)%nat) ->
  (forall k v, In (tp_code k, v) ts -> (server = true -> server_only k = false) /\ exists x, content k v x) ->
  exists t, tps_decode server b = inl t /\ forall k x, t k = Some x <-> exists v, In (tp_code k, v) ts /\ content k v x.
Proof.
  intros B T M C. pose proof (tlvs_ok _ _ T B) as BT. destruct (absorb_complete server ts tps_new BT) as [t A]; auto. { intros k K. destruct K. reflexivity. }
  exists t. split; [apply (loop_complete b ts T (length b) server tps_new t); [lia|exact A]|]. intros k. destruct (absorb_sound _ _ _ _ BT A k) as (_ & I2 & _). apply (I2 eq_refl).
Qed.
Lemma filtered_lemma f server t : (forall k x, f k = true -> t k = Some x -> sendable k x /\ (server = true -> server_only k = false)) ->
  exists b t', tps_encode_filtered f t = Some b /\ bytes_ok b /\ tps_decode server b = inl t' /\ forall k, t' k = if f k then t k else None.
Proof.
  intros S. destruct (enc_ids_tlvs f t all_ids) as (b & ts & E & B & T & I1 & I2 & I3); [intros k x F X; apply (S k x F X)|].
  destruct (decode_exists server b ts B T (I3 all_ids_nodup)) as (t' & D & V).
  { intros k v H. apply I1 in H. destruct H as (_ & F & x & X & C). split; [apply (S k x F X)|eauto]. }
  exists b, t'. splits; auto. intros k. apply eq_opt. intros x. rewrite V. split.
  - intros (v & H & C). pose proof (tlvs_ok _ _ T B) as BT. assert (bytes_ok v) by (rewrite Forall_forall in BT; apply (BT _ H)).
    apply I1 in H. destruct H as (_ & -> & y & Y & Cy). rewrite Y. f_equal. eapply content_fun; eauto.
  - destruct (f k) eqn:F; [|discriminate]. intros X. apply (I2 k x); auto using all_ids_in.
Qed.
Lemma tlvs_len b ts : tlvs b ts -> forall c v, In (c, v) ts -> lenN v <= lenN b.
Proof.
  intros T. induction T as [|l c r v r' ts R V T IH]; intros c0 w H; [destruct H|]. destruct H as [H|H].
  - injection H as <- <-. unfold rd_vvec in V. apply varint_shrinks in R. destruct (rd_varint r) as [[k r1]|] eqn:R1; [|discriminate]. apply varint_shrinks in R1.
    apply rd_bytes_spec in V. destruct V as [-> _]. rewrite app_length in R1. unfold lenN. lia.
  - apply IH in H. apply varint_shrinks in R. apply vvec_suffix in V. unfold lenN in *. lia.
Qed.
Lemma flat_map_lenN o : lenN (flat_map (be_bytes 4) o) = 4 * lenN o.
Proof. unfold lenN. rewrite flat_map_4. lia. Qed.
Lemma content_sendable k v x : bytes_ok v -> lenN v < 2 ^ 60 -> content k v x -> sendable k x.
Proof.
  intros B L C. assert (L' : lenN v < 2 ^ 62) by (change (2 ^ 62) with (4 * 2 ^ 60); lia).
  destruct k; cbn [content] in C;
  try (destruct C as (n & lo & hi & -> & _ & R & Q); cbn [sendable]; exists lo, hi; auto; fail);
  try (subst x; cbn [sendable is_bytes]; splits; auto; discriminate);
  try (destruct C as [-> ->]; reflexivity).
  - destruct C as [-> C]. cbn [sendable is_bytes]. splits; auto.
  - destruct C as (ip4 & p4 & ip6 & p6 & cid & srt & -> & (L4 & P4 & Z4) & (L6 & P6 & Z6) & Z & C & S & ->). cbn [sendable].
    apply bytes_ok_app in B. destruct B as [B1 B]. apply bytes_ok_app in B. destruct B as [_ B]. apply bytes_ok_app in B. destruct B as [B2 B]. apply bytes_ok_app in B. destruct B as [_ B].
    inv B. apply bytes_ok_app in H2. destruct H2 as [B3 B4]. splits; auto; try lia.
    + destruct (N.eqb_spec p4 0), (N.eqb_spec p6 0); try (left; discriminate); try (right; discriminate). lia.
    + destruct (N.eqb_spec p4 0); [exact Logic.I|]. splits; auto; try lia. tauto.
    + destruct (N.eqb_spec p6 0); [exact Logic.I|]. splits; auto; try lia. tauto.
  - destruct C as (c & o & -> & -> & F). cbn [sendable]. splits; auto. rewrite lenN_app, flat_map_lenN in L. change (2 ^ 60) with (2 * 2 ^ 59) in L. lia.
Qed.
Lemma decoded_sendable server b t : bytes_ok b -> lenN b < 2 ^ 60 -> tps_decode server b = inl t -> sendable_set server t.
Proof.
  intros B L D k x X. destruct (decode_facts _ _ _ B D) as (ts & T & BT & F). destruct (F k) as (_ & C & V). apply V in X. destruct X as (v & H & X).
  split; [|apply (C v H)]. eapply content_sendable; [|idtac|exact X].
  - rewrite Forall_forall in BT. apply (BT _ H).
  - pose proof (tlvs_len _ _ T _ _ H). lia.
Qed.
(** The kind of value each decoded parameter has. *)
Lemma content_kind k v x : content k v x ->
  (is_bytes k = true -> exists l, x = PBytes l) /\ (is_empty k = true -> x = PEmpty) /\ (int_default k <> None -> exists n, x = PInt n) /\
  (k = StatelessResetToken -> exists l, x = PBytes l /\ lenN l = 16).
Proof.
  intros C. destruct k; cbn [content] in C; splits; intros H; try discriminate H; try (destruct H; reflexivity); eauto;
  try (destruct C as (n & lo & hi & -> & _); eauto); try (destruct C as [-> C]; eauto). exists v. split; [reflexivity|]. unfold lenN. rewrite C. reflexivity.
Qed.
Lemma decoded_kind server b t : bytes_ok b -> tps_decode server b = inl t -> forall k x, t k = Some x ->
  (is_bytes k = true -> exists l, x = PBytes l) /\ (is_empty k = true -> x = PEmpty) /\ (int_default k <> None -> exists n, x = PInt n) /\
  (k = StatelessResetToken -> exists l, x = PBytes l /\ lenN l = 16).
Proof.
  intros B D k x X. destruct (decode_facts _ _ _ B D) as (ts & T & BT & F). apply (F k) in X. destruct X as (v & _ & C). eapply content_kind; eauto.
Qed.
