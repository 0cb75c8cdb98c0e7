(** Usage limits of a key, and panics. *)
From Coq Require Import Lia.
From Verif Require Import Base Lib FcModel KeyModel KeySpec KeyProofs KeyProofs2.

Lemma count_app : forall f a b, count f (a ++ b) = count f a + count f b.
Proof. intros. unfold count. rewrite filter_app, lenN_app. reflexivity. Qed.
Lemma count_one : forall f x, count f [x] = if f x then 1 else 0.
Proof. intros. unfold count. cbn. destruct (f x); reflexivity. Qed.
Lemma count_zero : forall f h, (forall x, In x h -> f x = false) -> count f h = 0.
Proof.
  intros f h A. unfold count. induction h as [|x h IH]; [reflexivity|]. cbn. rewrite (A x) by (left; reflexivity). apply IH. intros y Y. apply A. right. exact Y.
Qed.
Lemma count_sub : forall f g h, (forall x, f x = true -> g x = true) -> count f h <= count g h.
Proof.
  intros f g h A. unfold count. induction h as [|x h IH]; [apply N.le_refl|]. cbn. destruct (f x) eqn:F.
  - rewrite (A x F), !lenN_cons. lia.
  - destruct (g x); rewrite ?lenN_cons; lia.
Qed.
Lemma sent_in : forall e h, count (sent_with e) h <> 0 -> exists g p, In (e, g, p) (sent h).
Proof.
  intros e h. induction h as [|x h IH]; [intros K; exfalso; apply K; reflexivity|]. unfold count. cbn. intros K.
  destruct x as [e' g p b| | | |]; cbn in *; try (apply IH; exact K).
  destruct (N.eqb_spec e e') as [->|]; [exists g, p; left; reflexivity|]. destruct (IH K) as [g' [p' Q]]. exists g', p'. right. exact Q.
Qed.

(** ** Sending *)
Definition LEN (x : dx) : N := N.log2 (d_len x - 1) - 10.
Definition wl (L : N) (h : list kout) (x : dx) : Prop :=
  2048 <= d_len x /\ d_inv x <= L / 2 ^ LEN x /\ count (sent_with (d_epoch x)) h + d_inv x <= L /\
  forall k, 11 <= k -> if 2 ^ k <? d_len x then count (sent_longer (d_epoch x) (2 ^ k)) h + d_inv x <= L / 2 ^ (k - 10) else count (sent_longer (d_epoch x) (2 ^ k)) h = 0.
Definition wbound (L : N) (h : list kout) : Prop :=
  (forall e, count (sent_with e) h <= L) /\ forall e k, 11 <= k -> count (sent_longer e (2 ^ k)) h <= L / 2 ^ (k - 10).

Lemma pow_pos : forall k, 0 < 2 ^ k. Proof. intros. apply N.neq_0_lt_0, N.pow_nonzero. discriminate. Qed.
Lemma div_pow_le : forall L a b, a <= b -> L / 2 ^ b <= L / 2 ^ a.
Proof. intros L a b H. apply N.div_le_compat_l. split; [apply pow_pos|apply N.pow_le_mono_r; [discriminate|exact H]]. Qed.
Lemma div_pow_div : forall L a b, L / 2 ^ a / 2 ^ b = L / 2 ^ (a + b).
Proof. intros. rewrite N.div_div by (apply N.pow_nonzero; discriminate). rewrite <- N.pow_add_r. reflexivity. Qed.
Lemma log_ge : forall k l, 2 ^ k < l -> k <= N.log2 (l - 1).
Proof. intros k l H. apply N.log2_le_pow2; [pose proof (pow_pos k); lia|lia]. Qed.

Lemma longer_sub : forall e k x, sent_longer e k x = true -> sent_with e x = true.
Proof. intros e k [| | | |]; cbn; try discriminate. intros H. apply andb_prop in H. tauto. Qed.
Lemma wl_fresh : forall L h x, d_len x = 2048 -> d_inv x = L -> count (sent_with (d_epoch x)) h = 0 -> wl L h x.
Proof.
  intros L h x A B C. assert (C' : forall k, count (sent_longer (d_epoch x) k) h = 0).
  { intros k. pose proof (count_sub (sent_longer (d_epoch x) k) (sent_with (d_epoch x)) h (longer_sub _ _)). lia. }
  unfold wl, LEN. rewrite A, B, C. change (N.log2 (2048 - 1) - 10) with 0. change (2 ^ 0) with 1. rewrite N.div_1_r. splits; try lia.
  intros k K. destruct (N.ltb_spec (2 ^ k) 2048) as [Q|Q]; [|auto]. change 2048 with (2 ^ 11) in Q. apply N.pow_lt_mono_r_iff in Q; lia.
Qed.
Lemma wl_no_send : forall L h x y, no_send y -> wl L h x -> wl L (h ++ [y]) x.
Proof.
  intros L h x y NS [A [B [C D]]].
  assert (E : forall e, count (sent_with e) (h ++ [y]) = count (sent_with e) h) by (intros; rewrite count_app, count_one; destruct y; cbn in *; tauto || lia).
  assert (E' : forall e k, count (sent_longer e k) (h ++ [y]) = count (sent_longer e k) h) by (intros; rewrite count_app, count_one; destruct y; cbn in *; tauto || lia).
  unfold wl. rewrite E. splits; auto. intros k K. rewrite E'. exact (D k K).
Qed.
Lemma wbound_no_send : forall L h y, no_send y -> wbound L h -> wbound L (h ++ [y]).
Proof.
  intros L h y NS [A B]. split; intros; rewrite count_app, count_one; destruct y; cbn in *; try tauto; rewrite N.add_0_r; auto.
Qed.
Lemma wl_same : forall L h x y, d_epoch y = d_epoch x -> d_inv y = d_inv x -> d_len y = d_len x -> wl L h x -> wl L h y.
Proof. intros L h x y A B C. unfold wl, LEN. rewrite A, B, C. auto. Qed.

Lemma encrypt_inv : forall b x y r, dx_encrypt b x = Some (y, r) ->
  let i := if d_len x <? b then N.shiftr (d_inv x) (N.log2 (b - 1) - N.log2 (d_len x - 1)) else d_inv x in
  match r with inr EExhausted => i = 0 /\ d_inv y = 0 | _ => 0 < i /\ d_inv y = i - 1 end.
Proof.
  intros b x y r H. unfold dx_encrypt, dx_invoked, dx_used in H. cbv zeta.
  set (x1 := if d_len x <? b then _ else _) in H.
  set (i := if d_len x <? b then _ else _).
  assert (E : d_inv x1 = i) by (subst x1 i; destruct (d_len x <? b); reflexivity). rewrite E in H.
  destruct (N.eqb_spec i 0) as [K|K]; [inv H; auto; split; congruence|].
  cbn [d_min] in H. destruct (d_e x <? d_min x1); [inv H; split; [lia|reflexivity]|].
  destruct (chk (d_e x + 1)); [|discriminate]. inv H. split; [lia|reflexivity].
Qed.
Lemma wl_encrypt : forall L h b x y r, dx_encrypt b x = Some (y, r) -> dxw x -> wl L h x -> wbound L h ->
  wl L h y /\
  (forall p, r = inl p -> wl L (h ++ [OSent (d_epoch y) (d_gen y) p b]) y /\ wbound L (h ++ [OSent (d_epoch y) (d_gen y) p b])).
Proof.
  intros L h b x y r H [D1 D2] [A [B [C D]]] [W1 W2].
  pose proof (encrypt_spec _ _ _ _ H D1 D2) as [E1 [E2 [E3 [E4 EE]]]]. pose proof (encrypt_inv _ _ _ _ H) as I. cbv zeta in I.
  set (i := if d_len x <? b then _ else _) in I.
  assert (P1 : i <= d_inv x).
  { subst i. destruct (d_len x <? b); [|lia]. rewrite N.shiftr_div_pow2. apply N.div_le_upper_bound; [apply N.pow_nonzero; discriminate|]. pose proof (pow_pos (N.log2 (b - 1) - N.log2 (d_len x - 1))). nia. }
  assert (LN : 10 <= N.log2 (d_len x - 1)) by (apply log_ge; change (2 ^ 10) with 1024; lia).
  assert (P2 : i <= L / 2 ^ LEN y).
  { unfold LEN in *. rewrite E4. subst i. destruct (N.ltb_spec (d_len x) b) as [Q|Q].
    - rewrite N.max_l by lia. rewrite N.shiftr_div_pow2. etransitivity; [apply N.div_le_mono; [apply N.pow_nonzero; discriminate|exact B]|].
      rewrite div_pow_div. assert (N.log2 (d_len x - 1) <= N.log2 (b - 1)) by (apply N.log2_le_mono; lia).
      replace (N.log2 (d_len x - 1) - 10 + (N.log2 (b - 1) - N.log2 (d_len x - 1))) with (N.log2 (b - 1) - 10) by lia. lia.
    - rewrite N.max_r by lia. exact B. }
  assert (P3 : forall k, 11 <= k -> 2 ^ k < d_len y -> count (sent_longer (d_epoch x) (2 ^ k)) h + i <= L / 2 ^ (k - 10)).
  { intros k K Q. specialize (D k K). destruct (N.ltb_spec (2 ^ k) (d_len x)) as [R|R]; [lia|]. rewrite D.
    etransitivity; [exact P2|]. apply div_pow_le. unfold LEN. pose proof (log_ge _ _ Q). lia. }
  assert (IY : d_inv y <= i /\ (forall p, r = inl p -> d_inv y + 1 = i)).
  { destruct r as [p|e]; [destruct I; split; [lia|intros q Eq; lia]|]. destruct EE as [[Er _]|[Er _]]; [inv Er; destruct I; split; [lia|discriminate]|discriminate]. }
  destruct IY as [IY IP].
  split.
  - unfold wl. rewrite E1. splits; try lia. intros k K. destruct (N.ltb_spec (2 ^ k) (d_len y)) as [Q|Q]; [pose proof (P3 k K Q); lia|].
    specialize (D k K). destruct (N.ltb_spec (2 ^ k) (d_len x)); [lia|exact D].
  - intros p Er. specialize (IP p Er). split.
    + unfold wl. rewrite E1, count_app, count_one. cbn [sent_with]. rewrite N.eqb_refl. splits; try lia.
      intros k K. rewrite count_app, count_one. cbn [sent_longer]. rewrite N.eqb_refl. cbn [andb].
      destruct (N.ltb_spec (2 ^ k) (d_len y)) as [Q|Q].
      * pose proof (P3 k K Q). destruct (2 ^ k <? b); lia.
      * specialize (D k K). destruct (N.ltb_spec (2 ^ k) (d_len x)); [lia|]. destruct (N.ltb_spec (2 ^ k) b); lia.
    + split.
      * intros e. rewrite count_app, count_one. cbn [sent_with]. rewrite E1. destruct (N.eqb_spec e (d_epoch x)) as [->|]; [lia|]. rewrite N.add_0_r. apply W1.
      * intros e k K. rewrite count_app, count_one. cbn [sent_longer]. rewrite E1. destruct (N.eqb_spec e (d_epoch x)) as [->|]; cbn [andb]; [|rewrite N.add_0_r; auto].
        destruct (N.ltb_spec (2 ^ k) b) as [Q|Q]; [|rewrite N.add_0_r; auto]. assert (Q' : 2 ^ k < d_len y) by lia. pose proof (P3 k K Q'). lia.
Qed.

Record WL (c : cipher) (h : list kout) (s : kst) : Prop := {
  wl_c : k_cipher s = c;
  wl_z : forall z, k_zero s = Some (DWrite, z) -> wl (limit DWrite c) h z;
  wl_w : forall w, k_write s = Some w -> wl (limit DWrite c) h (a_dx w);
  wl_b : wbound (limit DWrite c) h }.

Lemma not_yet : forall cl h s e, WA false cl h s -> 3 <= e -> (forall w, k_write s = Some w -> d_epoch (a_dx w) < e) -> count (sent_with e) h = 0.
Proof.
  intros cl h s e W E A. destruct (N.eq_dec (count (sent_with e) h) 0) as [K|K]; [exact K|]. destruct (sent_in _ _ K) as [g [p Q]].
  destruct (wa_app _ _ _ _ W _ _ _ Q E) as [w [W1 [W2 _]]]. specialize (A _ W1). lia.
Qed.
Lemma not_early : forall cl h s, WA false cl h s -> k_write s = None -> k_zero s = None -> count (sent_with 1) h = 0.
Proof.
  intros cl h s W A B. destruct (N.eq_dec (count (sent_with 1) h) 0) as [K|K]; [exact K|]. destruct (sent_in _ _ K) as [g [p Q]].
  destruct (wa_early _ _ _ _ W _ _ _ Q ltac:(lia) A) as [z [Z _]]. congruence.
Qed.
Lemma wl_adv : forall c cl h s s' L, WA false cl h s -> adv s s' -> k_cipher s = c -> L = limit DWrite c -> forall w, k_write s' = Some w -> wl L h (a_dx w).
Proof.
  intros c cl h s s' L W [w [w' [r [A [B [E [[F ->] K]]]]]]] C -> w2 W2. rewrite K in W2. apply some_inj in W2. subst w2. cbn [a_dx].
  apply wl_fresh; [reflexivity|cbn [d_inv dx_next dx_new]; congruence|]. cbn [d_epoch dx_next]. destruct (wa_write _ _ _ _ W _ A) as [[O1 _] _].
  apply (not_yet _ _ _ _ W); [lia|]. intros w2 W2. rewrite A in W2. apply some_inj in W2. subst w2. lia.
Qed.

Lemma wl_step : forall dbg o c cl h s s' x, WA false cl h s -> WL c h s -> k_step dbg o s = Some (s', x) -> WL c (h ++ [x]) s'.
Proof.
  intros dbg o c cl h s s' x W [C1 C2 C3 C4] H.
  assert (D : (exists b, o = KSend b) \/ forall b, o <> KSend b) by (destruct o; eauto; right; discriminate).
  destruct D as [[b ->]|D].
  - cbn [k_step] in H. apply send_spec in H. destruct H as [[-> ->]|[[-> ->]|[H|H]]].
    + split; auto; intros; try (apply wl_no_send; auto; exact Logic.I). apply wbound_no_send; [exact Logic.I|auto].
    + split; auto; intros; try (apply wl_no_send; auto; exact Logic.I). apply wbound_no_send; [exact Logic.I|auto].
    + destruct H as [w [d [r [Ww [E [U X]]]]]]. destruct (wa_write _ _ _ _ W _ Ww) as [OK DW].
      destruct (wl_encrypt _ _ _ _ _ _ E DW (C3 _ Ww) C4) as [G1 G2].
      pose proof (encrypt_spec _ _ _ _ E (proj1 DW) (proj2 DW)) as [E1 [E2 [E3 [E4 EE]]]].
      pose proof (upd_cipher _ _ U) as [UC [UZ _]]. cbn [k_cipher k_zero with_write] in UC, UZ.
      assert (G : wl (limit DWrite c) (h ++ [x]) d /\ wbound (limit DWrite c) (h ++ [x])).
      { unfold enc_out in X. destruct r as [p|e]; [destruct X as [->|[e [-> _]]]; [exact (G2 p eq_refl)|]|subst x]; (split; [apply wl_no_send|apply wbound_no_send]; auto; exact Logic.I). }
      destruct G as [G3 G4]. split; [congruence| | |exact G4].
      * intros z Z. rewrite UZ in Z. destruct (wa_zero _ _ _ _ W _ Z) as [K _]. congruence.
      * intros w' W'. destruct U as [->|[w1 [w2 [r1 [A [B [F [[Fa ->] ->]]]]]]]].
        -- cbn in W'. apply some_inj in W'. subst w'. exact G3.
        -- cbn in A. apply some_inj in A. subst w1. cbn in W'. apply some_inj in W'. subst w'. cbn [a_dx with_dx a_secret]. cbn [a_dx with_dx] in *. destruct OK as [O1 _].
           apply wl_fresh; [reflexivity|cbn [d_inv dx_next dx_new]; congruence|]. cbn [d_epoch dx_next]. rewrite count_app, count_one.
           assert (NE : sent_with (d_epoch d + 1) x = false).
           { destruct x as [e' g p b'| | | |]; try reflexivity. cbn. apply N.eqb_neq. unfold enc_out in X. destruct r as [q|e]; [destruct X as [X|[e [X _]]]; inv X; lia|discriminate]. }
           rewrite NE, N.add_0_r. apply (not_yet _ _ _ _ W); [lia|]. intros w2 W2. rewrite Ww in W2. apply some_inj in W2. subst w2. lia.
    + destruct H as [Ww [z [d [r [Z [E [-> X]]]]]]]. destruct (wa_zero _ _ _ _ W _ Z) as [_ [ZE [ZG DW]]].
      destruct (wl_encrypt _ _ _ _ _ _ E DW (C2 _ Z) C4) as [G1 G2].
      assert (G : wl (limit DWrite c) (h ++ [x]) d /\ wbound (limit DWrite c) (h ++ [x])).
      { unfold enc_out in X. destruct r as [p|e]; [destruct X as [->|[e [-> _]]]; [exact (G2 p eq_refl)|]|subst x]; (split; [apply wl_no_send|apply wbound_no_send]; auto; exact Logic.I). }
      destruct G as [G3 G4]. split; cbn [k_cipher k_zero k_write with_zero]; auto; [|congruence].
      intros z' Z'. inv Z'. exact G3.
  - destruct (other_spec _ _ _ _ _ H D) as [A [B O]]. assert (G4 : wbound (limit DWrite c) (h ++ [x])) by (apply wbound_no_send; auto).
    destruct O as [[O1 O2]|[O|O]].
    + split; [congruence| | |exact G4].
      * intros z Z. apply O1 in Z. apply wl_no_send; auto.
      * intros w Ww. apply wl_no_send; auto. destruct O2 as [O2|O2]; [apply C3; congruence|]. exact (wl_adv _ _ _ _ _ _ W O2 C1 eq_refl _ Ww).
    + destruct O as [_ [Z0 [W0 [_ [W1 [_ Z1]]]]]]. split; [congruence| | |exact G4].
      * intros z Z. rewrite Z1 in Z. inv Z. apply wl_no_send; auto. apply wl_fresh; [reflexivity|reflexivity|]. cbn. exact (not_early _ _ _ W W0 Z0).
      * congruence.
    + destruct O as [rej [_ [W0 [Z1 [_ W1]]]]]. split; [congruence|congruence| |exact G4].
      intros w Ww. rewrite W1 in Ww. apply some_inj in Ww. subst w. apply wl_no_send; auto. cbn [a_dx].
      assert (K : count (sent_with 3) h = 0) by (apply (not_yet _ _ _ _ W); [lia|congruence]).
      destruct (k_zero s) as [[[|] z]|]; [| |]; try (apply wl_fresh; [reflexivity|cbn [d_inv dx_next dx_new]; congruence|exact K]).
      destruct rej; (apply wl_fresh; [reflexivity|cbn [d_inv dx_next dx_new]; congruence|exact K]).
Qed.

(** ** Opening *)
Definition ei (a : option app) : option (N * N) := match a with Some a => Some (d_epoch (a_dx a), d_inv (a_dx a)) | None => None end.
Definition only (e : N) (x : kout) : Prop := forall e', 3 <= e' -> opened_or_failed e' x = true -> e' = e.
Definition none (x : kout) : Prop := forall e', 3 <= e' -> opened_or_failed e' x = false.

Lemma finish_keys : forall dbg ok t x pn s s' y, finish_recv dbg ok t x pn s = Some (s', y) ->
  k_cipher s' = k_cipher s /\ ei (k_read s') = ei (k_read s) /\ ei (k_next s') = ei (k_next s) /\ only (d_epoch x) y.
Proof.
  unfold finish_recv. intros dbg ok t x pn s s' y H. destruct ok; cbn [negb] in H; [|inv H; splits; auto; intros e' _ K; discriminate].
  assert (K : forall s1 r, (if dx_needs_update x then update_received dbg (d_epoch x) t s else Some (s, None)) = Some (s1, r) ->
     k_cipher s1 = k_cipher s /\ k_read s1 = k_read s /\ k_next s1 = k_next s).
  { intros s1 r E. destruct (dx_needs_update x); [|inv E; auto].
    apply received_spec in E. destruct E as [[-> _]|[_ [s2 [U E]]]]; [auto|].
    pose proof (upd_cipher _ _ U) as [C [_ [Rr [Nn _]]]]. cbn [k_cipher k_read k_next with_upd] in C, Rr, Nn.
    destruct E as [[e [_ [-> _]]]|[_ [-> _]]]; [splits; auto|]. destruct (has_0rtt_read s2); cbn; splits; auto. }
  destruct (if dx_needs_update x then update_received dbg (d_epoch x) t s else Some (s, None)) as [[s1 [e|]]|] eqn:E; [| |discriminate].
  - destruct (K _ _ eq_refl) as [A [B C]]. inv H. splits; try congruence. intros e' _ Q. discriminate.
  - destruct (K _ _ eq_refl) as [A [B C]]. destruct (check_overlap s1) as [s2 re] eqn:O.
    assert (ON : ei (k_next s2) = ei (k_next s1)).
    { unfold check_overlap in O. destruct (k_time s1) as [t1|]; [|inv O; auto]. destruct (k_next s1) as [n|] eqn:Nx; [|inv O; rewrite Nx; auto]. destruct (k_read s1) as [a|]; [|inv O; rewrite Nx; auto].
      destruct (dx_continue (a_dx n) (a_dx a)) as [m okb] eqn:CC. inv O. cbn. unfold dx_continue in CC.
      destruct (negb _); [inv CC; reflexivity|]. destruct (_ <? _); inv CC; reflexivity. }
    apply overlap_keeps in O. destruct O as [O1 [O2 [O3 [O4 _]]]].
    destruct re as [e|]; inv H; splits; try congruence; intros e' _ Q; cbn in Q; try discriminate. dlia.
Qed.
Lemma recv_err_only : forall y e, only (d_epoch y) (recv_err y e).
Proof. intros y [] e' _ H; cbn in H; try discriminate. dlia. Qed.

Lemma decrypt_ei : forall pn g x y r, dx_decrypt pn g x = Some (y, r) -> d_epoch y = d_epoch x /\ ((0 < d_inv x /\ d_inv y = d_inv x - 1) \/ (y = x /\ r = Some EExhausted)).
Proof. intros pn g x y r H. apply decrypt_spec in H. destruct H as [A [_ [_ [[B ->]|[B [C _]]]]]]; auto. Qed.

Lemma read_spec : forall dbg o s s' x, k_step dbg o s = Some (s', x) -> (forall z, k_zero s = Some (DRead, z) -> d_epoch z = 1) ->
  k_cipher s' = k_cipher s /\
  ((ei (k_read s') = ei (k_read s) /\ ei (k_next s') = ei (k_next s) /\ none x) \/
   (exists e i, ei (k_read s) = Some (e, i) /\ 0 < i /\ ei (k_read s') = Some (e, i - 1) /\ ei (k_next s') = ei (k_next s) /\ only e x) \/
   (exists e i, ei (k_next s) = Some (e, i) /\ 0 < i /\ ei (k_next s') = Some (e, i - 1) /\ ei (k_read s') = ei (k_read s) /\ only e x) \/
   (k_read s = None /\ ei (k_read s') = Some (3, limit DRead (k_cipher s)) /\ ei (k_next s') = Some (4, limit DRead (k_cipher s)) /\ none x) \/
   (none x /\ (exists e i, ei (k_next s) = Some (e, i) /\ ei (k_read s') = Some (e, i) /\ ei (k_next s') = Some (e + 1, i))) \/
   (none x /\ fatal x = true /\ ei (k_read s') = ei (k_next s) /\ ei (k_next s') = ei (k_read s))).
Proof.
  intros dbg o s s' x H Z2.
  assert (NO : forall e, none (OErrK e)) by (intros e e' _; reflexivity). assert (ND : none ODoneK) by (intros e' _; reflexivity).
  assert (EX : forall y, recv_err y EExhausted = OErrK EExhausted) by reflexivity.
  destruct o as [d|rej|ex|b|ph pn g ok t|pn g ok t|la| |now]; cbn [k_step] in H.
  - destruct d; destruct (k_zero s) eqn:Z; try discriminate; destruct (k_write s) eqn:W; try discriminate; destruct (k_read s) eqn:R; try discriminate; inv H; cbn; (split; [reflexivity|]); left; rewrite R; splits; auto.
  - unfold set_write in H. set (s0 := if rej then with_zero None s else s) in *.
    assert (S0 : k_read s0 = k_read s /\ k_next s0 = k_next s /\ k_cipher s0 = k_cipher s) by (subst s0; destruct rej; auto). destruct S0 as [S1 [S2 S3]].
    destruct (k_write s0); [discriminate|]. destruct (k_zero s0) as [[[|] z]|]; cbn in H; inv H; cbn [k_cipher k_read k_next with_write with_zero]; rewrite S1, S2, S3; (split; [reflexivity|]); left; splits; auto.
  - unfold set_read in H. destruct (k_write s); [|discriminate]. destruct (k_read s) eqn:Rd; [discriminate|].
    set (a0 := app_new DRead (k_cipher s)) in *.
    destruct (match k_zero s with Some (DRead, z) => dx_continue (a_dx a0) z | _ => (a_dx a0, true) end) as [y okb] eqn:C.
    assert (Y : okb = true /\ d_epoch y = 3 /\ d_inv y = limit DRead (k_cipher s)).
    { destruct (k_zero s) as [[[|] z]|]; inv C; subst a0; cbn; auto. }
    destruct Y as [-> [Y1 Y2]]. cbn [negb] in H. unfold app_next in H. cbn [a_dx with_dx a_secret] in H. rewrite Y1 in H.
    change (3 =? 2 ^ 64 - 1) with false in H. cbv iota in H. cbn [res_out] in H. apply some_inj, pair_equal_spec in H. destruct H as [<- <-].
    cbn [k_cipher k_read k_next with_read with_next ei a_dx with_dx d_epoch d_inv dx_next].
    split; [destruct (k_zero s); reflexivity|]. right. right. right. left. rewrite Y1, Y2. splits; auto.
  - apply send_spec in H. assert (K : k_cipher s' = k_cipher s /\ k_read s' = k_read s /\ k_next s' = k_next s /\ none x).
    { destruct H as [[-> ->]|[[-> ->]|[H|H]]]; auto.
      - destruct H as [w [d [r [_ [_ [U X]]]]]]. apply upd_cipher in U. destruct U as [A [_ [B [C _]]]]. cbn in A, B, C. splits; auto.
        unfold enc_out in X. destruct r; [destruct X as [->|[e [-> _]]]|subst x]; intros e' _; reflexivity.
      - destruct H as [_ [z [d [r [_ [_ [-> X]]]]]]]. cbn. splits; auto.
        unfold enc_out in X. destruct r; [destruct X as [->|[e [-> _]]]|subst x]; intros e' _; reflexivity. }
    destruct K as [-> [-> [-> K]]]. split; auto.
  - unfold k_recv in H. destruct (k_read s) as [r|] eqn:Rd; [|inv H; split; auto; left; rewrite Rd; auto].
    destruct (rx_app ph s) as [[|]|] eqn:X; [| |inv H; split; auto; left; rewrite Rd; auto].
    + destruct (dx_decrypt pn g (a_dx r)) as [[y re]|] eqn:D; [|discriminate]. apply decrypt_ei in D. destruct D as [D1 D2].
      assert (K : k_cipher s' = k_cipher s /\ ei (k_read s') = ei (Some (with_dx y r)) /\ ei (k_next s') = ei (k_next s) /\ only (d_epoch y) x /\ (re = Some EExhausted -> none x)).
      { destruct re as [e|]; [inv H; cbn; splits; auto; [apply recv_err_only|intros K; inv K; auto]|].
        apply finish_keys in H. destruct H as [A [B [C E]]]. cbn [k_read k_next k_cipher with_read] in *. splits; auto. discriminate. }
      destruct K as [K1 [K2 [K3 [K4 K5]]]]. split; [exact K1|]. cbn [ei a_dx with_dx] in *. destruct D2 as [[D2 D3]|[-> D3]].
      * right. left. exists (d_epoch (a_dx r)), (d_inv (a_dx r)). rewrite <- D1, <- D3 in *. splits; auto.
      * left. splits; auto.
    + destruct (k_next s) as [n|] eqn:Nx; [|discriminate].
      destruct (dx_decrypt pn g (a_dx n)) as [[y re]|] eqn:D; [|discriminate]. apply decrypt_ei in D. destruct D as [D1 D2].
      assert (K : k_cipher s' = k_cipher s /\ ei (k_next s') = ei (Some (with_dx y n)) /\ ei (k_read s') = ei (Some r) /\ only (d_epoch y) x /\ (re = Some EExhausted -> none x)).
      { destruct re as [e|]; [inv H; cbn; rewrite Rd; splits; auto; [apply recv_err_only|intros K; inv K; auto]|].
        apply finish_keys in H. destruct H as [A [B [C E]]]. cbn [k_read k_next k_cipher with_next] in *. rewrite Rd in B. splits; auto. discriminate. }
      destruct K as [K1 [K2 [K3 [K4 K5]]]]. split; [exact K1|]. cbn [ei a_dx with_dx] in *. destruct D2 as [[D2 D3]|[-> D3]].
      * right. right. left. exists (d_epoch (a_dx n)), (d_inv (a_dx n)). rewrite <- D1, <- D3 in *. splits; auto.
      * left. splits; auto.
  - unfold k_recv0 in H. destruct (k_zero s) as [[[|] z]|] eqn:Z; [| |]; try (inv H; split; auto; left; auto; fail).
    destruct (dx_decrypt pn g z) as [[y re]|] eqn:D; [|discriminate]. apply decrypt_ei in D. destruct D as [D1 _]. specialize (Z2 z eq_refl).
    assert (K : k_cipher s' = k_cipher s /\ ei (k_next s') = ei (k_next s) /\ ei (k_read s') = ei (k_read s) /\ only (d_epoch y) x).
    { destruct re as [e|]; [inv H; cbn; splits; auto; apply recv_err_only|]. apply finish_keys in H. destruct H as [A [B [C E]]]. cbn [k_read k_next k_cipher with_zero] in *. splits; auto. }
    destruct K as [K1 [K2 [K3 K4]]]. split; [exact K1|]. left. splits; auto. intros e' E. destruct (opened_or_failed e' x) eqn:Q; [|reflexivity].
    exfalso. specialize (K4 e' E Q). lia.
  - destruct (initiate dbg la s) as [[s1 re]|] eqn:U; [|discriminate]. apply initiate_spec in U. destruct U as [U _]. apply upd_cipher in U. destruct U as [A [_ [B [C _]]]].
    destruct re; cbn in H; inv H; rewrite A, B, C; split; auto; left; auto.
  - destruct (auto_update dbg s) as [[s1 re]|] eqn:U; [|discriminate]. apply auto_spec in U. destruct U as [U _]. apply upd_cipher in U. destruct U as [A [_ [B [C _]]]].
    destruct re; cbn in H; inv H; rewrite A, B, C; split; auto; left; auto.
  - unfold check_update in H. destruct (k_time s) as [t|]; [|inv H; split; auto; left; auto]. destruct (t <=? now); [|inv H; split; auto; left; auto].
    destruct (has_0rtt_read s); [inv H; split; auto; left; auto|]. cbn [k_read with_next with_read] in H.
    destruct (k_next s) as [n|] eqn:Nx; [|inv H; cbn; split; auto; right; right; right; right; right; auto].
    unfold app_next in H. destruct (d_epoch (a_dx n) =? 2 ^ 64 - 1); inv H; cbn; (split; [reflexivity|]); right; right; right; right.
    + right. auto.
    + left. split; auto. exists (d_epoch (a_dx n)), (d_inv (a_dx n)). auto.
Qed.

Record RL (c : cipher) (cl : bool) (h : list kout) (s : kst) : Prop := {
  rl_c : k_cipher s = c;
  rl_k : forall e i, ei (k_read s) = Some (e, i) \/ ei (k_next s) = Some (e, i) -> count (opened_or_failed e) h + i <= limit DRead c;
  rl_above : cl = false -> forall e, 3 <= e -> count (opened_or_failed e) h <> 0 -> exists n, k_next s = Some n /\ e <= d_epoch (a_dx n);
  rl_b : forall e, 3 <= e -> count (opened_or_failed e) h <= limit DRead c }.

Lemma epochs : forall h s r n w e i e' i', RS h s r n w -> ei (k_read s) = Some (e, i) -> ei (k_next s) = Some (e', i') -> e' = e + 1 /\ 3 <= e.
Proof. intros h s r n w e i e' i' [] A B. rewrite rs_r, rs_n in *. cbn in A, B. inv A. inv B. destruct rs_okr. split; lia. Qed.

Lemma rl_step : forall dbg o c cl h s s' x, RI cl h s -> RL c cl h s -> (cl = true -> exists b, o = KSend b) -> k_step dbg o s = Some (s', x) -> RL c (cl || fatal x) (h ++ [x]) s'.
Proof.
  intros dbg o c cl h s s' x I [C1 C2 C3 C4] CS H.
  destruct cl.
  - destruct (CS eq_refl) as [b ->]. cbn [k_step] in H. apply send_spec in H.
    assert (K : k_cipher s' = k_cipher s /\ k_read s' = k_read s /\ k_next s' = k_next s /\ none x /\ forall e, opened_or_failed e x = false).
    { destruct H as [[-> ->]|[[-> ->]|[H|H]]].
      - splits; auto. intros e' _. reflexivity.
      - splits; auto. intros e' _. reflexivity.
      - destruct H as [w [d [r [_ [_ [U X]]]]]]. apply upd_cipher in U. destruct U as [A [_ [B [C _]]]]. cbn in A, B, C.
        unfold enc_out in X. destruct r; [destruct X as [->|[e [-> _]]]|subst x]; splits; auto; intros e' _; reflexivity.
      - destruct H as [_ [z [d [r [_ [_ [-> X]]]]]]].
        unfold enc_out in X. destruct r; [destruct X as [->|[e [-> _]]]|subst x]; splits; auto; intros e' _; reflexivity. }
    destruct K as [K1 [K2 [K3 [_ K]]]]. split; [congruence| |discriminate|].
    + intros e i Q. rewrite K2, K3 in Q. rewrite count_app, count_one, K, N.add_0_r. auto.
    + intros e E. rewrite count_app, count_one, K, N.add_0_r. auto.
  - clear CS. destruct (I eq_refl) as [Z1 [Z2 R]]. destruct (read_spec _ _ _ _ _ H Z2) as [A B].
    assert (G3 : forall e i, ei (k_read s) = Some (e, i) \/ ei (k_next s) = Some (e, i) -> 3 <= e).
    { intros e i Q. destruct R as [[R1 [R2 _]]|[r [n [w []]]]]; [rewrite R1, R2 in Q; destruct Q; discriminate|]. rewrite rs_r, rs_n in Q. destruct rs_okr, rs_okn. destruct Q as [Q|Q]; cbn in Q; inv Q; lia. }
    assert (AB : forall s1, ei (k_next s1) = None -> k_next s1 = None) by (intros s1; destruct (k_next s1); [discriminate|reflexivity]).
    specialize (C3 eq_refl).
    assert (NX : forall e i, ei (k_next s) = Some (e, i) -> forall e', 3 <= e' -> count (opened_or_failed e') h <> 0 -> e' <= e).
    { intros e i Q e' E K. destruct (C3 e' E K) as [n [N1 N2]]. rewrite N1 in Q. cbn in Q. inv Q. exact N2. }
    assert (EN : forall e i, ei (k_next s') = Some (e, i) -> exists n, k_next s' = Some n /\ d_epoch (a_dx n) = e).
    { intros e i Q. destruct (k_next s') as [n|]; [|discriminate]. inv Q. eauto. }
    destruct B as [[B1 [B2 B3]]|[[e [i [B1 [B2 [B3 [B4 B5]]]]]]|[[e [i [B1 [B2 [B3 [B4 B5]]]]]]|[[B1 [B2 [B3 B4]]]|[[B1 [e [i [B2 [B3 B4]]]]]|[B1 [B2 [B3 B4]]]]]]]].
    + split; [congruence| | |].
      * intros e i Q. rewrite B1, B2 in Q. rewrite count_app, count_one, (B3 e) by eauto. rewrite N.add_0_r. auto.
      * intros CL e E. rewrite count_app, count_one, (B3 e) by auto. rewrite N.add_0_r. intros K. destruct (C3 e E K) as [n [N1 N2]].
        rewrite N1 in B2. cbn in B2. destruct (EN _ _ B2) as [n' [Q1 Q2]]. exists n'. split; [exact Q1|lia].
      * intros e E. rewrite count_app, count_one, (B3 e) by auto. rewrite N.add_0_r. auto.
    + assert (CE : forall e', 3 <= e' -> e' <> e -> count (opened_or_failed e') (h ++ [x]) = count (opened_or_failed e') h).
      { intros e' E' NE. rewrite count_app, count_one. destruct (opened_or_failed e' x) eqn:Q; [exfalso; apply NE; apply B5; auto|lia]. }
      assert (CM : count (opened_or_failed e) (h ++ [x]) <= count (opened_or_failed e) h + 1) by (rewrite count_app, count_one; destruct (opened_or_failed e x); lia).
      pose proof (C2 e i (or_introl B1)) as CB. pose proof (G3 e i (or_introl B1)) as E3.
      split; [congruence| | |].
      * intros e' i' [Q|Q].
        -- rewrite B3 in Q. inv Q. lia.
        -- rewrite B4 in Q. destruct R as [[_ [R2 _]]|[r [n [w R]]]]; [rewrite R2 in Q; discriminate|]. destruct (epochs _ _ _ _ _ _ _ _ _ R B1 Q). rewrite CE by lia. apply C2. auto.
      * intros CL e' E' K. destruct R as [[R1 _]|[r [n [w R]]]]; [rewrite R1 in B1; discriminate|].
        assert (NN : ei (k_next s) = ei (Some n)) by (destruct R; congruence). cbn [ei] in NN. rewrite NN in B4. destruct (EN _ _ B4) as [n' [Q1 Q2]]. exists n'. split; [exact Q1|]. rewrite Q2.
        destruct (N.eq_dec e' e) as [->|NE]; [destruct (epochs _ _ _ _ _ _ _ _ _ R B1 NN); lia|]. rewrite CE in K by auto. exact (NX _ _ NN _ E' K).
      * intros e' E'. destruct (N.eq_dec e' e) as [->|NE]; [lia|]. rewrite CE by auto. auto.
    + assert (CE : forall e', 3 <= e' -> e' <> e -> count (opened_or_failed e') (h ++ [x]) = count (opened_or_failed e') h).
      { intros e' E' NE. rewrite count_app, count_one. destruct (opened_or_failed e' x) eqn:Q; [exfalso; apply NE; apply B5; auto|lia]. }
      assert (CM : count (opened_or_failed e) (h ++ [x]) <= count (opened_or_failed e) h + 1) by (rewrite count_app, count_one; destruct (opened_or_failed e x); lia).
      pose proof (C2 e i (or_intror B1)) as CB. pose proof (G3 e i (or_intror B1)) as E3.
      split; [congruence| | |].
      * intros e' i' [Q|Q].
        -- rewrite B4 in Q. destruct R as [[R1 _]|[r [n [w R]]]]; [rewrite R1 in Q; discriminate|]. destruct (epochs _ _ _ _ _ _ _ _ _ R Q B1). rewrite CE by lia. apply C2. auto.
        -- rewrite B3 in Q. inv Q. lia.
      * intros CL e' E' K. destruct (EN _ _ B3) as [n' [Q1 Q2]]. exists n'. split; [exact Q1|]. rewrite Q2.
        destruct (N.eq_dec e' e) as [->|NE]; [lia|]. rewrite CE in K by auto. exact (NX _ _ B1 _ E' K).
      * intros e' E'. destruct (N.eq_dec e' e) as [->|NE]; [lia|]. rewrite CE by auto. auto.
    + assert (Z : forall e, 3 <= e -> count (opened_or_failed e) (h ++ [x]) = 0).
      { intros e E. rewrite count_app, count_one, (B4 e E), N.add_0_r. destruct (N.eq_dec (count (opened_or_failed e) h) 0) as [K|K]; [exact K|].
        destruct (C3 e E K) as [n [N1 _]]. destruct R as [[_ [R2 _]]|[r [n' [w []]]]]; congruence. }
      split; [congruence| | |].
      * intros e i [Q|Q]; [rewrite B2 in Q|rewrite B3 in Q]; apply some_inj, pair_equal_spec in Q; destruct Q as [<- <-]; rewrite Z by lia; rewrite C1; lia.
      * intros CL e E K. rewrite Z in K by exact E. congruence.
      * intros e E. rewrite Z by exact E. lia.
    + assert (CE : forall e', 3 <= e' -> count (opened_or_failed e') (h ++ [x]) = count (opened_or_failed e') h) by (intros e' E'; rewrite count_app, count_one, (B1 e' E'); lia).
      pose proof (C2 e i (or_intror B2)) as CB. pose proof (G3 e i (or_intror B2)) as E3.
      split; [congruence| | |].
      * intros e' i' [Q|Q]; [rewrite B3 in Q|rewrite B4 in Q]; inv Q; rewrite CE by lia; [exact CB|].
        destruct (N.eq_dec (count (opened_or_failed (e + 1)) h) 0) as [K|K]; [lia|]. pose proof (NX _ _ B2 (e + 1) ltac:(lia) K). lia.
      * intros CL e' E' K. destruct (EN _ _ B4) as [n' [Q1 Q2]]. exists n'. split; [exact Q1|]. rewrite Q2. rewrite CE in K by auto. pose proof (NX _ _ B2 _ E' K). lia.
      * intros e' E'. rewrite CE by auto. auto.
    + split; [congruence| |cbn; congruence|].
      * intros e i Q. rewrite B3, B4 in Q. assert (Q' : ei (k_read s) = Some (e, i) \/ ei (k_next s) = Some (e, i)) by tauto.
        rewrite count_app, count_one, (B1 e) by eauto. rewrite N.add_0_r. auto.
      * intros e E. rewrite count_app, count_one, (B1 e) by auto. rewrite N.add_0_r. auto.
Qed.

Theorem limits_run : forall dbg c os s xs, k_run dbg false os (k_new c) = Some (s, xs) -> WL c xs s /\ RL c (existsb fatal xs) xs s.
Proof.
  intros dbg c os s xs R.
  destruct (run_app _ _ _ _ _ _ R (fun cl h s => (WA false cl h s /\ RI cl h s) /\ WL c h s /\ RL c cl h s) (fun _ => True) []) as [cl' [[_ [I J]] ->]].
  - intros cl h s0 o s' x _ [[J1 J2] [J3 J4]] CS H. splits.
    + refine (wa_step _ _ _ _ _ _ _ _ _ J1 H). discriminate.
    + exact (ri_step _ _ _ _ _ _ _ J1 J2 CS H).
    + exact (wl_step _ _ _ _ _ _ _ _ J1 J3 H).
    + exact (rl_step _ _ _ _ _ _ _ _ J2 J4 CS H).
  - apply Forall_forall. auto.
  - splits.
    + apply wa_init.
    + apply ri_init.
    + split; cbn; try discriminate; auto. split; intros; apply N.le_0_l.
    + split; cbn; try discriminate; auto; [intros e i [K|K]; discriminate|intros _ e _ K; exfalso; apply K; reflexivity|intros; apply N.le_0_l].
  - auto.
Qed.

(** ** No panics *)
Record NP (h : list kout) (s : kst) : Prop := {
  np_z : forall z, k_zero s = Some (DWrite, z) -> d_e z <= lenN h;
  np_w : forall w, k_write s = Some w -> d_e (a_dx w) <= lenN h }.
Lemma np_step : forall dbg o cl h s s' x, WA false cl h s -> NP h s -> k_step dbg o s = Some (s', x) -> NP (h ++ [x]) s'.
Proof.
  intros dbg o cl h s s' x W [Z V] H. assert (LX : lenN (h ++ [x]) = lenN h + 1) by (rewrite lenN_app; reflexivity).
  assert (D : (exists b, o = KSend b) \/ forall b, o <> KSend b) by (destruct o; eauto; right; discriminate).
  destruct D as [[b ->]|D].
  - cbn [k_step] in H. apply send_spec in H. destruct H as [[-> ->]|[[-> ->]|[H|H]]].
    + split; intros; rewrite LX; [pose proof (Z z H)|pose proof (V w H)]; lia.
    + split; intros; rewrite LX; [pose proof (Z z H)|pose proof (V w H)]; lia.
    + destruct H as [w [d [r [Ww [E [U X]]]]]]. destruct (wa_write _ _ _ _ W _ Ww) as [OK DW]. specialize (V _ Ww).
      pose proof (encrypt_spec _ _ _ _ E (proj1 DW) (proj2 DW)) as [E1 [E2 [E3 [E4 EE]]]].
      pose proof (upd_cipher _ _ U) as [UC [UZ _]]. cbn [k_zero with_write] in UZ. split.
      * intros z Zz. rewrite UZ in Zz. pose proof (Z z Zz). lia.
      * intros w' W'. rewrite LX. destruct U as [->|[w1 [w2 [r1 [A [B [F [[Fa ->] ->]]]]]]]].
        -- cbn in W'. apply some_inj in W'. subst w'. cbn. lia.
        -- cbn in A. apply some_inj in A. subst w1. cbn in W'. apply some_inj in W'. subst w'. cbn. lia.
    + destruct H as [Ww [z [d [r [Zz [E [-> X]]]]]]]. destruct (wa_zero _ _ _ _ W _ Zz) as [_ [_ [_ DW]]]. specialize (Z _ Zz).
      pose proof (encrypt_spec _ _ _ _ E (proj1 DW) (proj2 DW)) as [E1 [E2 [E3 [E4 EE]]]].
      split; cbn [k_zero k_write with_zero]; rewrite LX; [|congruence]. intros z' Q. inv Q. lia.
  - destruct (other_spec _ _ _ _ _ H D) as [A [B O]]. split; rewrite LX.
    + intros z Q. destruct O as [[O1 _]|[O|O]].
      * apply O1 in Q. specialize (Z _ Q). lia.
      * destruct O as [_ [_ [_ [_ [_ [_ O]]]]]]. rewrite O in Q. inv Q. cbn. lia.
      * destruct O as [rej [_ [_ [O _]]]]. congruence.
    + intros w Q. destruct O as [[_ [O|[w1 [w2 [r [O1 [O2 [O3 [[O4 ->] O5]]]]]]]]]|[O|O]].
      * rewrite O in Q. specialize (V _ Q). lia.
      * rewrite O5 in Q. apply some_inj in Q. subst w. cbn. specialize (V _ O1). lia.
      * destruct O as [_ [_ [_ [_ [O _]]]]]. congruence.
      * destruct O as [rej [_ [_ [_ [_ O]]]]]. rewrite O in Q. apply some_inj in Q. subst w. cbn [a_dx].
        destruct (k_zero s) as [[[|] z]|] eqn:Zz; cbn; try lia. destruct rej; cbn; [lia|]. pose proof (Z z eq_refl). lia.
Qed.
Lemma np_run : forall dbg c os s xs, k_run dbg false os (k_new c) = Some (s, xs) -> NP xs s.
Proof.
  intros dbg c os s xs R.
  destruct (run_app _ _ _ _ _ _ R (fun cl h s => WA false cl h s /\ NP h s) (fun _ => True) []) as [cl' [[_ I] ->]].
  - intros cl h s0 o s' x _ [J1 J2] CS H. split; [refine (wa_step _ _ _ _ _ _ _ _ _ J1 H); discriminate|exact (np_step _ _ _ _ _ _ _ J1 J2 H)].
  - apply Forall_forall. auto.
  - split; [apply wa_init|]. split; cbn; discriminate.
  - exact I.
Qed.
Lemma run_len : forall dbg os cl s s' xs, k_run dbg cl os s = Some (s', xs) -> lenN xs <= lenN os.
Proof.
  induction os as [|o os IH]; intros cl s s' xs R; cbn [k_run] in R; [inv R; apply N.le_refl|]. rewrite lenN_cons.
  destruct (cl && _); [apply IH in R; lia|]. destruct (k_step dbg o s) as [[s1 x]|]; [|discriminate].
  destruct (k_run dbg (cl || fatal x) os s1) as [[s2 ys]|] eqn:Q; [|discriminate]. inv R. rewrite lenN_cons. apply IH in Q. lia.
Qed.
Lemma encrypt_total : forall b x, d_e x < 2 ^ 63 -> dx_encrypt b x <> None.
Proof.
  intros b x H. unfold dx_encrypt, dx_invoked, dx_used, chk. set (x1 := if d_len x <? b then _ else _). destruct (d_inv x1 =? 0); [discriminate|].
  destruct (d_e x <? _); [discriminate|]. destruct (N.ltb_spec (d_e x + 1) (2 ^ 64)); [discriminate|lia].
Qed.
Lemma decrypt_total : forall pn g x, pn < 2 ^ 62 -> dx_decrypt pn g x <> None.
Proof.
  intros pn g x H. unfold dx_decrypt, dx_invoked, dx_used, chk. destruct (d_inv x =? 0); [discriminate|]. destruct (match g with Some _ => _ | None => _ end); [|discriminate].
  destruct (pn <? _); [discriminate|]. destruct (N.ltb_spec (pn + 1) (2 ^ 64)); [discriminate|lia].
Qed.
Lemma muw_total : forall s, maybe_update_write false s <> None.
Proof. intros s. unfold maybe_update_write. cbn. destruct (k_write s); [|discriminate]. destruct (k_read s); [|discriminate]. destruct (_ =? _); [|discriminate]. destruct (app_next _ _ _); discriminate. Qed.
Lemma auto_total : forall s, auto_update false s <> None.
Proof. intros s. unfold auto_update. destruct (k_write s); [|discriminate]. destruct (dx_should_update _); [|discriminate]. pose proof (muw_total s). destruct (maybe_update_write false s) as [[? [?|?]]|]; congruence. Qed.
Lemma finish_total : forall ok t x pn s, finish_recv false ok t x pn s <> None.
Proof.
  intros ok t x pn s. unfold finish_recv. destruct ok; cbn [negb]; [|discriminate].
  assert (K : (if dx_needs_update x then update_received false (d_epoch x) t s else Some (s, None)) <> None).
  { destruct (dx_needs_update x); [|discriminate]. unfold update_received. destruct (match k_upd s with Some _ => _ | None => _ end); [discriminate|].
    pose proof (muw_total (with_upd (Some (d_epoch x)) s)). destruct (maybe_update_write false _) as [[? [?|?]]|]; cbn; congruence. }
  destruct (if dx_needs_update x then _ else _) as [[s1 [e|]]|]; [discriminate| |congruence]. destruct (check_overlap s1) as [s2 [e|]]; discriminate.
Qed.
Lemma step_total : forall o s h, NP h s -> lenN h < 2 ^ 63 -> pn_ok o -> installs o = false -> k_step false o s <> None.
Proof.
  intros o s h [Z V] L P In. destruct o as [d|rej|ex|b|ph pn g ok t|pn g ok t|la| |now]; try discriminate In; cbn [k_step pn_ok] in *.
  - unfold k_send. destruct (k_write s) as [w|].
    + pose proof (encrypt_total b (a_dx w) ltac:(specialize (V w eq_refl); lia)). destruct (dx_encrypt b (a_dx w)) as [[x [p|e]]|]; [| discriminate|congruence].
      match goal with |- context [auto_update false ?q] => pose proof (auto_total q); destruct (auto_update false q) as [[? [?|]]|] end; congruence.
    + destruct (k_zero s) as [[[|] z]|]; [discriminate| |discriminate].
      pose proof (encrypt_total b z ltac:(specialize (Z z eq_refl); lia)). destruct (dx_encrypt b z) as [[x [p|e]]|]; [| discriminate|congruence].
      match goal with |- context [auto_update false ?q] => pose proof (auto_total q); destruct (auto_update false q) as [[? [?|]]|] end; congruence.
  - unfold k_recv. destruct (k_read s) as [r|]; [|discriminate]. destruct (rx_app ph s) as [[|]|] eqn:X; [| |discriminate].
    + pose proof (decrypt_total pn g (a_dx r) P). destruct (dx_decrypt pn g (a_dx r)) as [[x [e|]]|]; [discriminate|apply finish_total|congruence].
    + destruct (k_next s) as [n|] eqn:Nx; [|unfold rx_app in X; rewrite Nx in X; destruct (match k_read s with Some _ => _ | None => _ end); discriminate].
      pose proof (decrypt_total pn g (a_dx n) P). destruct (dx_decrypt pn g (a_dx n)) as [[x [e|]]|]; [discriminate|apply finish_total|congruence].
  - unfold k_recv0. destruct (k_zero s) as [[[|] z]|]; [|discriminate|discriminate].
    pose proof (decrypt_total pn g z P). destruct (dx_decrypt pn g z) as [[x [e|]]|]; [discriminate|apply finish_total|congruence].
  - unfold initiate. destruct (k_write s); [|discriminate]. destruct (dx_can_update _ _ && _); [|discriminate].
    pose proof (muw_total s). destruct (maybe_update_write false s) as [[? [?|?]]|]; cbn; try congruence. destruct b; discriminate.
  - pose proof (auto_total s). destruct (auto_update false s) as [[? [?|]]|]; cbn; congruence.
  - unfold check_update. destruct (k_time s); [|discriminate]. destruct (_ <=? _); [|discriminate]. destruct (has_0rtt_read s); [discriminate|]. cbn [k_read with_next with_read].
    destruct (k_next s); [|discriminate]. destruct (app_next _ _ _); discriminate.
Qed.
