From Verif Require Import Base Lib CodecModel Reader CodecSpec.

(* ------------------------------------------------------------------ *)
(** ** Decoder *)

Lemma dec_rest_length d : dec_wf d -> length (dec_rest d) = dec_remaining d.
Proof. intros _. unfold dec_rest, dec_remaining. apply skipn_length. Qed.

Lemma dec_advance_rest d n : dec_rest (dec_advance d n) = skipn n (dec_rest d).
Proof. unfold dec_rest, dec_advance; cbn. apply skipn_add. Qed.

Lemma dec_advance_wf d n : dec_wf d -> (n <= dec_remaining d)%nat -> dec_wf (dec_advance d n).
Proof. unfold dec_wf, dec_remaining, dec_advance; cbn; lia. Qed.

Lemma run_len_le p l : (run_len p l <= length l)%nat.
Proof. induction l as [|b l IH]; cbn [run_len length]; [lia|]. destruct (b =? p); lia. Qed.

Lemma skip_while_no_panic p d : dec_wf d -> exists n, dec_skip_while p d = (Some n, dec_advance d n) /\ (n <= dec_remaining d)%nat.
Proof.
  intros H. unfold dec_skip_while, dec_skip.
  pose proof (run_len_le p (dec_rest d)) as Hl. rewrite dec_rest_length in Hl by assumption.
  destruct (Nat.leb_spec (run_len p (dec_rest d)) (dec_remaining d)); [|lia].
  eexists; split; [reflexivity|assumption].
Qed.

Lemma dec_n_view n d :
  dec_wf d ->
  dec_n n d = match rd_n n (dec_rest d) with
              | Some (v, _) => (Some v, dec_advance d n)
              | None => (None, d)
              end.
Proof.
  intros H. unfold dec_n, rd_n. rewrite dec_rest_length by assumption.
  unfold dec_rest. destruct (Nat.ltb (dec_remaining d) n); reflexivity.
Qed.

Lemma dec_bytes_view n d :
  dec_wf d ->
  dec_bytes n d = match rd_bytes (N.of_nat n) (dec_rest d) with
                  | Some (v, _) => (Some v, dec_advance d n)
                  | None => (None, d)
                  end.
Proof.
  intros H. unfold dec_bytes, rd_bytes, lenN, firstnN. rewrite dec_rest_length by assumption.
  unfold dec_rest. rewrite Nat2N.id.
  destruct (Nat.ltb_spec (dec_remaining d) n); destruct (N.ltb_spec (N.of_nat (dec_remaining d)) (N.of_nat n)); try lia; reflexivity.
Qed.

Lemma rd_varint_spec l :
  (length l < varint_need l -> rd_varint l = None)%nat /\
  ((varint_need l <= length l)%nat ->
     exists v, rd_varint l = Some (v, skipn (varint_need l) l)).
Proof.
  destruct l as [|b r]; cbn [rd_varint varint_need length].
  - split; [reflexivity|lia].
  - repeat dmatch; split; intros; try lia; try reflexivity; eexists; reflexivity.
Qed.

Lemma top_cases b : b < 256 ->
  (N.shiftr b 6 =? 0) = (b <? 64) /\
  (b <? 64 = false -> (N.shiftr b 6 =? 1) = (b <? 128)) /\
  (b <? 128 = false -> (N.shiftr b 6 =? 2) = (b <? 192)).
Proof.
  intros Hb. rewrite shiftr_6. repeat split; intros; dlia.
Qed.

Lemma be_val_1 b : be_val [b] = b.
Proof. unfold be_val; cbn [fold_left]. lia. Qed.

Lemma dec_varint_view d :
  dec_wf d -> bytes_ok (dbuf d) ->
  (forall v r, rd_varint (dec_rest d) = Some (v, r) ->
     exists n, dec_varint d = (Some v, dec_advance d n) /\ (0 < n <= dec_remaining d)%nat
               /\ n = varint_need (dec_rest d)
               /\ r = skipn n (dec_rest d)) /\
  (rd_varint (dec_rest d) = None ->
     exists n, dec_varint d = (None, dec_advance d n) /\ (n <= dec_remaining d)%nat
        /\ (n <= 1)%nat).
Proof.
  intros Hwf Hok.
  unfold dec_varint. rewrite dec_n_view by assumption.
  pose proof (bytes_ok_skipn (doff d) _ Hok) as Hrest. fold (dec_rest d) in Hrest.
  pose proof (dec_rest_length d Hwf) as Hlen.
  destruct (dec_rest d) as [|b r] eqn:Er.
  - cbn [rd_varint rd_n length]. cbn. split; [congruence|].
    intros _. exists 0%nat. split; [|lia]. unfold dec_advance. rewrite Nat.add_0_r. destruct d; reflexivity.
  - unfold rd_n. cbn [length] in *. destruct (Nat.ltb_spec (S (length r)) 1); [lia|].
    cbn [firstn]. rewrite be_val_1.
    apply Forall_cons_iff in Hrest as [Hbyte Hrest]. unfold byte_ok in Hbyte.
    assert (Hwf1 : dec_wf (dec_advance d 1)) by (apply dec_advance_wf; [assumption|lia]).
    assert (Hr1 : dec_rest (dec_advance d 1) = r) by (rewrite dec_advance_rest, Er; reflexivity).
    destruct (top_cases b ltac:(assumption)) as (T0 & T1 & T2).
    cbn [rd_varint varint_need]. rewrite T0.
    assert (Hcase : forall (k : nat) (sh : N),
       sh = 8 * N.of_nat k ->
       let more := match dec_n k (dec_advance d 1) with
        | (None, d2) => (None, d2)
        | (Some r0, d2) => (Some (N.lor (N.shiftl (N.land b 63) sh) r0), d2)
        end in
       (forall v r0,
        (if Nat.ltb (length r) k then None
         else Some (b mod 64 * 256 ^ N.of_nat k + be_val (firstn k r), skipn k r)) = Some (v, r0) ->
        exists n, more = (Some v, dec_advance d n) /\ (0 < n <= dec_remaining d)%nat /\ n = S k /\ r0 = skipn n (b :: r)) /\
       ((if Nat.ltb (length r) k then None
         else Some (b mod 64 * 256 ^ N.of_nat k + be_val (firstn k r), skipn k r)) = None ->
        exists n, more = (None, dec_advance d n) /\ (n <= dec_remaining d)%nat /\ (n <= 1)%nat)).
    { intros k sh Hsh more. subst more. rewrite dec_n_view by assumption. rewrite Hr1. unfold rd_n.
      destruct (Nat.ltb_spec (length r) k) as [Hk|Hk].
      - split; [congruence|]. intros _. exists 1%nat. split; [reflexivity|]. lia.
      - split; [|congruence]. intros v r0 Heq. injection Heq as <- <-.
        exists (S k). split; [|repeat split; lia].
        unfold dec_advance; cbn [dbuf doff]. f_equal; [|f_equal; lia].
        f_equal. rewrite land_63, lor_add'.
        + rewrite pow256, Hsh. reflexivity.
        + rewrite Hsh, <- pow256.
          replace (N.of_nat k) with (lenN (firstn k r)).
          * apply be_val_bound, bytes_ok_firstn. assumption.
          * unfold lenN. rewrite firstn_length. lia. }
    destruct (b <? 64) eqn:E64.
    + cbn [Nat.ltb Nat.leb firstn skipn].
      split; [|congruence]. intros v r0 Heq. injection Heq as <- <-.
      exists 1%nat. split; [|repeat split; lia]. f_equal. f_equal.
      change (256 ^ N.of_nat 0) with 1. change (be_val []) with 0.
      rewrite N.mod_small by lia. lia.
    + rewrite T1 by reflexivity. destruct (b <? 128) eqn:E128.
      * exact (Hcase 1%nat 8 eq_refl).
      * rewrite T2 by reflexivity. destruct (b <? 192) eqn:E192.
        -- exact (Hcase 3%nat 24 eq_refl).
        -- exact (Hcase 7%nat 56 eq_refl).
Qed.

Lemma rd_varint_bound l v r : bytes_ok l -> rd_varint l = Some (v, r) -> v < 2 ^ 62.
Proof.
  destruct l as [|b t]; cbn [rd_varint]; [congruence|]. intros Hok. apply Forall_cons_iff in Hok as [Hb Ht]. unfold byte_ok in Hb.
  assert (G : forall k, (k <= 7)%nat -> (if Nat.ltb (length t) k then None
       else Some (b mod 64 * 256 ^ N.of_nat k + be_val (firstn k t), skipn k t)) = Some (v, r) ->
       v < 64 * 256 ^ N.of_nat k).
  { intros k Hk H. destruct (Nat.ltb_spec (length t) k); [congruence|]. inv H.
    pose proof (be_val_bound (firstn k t) (bytes_ok_firstn _ _ Ht)) as Hv.
    unfold lenN in Hv. rewrite firstn_length, Nat.min_l in Hv by lia.
    pose proof (N.mod_lt b 64 ltac:(lia)). nia. }
  intros H.
  destruct (b <? 64); [|destruct (b <? 128); [|destruct (b <? 192)]].
  - apply (G 0%nat) in H; [|lia]. eapply N.lt_le_trans; [exact H|]. vm_compute; discriminate.
  - apply (G 1%nat) in H; [|lia]. eapply N.lt_le_trans; [exact H|]. vm_compute; discriminate.
  - apply (G 3%nat) in H; [|lia]. eapply N.lt_le_trans; [exact H|]. vm_compute; discriminate.
  - apply (G 7%nat) in H; [|lia]. eapply N.lt_le_trans; [exact H|]. vm_compute; discriminate.
Qed.

Lemma rd_varint_suffix l v r : rd_varint l = Some (v, r) -> exists p, l = p ++ r /\ length p = varint_need l.
Proof.
  intros H. destruct (rd_varint_spec l) as [H1 H2].
  destruct (Nat.lt_ge_cases (length l) (varint_need l)) as [Hl|Hl].
  - rewrite (H1 Hl) in H. discriminate.
  - destruct (H2 Hl) as [w Hw]. rewrite Hw in H. inv H.
    exists (firstn (varint_need l) l). split; [symmetry; apply firstn_skipn|].
    rewrite firstn_length. lia.
Qed.

Lemma rd_varint_prefix l v r : rd_varint l = Some (v, r) ->
  exists h, l = h ++ r /\ length h = varint_need l /\ forall r', rd_varint (h ++ r') = Some (v, r').
Proof.
  destruct l as [|b t]; [discriminate|]. cbn [rd_varint varint_need].
  set (k := if b <? 64 then 0%nat else if b <? 128 then 1%nat else if b <? 192 then 3%nat else 7%nat).
  intros H. destruct (Nat.ltb_spec (length t) k) as [Hk|Hk]; [discriminate|]. injection H as <- <-.
  exists (b :: firstn k t). cbn [app]. rewrite firstn_skipn. split; [reflexivity|].
  assert (Hl : length (firstn k t) = k) by (rewrite firstn_length; lia).
  split; [cbn [length]; rewrite Hl; subst k; repeat dmatch; reflexivity|].
  intros r'. cbn [rd_varint]. fold k.
  rewrite app_length, Hl. destruct (Nat.ltb_spec (k + length r') k); [lia|].
  pose proof (firstn_app_exact (firstn k t) r') as F1. pose proof (skipn_app_exact (firstn k t) r') as F2.
  rewrite Hl in F1, F2. rewrite F1, F2. reflexivity.
Qed.

Lemma rd_bytes_spec n l a r : rd_bytes n l = Some (a, r) <-> l = a ++ r /\ lenN a = n.
Proof.
  unfold rd_bytes, firstnN, skipnN, lenN. split.
  - destruct (N.ltb_spec (N.of_nat (length l)) n); [congruence|]. intros H'; inv H'.
    rewrite firstn_skipn. split; [reflexivity|]. rewrite firstn_length. lia.
  - intros [-> <-]. rewrite app_length. destruct (N.ltb_spec (N.of_nat (length a + length r)) (N.of_nat (length a))); [lia|].
    rewrite Nat2N.id, firstn_app_exact, skipn_app_exact. reflexivity.
Qed.

Lemma rd_bytes_none n l : rd_bytes n l = None <-> lenN l < n.
Proof. unfold rd_bytes. destruct (N.ltb_spec (lenN l) n); split; intros; try congruence; lia. Qed.

Lemma rd_n_spec n l v r : rd_n n l = Some (v, r) <-> exists h, l = h ++ r /\ length h = n /\ v = be_val h.
Proof.
  unfold rd_n. split.
  - destruct (Nat.ltb_spec (length l) n); [congruence|]. intros H'; inv H'.
    exists (firstn n l). rewrite firstn_skipn. split; [reflexivity|]. split; [|reflexivity]. rewrite firstn_length. lia.
  - intros (h & -> & <- & ->). rewrite app_length. destruct (Nat.ltb_spec (length h + length r) (length h)); [lia|].
    rewrite firstn_app_exact, skipn_app_exact. reflexivity.
Qed.

Lemma rd_n_none n l : rd_n n l = None <-> (length l < n)%nat.
Proof. unfold rd_n. destruct (Nat.ltb_spec (length l) n); split; intros; try congruence; lia. Qed.

Lemma dec_checked_view k d :
  dec_wf d ->
  dec_checked (Some k) d = match rd_bytes k (dec_rest d) with
                  | Some (v, _) => (Some v, dec_advance d (N.to_nat k))
                  | None => (None, d)
                  end.
Proof.
  intros H. unfold dec_checked. unfold rd_bytes at 1. unfold lenN. rewrite dec_rest_length by assumption.
  destruct (N.ltb_spec (N.of_nat (dec_remaining d)) k) as [Hk|Hk]; [reflexivity|].
  rewrite dec_bytes_view by assumption. rewrite N2Nat.id.
  unfold rd_bytes, lenN. rewrite dec_rest_length by assumption.
  destruct (N.ltb_spec (N.of_nat (dec_remaining d)) k); [lia|]. reflexivity.
Qed.

(* ------------------------------------------------------------------ *)
(** ** Varint round trip *)
Lemma be_bytes_head n v : be_bytes (S n) v = (v / 256 ^ N.of_nat n) mod 256 :: be_bytes n v.
Proof. reflexivity. Qed.

Lemma rd_varint_encode v l r : varint_bytes v = Some l -> rd_varint (l ++ r) = Some (v, r).
Proof.
  unfold varint_bytes.
  destruct (N.ltb_spec v (2 ^ 6)) as [H6|H6].
  - intros H; inv H. cbn [app rd_varint].
    change (2 ^ 6) with 64 in *. rewrite N.mod_small by (change (2 ^ 8) with 256; lia).
    destruct (N.ltb_spec v 64); [|lia]. cbn [Nat.ltb Nat.leb firstn skipn].
    change (256 ^ N.of_nat 0) with 1. change (be_val []) with 0.
    rewrite N.mod_small by lia. do 2 f_equal. lia.
  - assert (G : forall (k : nat) (top w : N),
        w = v + top * 2 ^ (8 * N.of_nat k + 6) ->
        v < 2 ^ (8 * N.of_nat k + 6) -> (top = 1 /\ k = 1%nat \/ top = 2 /\ k = 3%nat \/ top = 3 /\ k = 7%nat) ->
        rd_varint (be_bytes (S k) w ++ r) = Some (v, r)).
    { intros k top w Hw Hv Htop.
      assert (Hp : 2 ^ (8 * N.of_nat k + 6) = 64 * 256 ^ N.of_nat k).
      { rewrite N.pow_add_r, <- pow256. change (2 ^ 6) with 64. lia. }
      assert (Hp0 : 256 ^ N.of_nat k <> 0) by (apply N.pow_nonzero; lia).
      rewrite be_bytes_head. cbn [app rd_varint].
      assert (Hb : (w / 256 ^ N.of_nat k) mod 256 = v / 256 ^ N.of_nat k + top * 64).
      { rewrite Hw, Hp.
        replace (v + top * (64 * 256 ^ N.of_nat k)) with (v + (top * 64) * 256 ^ N.of_nat k) by lia.
        rewrite N.div_add by assumption. apply N.mod_small.
        assert (v / 256 ^ N.of_nat k < 64) by (apply N.div_lt_upper_bound; lia).
        destruct Htop as [[-> _]|[[-> _]|[-> _]]]; lia. }
      assert (Hq : v / 256 ^ N.of_nat k < 64) by (apply N.div_lt_upper_bound; lia).
      assert (Hfin : (if Nat.ltb (length (be_bytes k w ++ r)) k then None
        else Some ((v / 256 ^ N.of_nat k + top * 64) mod 64 * 256 ^ N.of_nat k + be_val (firstn k (be_bytes k w ++ r)), skipn k (be_bytes k w ++ r))) = Some (v, r)).
      { rewrite app_length, be_bytes_length. destruct (Nat.ltb_spec (k + length r) k); [lia|].
        pose proof (firstn_app_exact (be_bytes k w) r) as F1. pose proof (skipn_app_exact (be_bytes k w) r) as F2.
        rewrite be_bytes_length in F1, F2. rewrite F1, F2.
        rewrite be_val_be_bytes. rewrite N.mod_add by lia. rewrite (N.mod_small (v / _)) by assumption.
        do 2 f_equal. rewrite Hw, Hp.
        replace (v + top * (64 * 256 ^ N.of_nat k)) with (v + (top * 64) * 256 ^ N.of_nat k) by lia.
        rewrite N.mod_add by assumption. rewrite (N.mul_comm (v / _)). symmetry. apply N.div_mod. assumption. }
      rewrite Hb.
      destruct Htop as [[Ht Hk]|[[Ht Hk]|[Ht Hk]]]; subst top k;
      repeat match goal with |- context [(?a <? ?c)] => destruct (N.ltb_spec a c); try lia end; exact Hfin. }
    destruct (N.ltb_spec v (2 ^ 14)) as [H14|H14]; [|destruct (N.ltb_spec v (2 ^ 30)) as [H30|H30]; [|destruct (N.ltb_spec v (2 ^ 62)) as [H62|H62]; [|congruence]]];
    intros H; inv H.
    + apply (G 1%nat 1); [|exact H14|lia].
      rewrite N.mod_small; [apply lor_add; exact H14|]. eapply N.lt_trans; [exact H14|reflexivity].
    + apply (G 3%nat 2); [|exact H30|lia].
      rewrite N.mod_small; [apply lor_add; exact H30|]. eapply N.lt_trans; [exact H30|reflexivity].
    + apply (G 7%nat 3); [|exact H62|lia].
      apply lor_add; exact H62.
Qed.

Lemma varint_bytes_len v l : varint_bytes v = Some l -> varint_len v = Some (lenN l).
Proof.
  unfold varint_bytes, varint_len. repeat dmatch; intros H; inv H; try reflexivity;
  unfold lenN; rewrite be_bytes_length; reflexivity.
Qed.

Lemma varint_bytes_ok v l : varint_bytes v = Some l -> bytes_ok l.
Proof.
  unfold varint_bytes. repeat dmatch; intros H; try discriminate; apply some_inj in H; subst l.
  1: constructor; [unfold byte_ok; apply N.mod_lt; discriminate|constructor].
  all: apply be_bytes_ok.
Qed.

Lemma varint_bytes_some v : v < 2 ^ 62 -> exists l, varint_bytes v = Some l.
Proof.
  intros H. unfold varint_bytes. repeat dmatch; eauto. lia.
Qed.

Lemma varint_bytes_none v : 2 ^ 62 <= v -> varint_bytes v = None.
Proof.
  intros H. unfold varint_bytes.
  assert (2 ^ 6 <= 2 ^ 62) by (vm_compute; discriminate).
  assert (2 ^ 14 <= 2 ^ 62) by (vm_compute; discriminate).
  assert (2 ^ 30 <= 2 ^ 62) by (vm_compute; discriminate).
  repeat match goal with |- context [(?a <? ?c)] => destruct (N.ltb_spec a c); try lia end.
  reflexivity.
Qed.

Lemma varint_bytes_nonempty v l : varint_bytes v = Some l -> (0 < length l)%nat.
Proof.
  unfold varint_bytes. repeat dmatch; intros H; inv H; cbn [length]; rewrite ?be_bytes_length; lia.
Qed.

Lemma dec_at (before l after : list N) :
  dec_rest (mkDec (before ++ l ++ after) (length before)) = l ++ after.
Proof. unfold dec_rest; cbn. apply skipn_app_exact. Qed.

Lemma varint_round_trip_lemma v e :
  v < 2 ^ 62 ->
  exists l, enc_varint v e = Some (enc_bytes l e) /\ varint_len v = Some (lenN l) /\ bytes_ok l /\
    forall before after, bytes_ok before -> bytes_ok after ->
      dec_varint (mkDec (before ++ l ++ after) (length before))
      = (Some v, mkDec (before ++ l ++ after) (length before + length l)).
Proof.
  intros Hv. destruct (varint_bytes_some v Hv) as [l Hl]. exists l.
  unfold enc_varint. rewrite Hl. split; [reflexivity|]. split; [apply varint_bytes_len; assumption|].
  split; [eapply varint_bytes_ok; eassumption|].
  intros before after Hb Ha.
  set (d := mkDec (before ++ l ++ after) (length before)).
  assert (Hwf : dec_wf d) by (unfold dec_wf, d; cbn; rewrite app_length; lia).
  assert (Hok : bytes_ok (dbuf d)).
  { unfold d; cbn. rewrite !bytes_ok_app. split; [assumption|]. split; [eapply varint_bytes_ok; eassumption|assumption]. }
  destruct (dec_varint_view d Hwf Hok) as [H1 _].
  pose proof (dec_at before l after) as Hr. fold d in Hr.
  specialize (H1 v after). rewrite Hr in H1.
  destruct (H1 (rd_varint_encode v l after Hl)) as (n & E & Hn & _ & Hs).
  rewrite E. f_equal. unfold dec_advance. subst d. cbn [dbuf doff] in *. f_equal. f_equal.
  (* n = length l *)
  assert (length after = length (l ++ after) - n)%nat by (rewrite Hs at 1; apply skipn_length).
  rewrite app_length in *.
  assert (dec_remaining {| dbuf := before ++ l ++ after; doff := length before |} = length l + length after)%nat.
  { unfold dec_remaining; cbn. rewrite !app_length. lia. }
  lia.
Qed.

Lemma varint_minimal_lemma v :
  v < 2 ^ 62 ->
  exists k, varint_len v = Some k /\ In k [1;2;4;8] /\ v < 2 ^ (8 * k - 2) /\
    forall k', In k' [1;2;4;8] -> v < 2 ^ (8 * k' - 2) -> k <= k'.
Proof.
  intros Hv. unfold varint_len.
  assert (S1 : 2 ^ (8 * 1 - 2) = 2 ^ 6) by reflexivity.
  assert (S2 : 2 ^ (8 * 2 - 2) = 2 ^ 14) by reflexivity.
  assert (S4 : 2 ^ (8 * 4 - 2) = 2 ^ 30) by reflexivity.
  assert (S8 : 2 ^ (8 * 8 - 2) = 2 ^ 62) by reflexivity.
  destruct (N.ltb_spec v (2 ^ 6)) as [H6|H6].
  { exists 1. cbn [In]. repeat split; auto. intros k' [<-|[<-|[<-|[<-|[]]]]]; lia. }
  destruct (N.ltb_spec v (2 ^ 14)) as [H14|H14].
  { exists 2. cbn [In]. repeat split; auto. intros k' [<-|[<-|[<-|[<-|[]]]]]; lia. }
  destruct (N.ltb_spec v (2 ^ 30)) as [H30|H30].
  { exists 4. cbn [In]. repeat split; auto. intros k' [<-|[<-|[<-|[<-|[]]]]]; lia. }
  destruct (N.ltb_spec v (2 ^ 62)) as [H62|H62]; [|lia].
  { exists 8. cbn [In]. repeat split; auto. intros k' [<-|[<-|[<-|[<-|[]]]]]; lia. }
Qed.

Lemma varint_decoded_range d v d' :
  dec_wf d -> bytes_ok (dbuf d) -> dec_varint d = (Some v, d') -> v < 2 ^ 62.
Proof.
  intros Hwf Hok H. destruct (dec_varint_view d Hwf Hok) as [H1 H2].
  destruct (rd_varint (dec_rest d)) as [[w r]|] eqn:E.
  - destruct (H1 w r eq_refl) as (n & E' & _). rewrite E' in H. inv H.
    eapply rd_varint_bound; [|exact E]. apply bytes_ok_skipn. assumption.
  - destruct (H2 eq_refl) as (n & E' & _). rewrite E' in H. discriminate.
Qed.

(** varint failure condition *)
Lemma dec_varint_fail_iff d :
  dec_wf d -> bytes_ok (dbuf d) ->
  (fst (dec_varint d) = None <-> (dec_remaining d < varint_need (dec_rest d))%nat).
Proof.
  intros Hwf Hok. destruct (dec_varint_view d Hwf Hok) as [H1 H2].
  destruct (rd_varint_spec (dec_rest d)) as [S1 S2]. rewrite dec_rest_length in S1, S2 by assumption.
  split.
  - intros Hf. destruct (Nat.lt_ge_cases (dec_remaining d) (varint_need (dec_rest d))); [assumption|].
    destruct (S2 ltac:(assumption)) as [w Hw]. destruct (H1 _ _ Hw) as (n & E & _). rewrite E in Hf. discriminate.
  - intros Hl. destruct (H2 (S1 Hl)) as (n & E & _). rewrite E. reflexivity.
Qed.

(* ------------------------------------------------------------------ *)
(** ** Sequences of decoder calls *)
Lemma dec_n_adv n d : dec_wf d -> exists o k, dec_n n d = (o, dec_advance d k) /\ (k <= dec_remaining d)%nat
  /\ match o with None => k = 0%nat | Some _ => k = n end.
Proof.
  intros H. unfold dec_n. destruct (Nat.ltb_spec (dec_remaining d) n).
  - exists None, 0%nat. split; [|split; [lia|reflexivity]]. unfold dec_advance. rewrite Nat.add_0_r. destruct d; reflexivity.
  - eexists _, n. split; [reflexivity|]. split; [lia|reflexivity].
Qed.
Lemma dec_bytes_adv n d : dec_wf d -> exists o k, dec_bytes n d = (o, dec_advance d k) /\ (k <= dec_remaining d)%nat.
Proof.
  intros H. unfold dec_bytes. destruct (Nat.ltb_spec (dec_remaining d) n).
  - exists None, 0%nat. split; [|lia]. unfold dec_advance. rewrite Nat.add_0_r. destruct d; reflexivity.
  - eexists _, n. split; [reflexivity|]. lia.
Qed.
Lemma dec_varint_adv d : dec_wf d -> exists o k, dec_varint d = (o, dec_advance d k) /\ (k <= dec_remaining d)%nat.
Proof.
  intros H. unfold dec_varint.
  destruct (dec_n_adv 1 d H) as (o & k & E & Hk & Ho). rewrite E.
  destruct o as [b|]; [|eauto].
  assert (Hw : dec_wf (dec_advance d k)) by (apply dec_advance_wf; assumption).
  assert (G : forall m sh, exists o0 k0,
     match dec_n m (dec_advance d k) with
     | (None, d2) => (None, d2)
     | (Some r, d2) => (Some (N.lor (N.shiftl (N.land b 63) sh) r), d2)
     end = (o0, dec_advance d k0) /\ (k0 <= dec_remaining d)%nat).
  { intros m sh. destruct (dec_n_adv m (dec_advance d k) Hw) as (o2 & k2 & E2 & Hk2 & _). rewrite E2.
    assert (Hk3 : (k + k2 <= dec_remaining d)%nat).
    { revert Hk2. unfold dec_remaining, dec_advance; cbn. unfold dec_wf in H. unfold dec_remaining in Hk. lia. }
    assert (E3 : dec_advance (dec_advance d k) k2 = dec_advance d (k + k2)).
    { unfold dec_advance; cbn. f_equal. lia. }
    rewrite E3. destruct o2; eauto. }
  destruct (N.shiftr b 6 =? 0); [eauto|].
  destruct (N.shiftr b 6 =? 1); [apply G|].
  destruct (N.shiftr b 6 =? 2); apply G.
Qed.
Lemma dec_checked_adv o d : dec_wf d -> exists o' k, dec_checked o d = (o', dec_advance d k) /\ (k <= dec_remaining d)%nat.
Proof.
  intros H. assert (Z0 : exists (o' : option (list N)) k, (None, d) = (o', dec_advance d k) /\ (k <= dec_remaining d)%nat).
  { exists None, 0%nat. split; [|lia]. unfold dec_advance. rewrite Nat.add_0_r. destruct d; reflexivity. }
  unfold dec_checked. destruct o as [l|]; [|exact Z0].
  dmatch; [exact Z0|]. apply dec_bytes_adv. assumption.
Qed.

Lemma adv_adv d k k2 : dec_wf d -> (k <= dec_remaining d)%nat -> (k2 <= dec_remaining (dec_advance d k))%nat ->
  dec_advance (dec_advance d k) k2 = dec_advance d (k + k2) /\ (k + k2 <= dec_remaining d)%nat.
Proof.
  intros H Hk Hk2. revert Hk Hk2. unfold dec_remaining, dec_advance, dec_wf in *; cbn. intros. split; [f_equal; lia|lia].
Qed.

Lemma dstep_adv c d o d' : dec_wf d -> dstep c d = Some (o, d') ->
  exists k, d' = dec_advance d k /\ (k <= dec_remaining d)%nat.
Proof.
  intros H. destruct c; cbn [dstep].
  - unfold dec_skip. destruct (Nat.leb_spec n (dec_remaining d)); [|discriminate]. intros E; inv E. eauto.
  - destruct (skip_while_no_panic p d H) as (k & E & Hk). rewrite E. intros E'; inv E'. eauto.
  - intros E; inv E. exists 0%nat. split; [|lia]. unfold dec_advance. rewrite Nat.add_0_r. destruct d'; reflexivity.
  - destruct (dec_bytes_adv n d H) as (? & k & E & Hk). rewrite E. intros E'; inv E'. eauto.
  - unfold dec_uint. destruct (dec_n_adv n d H) as (? & k & E & Hk & _). rewrite E. intros E'; inv E'. eauto.
  - destruct (dec_varint_adv d H) as (? & k & E & Hk). rewrite E. intros E'; inv E'. eauto.
  - cbn. intros E; inv E. exists (dec_remaining d). split; [|lia].
    unfold dec_advance, dec_remaining, dec_wf in *. f_equal. lia.
  - unfold dec_vec. destruct (dec_n_adv n d H) as (o1 & k & E & Hk & _). rewrite E.
    assert (Hw : dec_wf (dec_advance d k)) by (apply dec_advance_wf; assumption).
    destruct (dec_checked_adv o1 _ Hw) as (? & k2 & E2 & Hk2). rewrite E2. intros E'; inv E'.
    destruct (adv_adv d k k2 H Hk Hk2) as [-> ?]. eauto.
  - unfold dec_vvec. destruct (dec_varint_adv d H) as (o1 & k & E & Hk). rewrite E.
    assert (Hw : dec_wf (dec_advance d k)) by (apply dec_advance_wf; assumption).
    destruct (dec_checked_adv o1 _ Hw) as (? & k2 & E2 & Hk2). rewrite E2. intros E'; inv E'.
    destruct (adv_adv d k k2 H Hk Hk2) as [-> ?]. eauto.
Qed.

Lemma druns_safe cs : forall d os d', dec_wf d -> druns cs d = Some (os, d') ->
  dbuf d' = dbuf d /\ (doff d <= doff d' <= length (dbuf d))%nat /\
  exists read, dec_rest d = read ++ dec_rest d'.
Proof.
  induction cs as [|c cs IH]; intros d os d' Hwf H; cbn [druns] in H.
  - inv H. unfold dec_wf in Hwf. repeat split; try lia. exists []. reflexivity.
  - destruct (dstep c d) as [[o d1]|] eqn:E; [|discriminate].
    destruct (druns cs d1) as [[os1 d2]|] eqn:E2; [|discriminate]. inv H.
    destruct (dstep_adv c d o d1 Hwf E) as (k & -> & Hk).
    assert (Hw1 : dec_wf (dec_advance d k)) by (apply dec_advance_wf; assumption).
    destruct (IH _ _ _ Hw1 E2) as (B & O & read & R). unfold dec_wf, dec_advance in *; cbn [dbuf doff] in *.
    split; [assumption|]. split; [lia|].
    exists (firstn k (dec_rest d) ++ read). rewrite <- app_assoc, <- R.
    change (dec_rest {| dbuf := dbuf d; doff := doff d + k |}) with (dec_rest (dec_advance d k)).
    rewrite dec_advance_rest. symmetry. apply firstn_skipn.
Qed.

(** Which calls can fail *)
Lemma dec_vec_some n d s d' : dec_wf d -> dec_vec n d = (Some s, d') ->
  exists hdr, dec_rest d = hdr ++ s ++ dec_rest d' /\ length hdr = n /\ be_val hdr = lenN s.
Proof.
  intros Hwf H. unfold dec_vec in H.
  rewrite dec_n_view in H by assumption.
  destruct (rd_n n (dec_rest d)) as [[k r]|] eqn:E; [|cbn in H; discriminate].
  apply rd_n_spec in E as (h & Eh & Hh & Ek).
  assert (Hn : (n <= dec_remaining d)%nat).
  { rewrite <- dec_rest_length by assumption. rewrite Eh, app_length. lia. }
  assert (Hw1 : dec_wf (dec_advance d n)) by (apply dec_advance_wf; assumption).
  rewrite dec_checked_view in H by assumption.
  assert (Hr : dec_rest (dec_advance d n) = r).
  { rewrite dec_advance_rest, Eh, <- Hh. apply skipn_app_exact. }
  rewrite Hr in H.
  destruct (rd_bytes k r) as [[a r2]|] eqn:E2; [|discriminate]. injection H as <- <-.
  pose proof E2 as E3. apply rd_bytes_spec in E3 as [Es Hs]. exists h. rewrite Eh.
  split; [|split; [assumption|congruence]].
  f_equal. rewrite dec_advance_rest.
  rewrite Es at 1. f_equal. rewrite Hr, Es, <- Hs. unfold lenN. rewrite Nat2N.id. rewrite skipn_app_exact. reflexivity.
Qed.

Lemma dec_vec_fail n d : dec_wf d ->
  (fst (dec_vec n d) = None <->
   (dec_remaining d < n)%nat \/ (n <= dec_remaining d)%nat /\ N.of_nat (dec_remaining d - n) < be_val (firstn n (dec_rest d))).
Proof.
  intros Hwf. unfold dec_vec. rewrite dec_n_view by assumption.
  unfold rd_n. rewrite dec_rest_length by assumption.
  destruct (Nat.ltb_spec (dec_remaining d) n).
  - cbn. split; auto.
  - assert (Hw1 : dec_wf (dec_advance d n)) by (apply dec_advance_wf; assumption).
    rewrite dec_checked_view by assumption. unfold rd_bytes, lenN. rewrite dec_rest_length by assumption.
    assert (E: dec_remaining (dec_advance d n) = (dec_remaining d - n)%nat).
    { unfold dec_remaining, dec_advance; cbn. lia. } rewrite E.
    destruct (N.ltb_spec (N.of_nat (dec_remaining d - n)) (be_val (firstn n (dec_rest d)))); cbn; split; intros; try discriminate; auto; lia.
Qed.

Lemma dec_vvec_some d s d' : dec_wf d -> bytes_ok (dbuf d) -> dec_vvec d = (Some s, d') ->
  exists hdr, dec_rest d = hdr ++ s ++ dec_rest d' /\ rd_varint hdr = Some (lenN s, []).
Proof.
  intros Hwf Hok H. unfold dec_vvec in H.
  destruct (dec_varint_view d Hwf Hok) as [H1 H2].
  destruct (rd_varint (dec_rest d)) as [[k r]|] eqn:E.
  2:{ destruct (H2 eq_refl) as (n & E1 & _). rewrite E1 in H. cbn in H. discriminate. }
  destruct (H1 k r eq_refl) as (n & E1 & Hn & Hneed & Hr). rewrite E1 in H.
  assert (Hw1 : dec_wf (dec_advance d n)) by (apply dec_advance_wf; [assumption|lia]).
  rewrite dec_checked_view in H by assumption.
  assert (Hr' : dec_rest (dec_advance d n) = r) by (rewrite dec_advance_rest; auto).
  rewrite Hr' in H.
  destruct (rd_bytes k r) as [[a r2]|] eqn:E2; [|discriminate]. injection H as <- <-.
  apply rd_bytes_spec in E2 as [Es Hs].
  exists (firstn (varint_need (dec_rest d)) (dec_rest d)).
  split.
  - rewrite <- (firstn_skipn (varint_need (dec_rest d)) (dec_rest d)) at 1. f_equal.
    rewrite <- Hneed, <- Hr. rewrite Es at 1. f_equal. rewrite dec_advance_rest, Hr', Es, <- Hs. unfold lenN. rewrite Nat2N.id. rewrite skipn_app_exact. reflexivity.
  - destruct (rd_varint_prefix _ _ _ E) as (h & Eh & Hh & Hall).
    rewrite Eh at 2. rewrite <- Hh, firstn_app_exact, Hs. specialize (Hall []). rewrite app_nil_r in Hall. exact Hall.
Qed.

Lemma dec_vvec_fail d : dec_wf d -> bytes_ok (dbuf d) ->
  (fst (dec_vvec d) = None <->
     rd_varint (dec_rest d) = None \/
     exists v r, rd_varint (dec_rest d) = Some (v, r) /\ lenN r < v).
Proof.
  intros Hwf Hok. unfold dec_vvec.
  destruct (dec_varint_view d Hwf Hok) as [H1 H2].
  destruct (rd_varint (dec_rest d)) as [[k r]|] eqn:E.
  - destruct (H1 k r eq_refl) as (n & E1 & Hn & Hneed & Hr). rewrite E1.
    assert (Hw1 : dec_wf (dec_advance d n)) by (apply dec_advance_wf; [assumption|lia]).
    rewrite dec_checked_view by assumption.
    assert (Hr' : dec_rest (dec_advance d n) = r) by (rewrite dec_advance_rest; auto).
    rewrite Hr'. destruct (rd_bytes k r) as [[a r2]|] eqn:E2; cbn.
    + split; [discriminate|]. intros [?|(v & r0 & Heq & Hlt)]; [discriminate|]. inv Heq.
      apply rd_bytes_none in Hlt. congruence.
    + split; [|reflexivity]. intros _. right. exists k, r. split; [reflexivity|]. apply rd_bytes_none. assumption.
  - destruct (H2 eq_refl) as (n & E1 & _). rewrite E1. cbn. split; auto.
Qed.

(* ------------------------------------------------------------------ *)
(** ** Encoders for length-prefixed data *)
Lemma rd_vvec_encode v l r hdr : lenN v < 2 ^ 62 -> varint_bytes (lenN v) = Some hdr ->
  l = hdr ++ v ++ r -> rd_vvec l = Some (v, r).
Proof.
  intros Hv Hh ->. unfold rd_vvec. rewrite (rd_varint_encode _ _ _ Hh).
  apply rd_bytes_spec. auto.
Qed.

Lemma rd_vec_encode n v r : lenN v < 256 ^ N.of_nat n ->
  rd_vec n (be_bytes n (lenN v) ++ v ++ r) = Some (v, r).
Proof.
  intros Hv. unfold rd_vec.
  assert (E : rd_n n (be_bytes n (lenN v) ++ v ++ r) = Some (lenN v, v ++ r)).
  { apply rd_n_spec. exists (be_bytes n (lenN v)). rewrite be_bytes_length.
    repeat split. symmetry. apply be_val_be_bytes_small. assumption. }
  rewrite E. apply rd_bytes_spec. auto.
Qed.

Lemma write_at_app pre b x post :
  write_at (length pre) b (pre ++ x :: post) = Some (pre ++ b :: post).
Proof.
  unfold write_at. rewrite app_length. cbn [length].
  destruct (Nat.ltb_spec (length pre) (length pre + S (length post))); [|lia].
  rewrite firstn_app_exact. f_equal. f_equal. f_equal.
  change (S (length pre)) with (1 + length pre)%nat. rewrite Nat.add_comm, skipn_add, skipn_app_exact. reflexivity.
Qed.

Lemma write_run_app bs : forall pre xs post, length xs = length bs ->
  write_run (length pre) bs (pre ++ xs ++ post) = Some (pre ++ bs ++ post).
Proof.
  induction bs as [|b bs IH]; intros pre xs post Hl; destruct xs as [|x xs]; cbn [length] in Hl; try discriminate; cbn [write_run app].
  - reflexivity.
  - rewrite write_at_app. specialize (IH (pre ++ [b]) xs post ltac:(lia)).
    rewrite app_length in IH. cbn [length] in IH. rewrite Nat.add_1_r in IH.
    rewrite <- !app_assoc in IH. cbn [app] in IH. exact IH.
Qed.

Lemma enc_vec_with_empty n body pre :
  lenN body < 2 ^ (8 * N.of_nat n) ->
  enc_vec_with n body (enc_new pre) = Some (enc_bytes (be_bytes n (lenN body) ++ body) (enc_new pre)).
Proof.
  intros Hb. unfold enc_vec_with, enc_new, enc_pad_to, enc_bytes; cbn [ebuf estart].
  assert (E : ebuf (if Nat.ltb (length pre) (length pre + n) then {| ebuf := pre ++ repeat 0 (length pre + n - length pre); estart := length pre |}
      else {| ebuf := pre; estart := length pre |}) = pre ++ repeat 0 n).
  { destruct (Nat.ltb_spec (length pre) (length pre + n)); cbn.
    - f_equal. f_equal. lia.
    - replace n with 0%nat by lia. cbn. rewrite app_nil_r. reflexivity. }
  assert (E2 : estart (if Nat.ltb (length pre) (length pre + n) then {| ebuf := pre ++ repeat 0 (length pre + n - length pre); estart := length pre |}
      else {| ebuf := pre; estart := length pre |}) = length pre) by (destruct (Nat.ltb _ _); reflexivity).
  rewrite E, E2. rewrite !app_length, repeat_length.
  destruct (Nat.ltb_spec (length pre + n + length body) (length pre + n)); [lia|].
  replace (length pre + n + length body - length pre - n)%nat with (length body) by lia.
  fold (lenN body). destruct (N.ltb_spec (lenN body) (2 ^ (8 * N.of_nat n))); [|lia].
  rewrite <- app_assoc, write_run_app.
  - rewrite <- ?app_assoc. reflexivity.
  - rewrite repeat_length, be_bytes_length. reflexivity.
Qed.

Lemma rotate_right_app pre (a b : list N) :
  rotate_right (length pre) (length b) (pre ++ a ++ b) = Some (pre ++ b ++ a).
Proof.
  unfold rotate_right. rewrite firstn_app_exact, skipn_app_exact, app_length.
  destruct (Nat.ltb_spec (length a + length b) (length b)); [lia|].
  replace (length a + length b - length b)%nat with (length a) by lia.
  rewrite skipn_app_exact, firstn_app_exact. reflexivity.
Qed.

Lemma be_bytes_snoc n v : be_bytes (S n) v = be_bytes n (v / 256) ++ [v mod 256].
Proof.
  induction n as [|n IH].
  - cbn. change (256 ^ 0) with 1. rewrite N.div_1_r. reflexivity.
  - rewrite be_bytes_head, IH. rewrite (be_bytes_head n (v / 256)). cbn [app]. f_equal.
    rewrite N.div_div by (try apply N.pow_nonzero; lia). f_equal. f_equal.
    rewrite Nat2N.inj_succ, N.pow_succ_r'. reflexivity.
Qed.

Lemma enc_vvec_with_eq body e : lenN body < 2 ^ 62 -> enc_vvec_with body e = enc_vvec body e.
Proof.
  intros Hb. unfold enc_vvec_with, enc_vvec, enc_varint, enc_bytes; cbn [ebuf estart].
  rewrite !app_length. cbn [length].
  replace (length (ebuf e) + 1 + length body - length (ebuf e) - 1)%nat with (length body) by lia.
  fold (lenN body). set (v := lenN body) in *.
  rewrite <- app_assoc. cbn [app]. rewrite write_at_app.
  unfold varint_bytes. rewrite land_255.
  assert (G : forall (k : nat) (top : N) w,
    (0 < k <= 7)%nat -> v < 2 ^ (8 * N.of_nat k + 6) ->
    w = v + top * 2 ^ (8 * N.of_nat k + 6) ->
    match enc_uint k (N.lor (N.shiftr v 8) (N.shiftl top (8 * N.of_nat k - 2))) {| ebuf := ebuf e ++ v mod 256 :: body; estart := estart e |} with
    | Some e3 => match rotate_right (length (ebuf e)) k (ebuf e3) with
                 | Some b3 => Some {| ebuf := b3; estart := estart e3 |}
                 | None => None
                 end
    | None => None
    end = Some {| ebuf := (ebuf e ++ be_bytes (S k) w) ++ body; estart := estart e |}).
  { intros k top w Hk Hv Hw.
    assert (Hsh : 2 ^ (8 * N.of_nat k + 6) = 256 * 2 ^ (8 * N.of_nat k - 2)).
    { change 256 with (2 ^ 8). rewrite <- N.pow_add_r. f_equal. lia. }
    unfold enc_uint. destruct (Nat.ltb_spec 0 k); [|lia]. destruct (Nat.leb_spec k 8); [|lia]. cbn [andb].
    unfold enc_bytes; cbn [ebuf estart].
    rewrite shiftr_8, lor_add by (apply N.div_lt_upper_bound; [lia|]; rewrite <- Hsh; exact Hv).
    assert (Hwd : w / 256 = v / 256 + top * 2 ^ (8 * N.of_nat k - 2)).
    { rewrite Hw, Hsh. replace (v + top * (256 * 2 ^ (8 * N.of_nat k - 2))) with (v + (top * 2 ^ (8 * N.of_nat k - 2)) * 256) by lia.
      apply N.div_add. lia. }
    assert (Hwm : w mod 256 = v mod 256).
    { rewrite Hw, Hsh. replace (v + top * (256 * 2 ^ (8 * N.of_nat k - 2))) with (v + (top * 2 ^ (8 * N.of_nat k - 2)) * 256) by lia.
      apply N.mod_add. lia. }
    rewrite <- Hwd, <- Hwm.
    pose proof (rotate_right_app (ebuf e) (w mod 256 :: body) (be_bytes k (w / 256))) as R.
    rewrite be_bytes_length in R. rewrite <- app_assoc. cbn [app] in *. rewrite R.
    rewrite be_bytes_snoc, <- !app_assoc. reflexivity. }
  destruct (N.ltb_spec v (2 ^ 6)) as [H6|H6].
  { cbn [ebuf estart]. rewrite <- app_assoc. reflexivity. }
  destruct (N.ltb_spec v (2 ^ 14)) as [H14|H14].
  { apply (G 1%nat 1); [lia|exact H14|]. rewrite N.mod_small; [apply lor_add; exact H14|].
    eapply N.lt_trans; [exact H14|reflexivity]. }
  destruct (N.ltb_spec v (2 ^ 30)) as [H30|H30].
  { apply (G 3%nat 2); [lia|exact H30|]. rewrite N.mod_small; [apply lor_add; exact H30|].
    eapply N.lt_trans; [exact H30|reflexivity]. }
  destruct (N.ltb_spec v (2 ^ 62)) as [H62|H62]; [|lia].
  { apply (G 7%nat 3); [lia|exact H62|]. apply lor_add; exact H62. }
Qed.

(* ------------------------------------------------------------------ *)
(** ** Statements used in CodecProps.v *)
Lemma varint_refused_lemma v e : 2 ^ 62 <= v -> enc_varint v e = None /\ varint_len v = None.
Proof.
  intros H. pose proof (varint_bytes_none v H) as E. unfold enc_varint. rewrite E. split; [reflexivity|].
  revert E. unfold varint_bytes, varint_len.
  repeat match goal with |- context [(?a <? ?c)] => destruct (N.ltb_spec a c); [discriminate|] end. reflexivity.
Qed.

Lemma dstep_panic c d : dec_wf d ->
  (dstep c d = None <-> exists n, c = DSkip n /\ (dec_remaining d < n)%nat).
Proof.
  intros Hwf. split.
  - destruct c; cbn [dstep]; intros H;
    try (match type of H with (let '(_, _) := ?x in _) = _ => destruct x end; discriminate); try discriminate.
    exists n. split; [reflexivity|]. unfold dec_skip in H.
    destruct (Nat.leb_spec n (dec_remaining d)); [discriminate|assumption].
  - intros (n & -> & H). cbn [dstep]. unfold dec_skip.
    destruct (Nat.leb_spec n (dec_remaining d)); [lia|reflexivity].
Qed.

Lemma dec_bytes_exact_lemma n d : dec_wf d ->
  (forall s d', dec_bytes n d = (Some s, d') -> dec_rest d = s ++ dec_rest d' /\ length s = n) /\
  (fst (dec_bytes n d) = None <-> (dec_remaining d < n)%nat) /\
  (fst (dec_bytes n d) = None -> snd (dec_bytes n d) = d).
Proof.
  intros Hwf. pose proof (dec_rest_length d Hwf) as Hl.
  unfold dec_bytes. destruct (Nat.ltb_spec (dec_remaining d) n).
  - cbn. repeat split; try discriminate; auto.
  - cbn [fst snd]. repeat split; try discriminate; try lia.
    + injection H0 as <- <-. fold (dec_rest d). rewrite dec_advance_rest. symmetry. apply firstn_skipn.
    + injection H0 as <- <-. fold (dec_rest d). rewrite firstn_length. lia.
Qed.

Lemma dec_uint_exact_lemma n d : dec_wf d ->
  (forall v d', dec_uint n d = (Some v, d') ->
     exists s, dec_rest d = s ++ dec_rest d' /\ length s = n /\ v = be_val s) /\
  (fst (dec_uint n d) = None <-> (dec_remaining d < n)%nat) /\
  (fst (dec_uint n d) = None -> snd (dec_uint n d) = d).
Proof.
  intros Hwf. pose proof (dec_rest_length d Hwf) as Hl.
  unfold dec_uint, dec_n. destruct (Nat.ltb_spec (dec_remaining d) n).
  - cbn. repeat split; try discriminate; auto.
  - cbn [fst snd]. repeat split; try discriminate; try lia.
    intros v d' H0. injection H0 as <- <-. fold (dec_rest d). exists (firstn n (dec_rest d)).
    rewrite dec_advance_rest. split; [symmetry; apply firstn_skipn|]. split; [|reflexivity]. rewrite firstn_length. lia.
Qed.

Lemma dec_at_wf (before l after : list N) : dec_wf (mkDec (before ++ l ++ after) (length before)).
Proof. unfold dec_wf; cbn. rewrite app_length. lia. Qed.

Lemma uint_round_trip_lemma n v e : (0 < n <= 8)%nat -> v < 2 ^ (8 * N.of_nat n) ->
  exists l, enc_uint n v e = Some (enc_bytes l e) /\ length l = n /\
    forall before after,
      dec_uint n (mkDec (before ++ l ++ after) (length before))
      = (Some v, mkDec (before ++ l ++ after) (length before + length l)).
Proof.
  intros Hn Hv. exists (be_bytes n v). unfold enc_uint.
  destruct (Nat.ltb_spec 0 n); [|lia]. destruct (Nat.leb_spec n 8); [|lia]. cbn [andb].
  rewrite be_bytes_length. repeat split. intros before after.
  unfold dec_uint. rewrite dec_n_view by apply dec_at_wf. rewrite dec_at.
  assert (E : rd_n n (be_bytes n v ++ after) = Some (v, after)).
  { apply rd_n_spec. exists (be_bytes n v). rewrite be_bytes_length. repeat split.
    symmetry. apply be_val_be_bytes_small. rewrite pow256. assumption. }
  rewrite E. unfold dec_advance; cbn. reflexivity.
Qed.

Lemma vec_round_trip_lemma n s e : (0 < n <= 8)%nat -> lenN s < 2 ^ (8 * N.of_nat n) ->
  exists l, enc_vec n s e = Some (enc_bytes l e) /\ length l = (n + length s)%nat /\
    forall before after,
      dec_vec n (mkDec (before ++ l ++ after) (length before))
      = (Some s, mkDec (before ++ l ++ after) (length before + length l)).
Proof.
  intros Hn Hs. exists (be_bytes n (lenN s) ++ s).
  unfold enc_vec, enc_uint. destruct (Nat.ltb_spec 0 n); [|lia]. destruct (Nat.leb_spec n 8); [|lia]. cbn [andb].
  rewrite app_length, be_bytes_length. split; [|split; [reflexivity|]].
  - unfold enc_bytes; cbn. rewrite app_assoc. reflexivity.
  - intros before after. unfold dec_vec.
    set (d := mkDec _ _). pose proof (dec_at_wf before (be_bytes n (lenN s) ++ s) after) as Hwf. fold d in Hwf.
    pose proof (dec_at before (be_bytes n (lenN s) ++ s) after) as Hr. fold d in Hr.
    rewrite dec_n_view by assumption. rewrite Hr, <- app_assoc.
    assert (E : rd_n n (be_bytes n (lenN s) ++ s ++ after) = Some (lenN s, s ++ after)).
    { apply rd_n_spec. exists (be_bytes n (lenN s)). rewrite be_bytes_length. repeat split.
      symmetry. apply be_val_be_bytes_small. rewrite pow256. assumption. }
    rewrite E.
    assert (Hrem : (n <= dec_remaining d)%nat).
    { rewrite <- dec_rest_length by assumption. rewrite Hr, !app_length, be_bytes_length. lia. }
    rewrite dec_checked_view by (apply dec_advance_wf; assumption).
    rewrite dec_advance_rest, Hr, <- app_assoc.
    pose proof (skipn_app_exact (be_bytes n (lenN s)) (s ++ after)) as Sk. rewrite be_bytes_length in Sk. rewrite Sk.
    assert (E2 : rd_bytes (lenN s) (s ++ after) = Some (s, after)) by (apply rd_bytes_spec; auto).
    rewrite E2. unfold dec_advance, d; cbn [dbuf doff]. f_equal. unfold lenN. rewrite Nat2N.id, <- ?app_assoc. f_equal; lia.
Qed.

Lemma vvec_round_trip_lemma s e : bytes_ok s -> lenN s < 2 ^ 62 ->
  exists l, enc_vvec s e = Some (enc_bytes l e) /\ enc_vvec_with s e = Some (enc_bytes l e) /\
    vvec_len (lenN s) = Some (lenN l) /\
    forall before after, bytes_ok before -> bytes_ok after ->
      dec_vvec (mkDec (before ++ l ++ after) (length before))
      = (Some s, mkDec (before ++ l ++ after) (length before + length l)).
Proof.
  intros Hok Hs. rewrite enc_vvec_with_eq by assumption.
  destruct (varint_round_trip_lemma (lenN s) e Hs) as (h & Eh & Hlen & Hhok & Hdec).
  exists (h ++ s). unfold enc_vvec. rewrite Eh.
  assert (Eb : enc_bytes s (enc_bytes h e) = enc_bytes (h ++ s) e) by (unfold enc_bytes; cbn; rewrite app_assoc; reflexivity).
  rewrite Eb. repeat split.
  - unfold vvec_len. rewrite Hlen. rewrite lenN_app. f_equal.
  - intros before after Hb Ha. unfold dec_vvec.
    specialize (Hdec before (s ++ after) Hb ltac:(apply bytes_ok_app; auto)).
    rewrite <- app_assoc. rewrite Hdec.
    set (d := mkDec _ _).
    assert (Hwf : dec_wf d) by (unfold dec_wf, d; cbn; rewrite !app_length; lia).
    rewrite dec_checked_view by assumption.
    assert (Er : dec_rest d = s ++ after).
    { unfold dec_rest, d; cbn. rewrite skipn_add, skipn_app_exact, skipn_app_exact. reflexivity. }
    rewrite Er.
    assert (E2 : rd_bytes (lenN s) (s ++ after) = Some (s, after)) by (apply rd_bytes_spec; auto).
    rewrite E2. unfold dec_advance, d; cbn. f_equal. f_equal. unfold lenN. rewrite app_length. lia.
Qed.

Lemma enc_vec_with_wrong : exists e n body,
  (0 < n <= 8)%nat /\ lenN body < 2 ^ (8 * N.of_nat n) /\
  enc_vec_with n body e <> Some (enc_bytes (be_bytes n (lenN body) ++ body) e).
Proof.
  exists (enc_bytes [1] (enc_new [])), 1%nat, [2; 3].
  split; [lia|]. split; [reflexivity|]. vm_compute. discriminate.
Qed.

Lemma enc_vec_truncates : exists n s e e',
  2 ^ (8 * N.of_nat n) <= lenN s /\ enc_vec n s e = Some e' /\
  fst (dec_vec n (mkDec (ebuf e') (length (ebuf e)))) = Some [].
Proof.
  exists 1%nat, (repeat 7 256), (enc_new []). eexists.
  split; [vm_compute; discriminate|]. split; [reflexivity|]. vm_compute. reflexivity.
Qed.
