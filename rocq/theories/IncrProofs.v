From Verif Require Import Base Lib CodecModel Reader CodecSpec CodecProofs.

(* ------------------------------------------------------------------ *)
Definition vk (b : N) : nat := if b <? 64 then 0%nat else if b <? 128 then 1%nat else if b <? 192 then 3%nat else 7%nat.

Lemma vk_le b : (vk b <= 7)%nat.
Proof. unfold vk. repeat dmatch; lia. Qed.

(** state after the bytes [p] with no value yet *)
Definition iu_rel (p : list N) (s : incr_uint) : Prop :=
  match p with
  | [] => s = iu_default
  | b :: t => (length t < vk b)%nat /\ iu_v s = (b mod 64) * 256 ^ lenN t + be_val t /\
              iu_remaining s = Some (vk b - length t)%nat
  end.

Lemma rd_varint_cons b t : rd_varint (b :: t) =
  if Nat.ltb (length t) (vk b) then None else Some (b mod 64 * 256 ^ N.of_nat (vk b) + be_val (firstn (vk b) t), skipn (vk b) t).
Proof. reflexivity. Qed.

Lemma dec_wf_new c : dec_wf (dec_new c).
Proof. unfold dec_wf, dec_new; cbn. lia. Qed.
Lemma dec_rest_new c : dec_rest (dec_new c) = c.
Proof. reflexivity. Qed.

Lemma iu_consume_rel p s d :
  iu_rel p s -> dec_wf d -> bytes_ok p -> bytes_ok (dec_rest d) -> (0 < dec_remaining d)%nat ->
  exists k o s', (0 < k <= dec_remaining d)%nat /\ iu_consume s d = Some (o, s', dec_advance d k) /\
    match o with
    | Some v => rd_varint (p ++ firstn k (dec_rest d)) = Some (v, [])
    | None => iu_rel (p ++ firstn k (dec_rest d)) s'
    end.
Proof.
  intros Hrel Hwf Hp Hd Hrem.
  pose proof (dec_rest_length d Hwf) as Hlen.
  destruct p as [|b t].
  - cbn in Hrel. subst s. unfold iu_consume, iu_default; cbn [iu_remaining].
    unfold dec_uint. rewrite dec_n_view by assumption. unfold rd_n. rewrite Hlen.
    destruct (Nat.ltb_spec (dec_remaining d) 1); [lia|].
    destruct (dec_rest d) as [|b r] eqn:Er; [cbn in Hlen; lia|].
    cbn [firstn]. rewrite be_val_1.
    apply Forall_cons_iff in Hd as [Hb Hr]. unfold byte_ok in Hb.
    destruct (top_cases b Hb) as (T0 & T1 & T2).
    assert (Hrem' : (if N.shiftr b 6 =? 0 then 0%nat else if N.shiftr b 6 =? 1 then 1%nat else if N.shiftr b 6 =? 2 then 3%nat else 7%nat) = vk b).
    { unfold vk. rewrite T0. destruct (b <? 64); [reflexivity|]. rewrite T1 by reflexivity.
      destruct (b <? 128); [reflexivity|]. rewrite T2 by reflexivity. reflexivity. }
    rewrite Hrem'.
    exists 1%nat. eexists _, _. split; [lia|]. split; [reflexivity|].
    cbn [firstn app]. destruct (Nat.eqb_spec (vk b) 0) as [E0|E0].
    + rewrite rd_varint_cons, E0. cbn [length Nat.ltb Nat.leb firstn skipn].
      change (256 ^ N.of_nat 0) with 1. change (be_val []) with 0. rewrite land_63. do 2 f_equal. lia.
    + cbn [iu_rel length iu_v iu_remaining]. split; [lia|]. split; [|f_equal; lia].
      change (256 ^ lenN []) with 1. change (be_val []) with 0. rewrite land_63. lia.
  - cbn [iu_rel] in Hrel. destruct Hrel as (Hlt & Hv & Hr).
    unfold iu_consume. rewrite Hr.
    set (r := (vk b - length t)%nat) in *.
    set (amount := Nat.min r (dec_remaining d)).
    assert (Ha : (0 < amount <= r)%nat /\ (amount <= dec_remaining d)%nat) by (subst amount r; lia).
    destruct (Nat.eqb_spec amount 0); [lia|].
    pose proof (vk_le b) as Hk7.
    destruct (Nat.ltb_spec amount 8); [|subst r; lia].
    rewrite dec_n_view by assumption. unfold rd_n. rewrite Hlen.
    destruct (Nat.ltb_spec (dec_remaining d) amount); [lia|].
    exists amount. eexists _, _. split; [lia|]. split; [reflexivity|].
    set (x := firstn amount (dec_rest d)).
    assert (Hx : length x = amount) by (subst x; rewrite firstn_length; lia).
    assert (Hxl : lenN x = N.of_nat amount) by (unfold lenN; congruence).
    assert (Hxok : bytes_ok x) by (subst x; apply bytes_ok_firstn; assumption).
    pose proof (be_val_bound x Hxok) as Hxb. rewrite Hxl in Hxb.
    apply Forall_cons_iff in Hp as [Hb Ht].
    pose proof (be_val_bound t Ht) as Htb.
    assert (Hval : N.lor (N.shiftl (iu_v s) (8 * N.of_nat amount) mod 2 ^ 64) (be_val x)
                   = b mod 64 * 256 ^ lenN (t ++ x) + be_val (t ++ x)).
    { assert (Hsm : iu_v s < 64 * 256 ^ lenN t).
      { rewrite Hv. pose proof (N.mod_lt b 64 ltac:(lia)). nia. }
      rewrite N.mod_small.
      - rewrite lor_add' by (rewrite <- pow256; exact Hxb).
        rewrite <- pow256, Hv, be_val_app, lenN_app, Hxl, N.pow_add_r. lia.
      - rewrite N.shiftl_mul_pow2, <- pow256.
        apply N.lt_le_trans with (64 * 256 ^ lenN t * 256 ^ N.of_nat amount).
        { apply N.mul_lt_mono_pos_r; [|exact Hsm]. pose proof (N.pow_nonzero 256 (N.of_nat amount)). lia. }
        rewrite <- N.mul_assoc, <- N.pow_add_r.
        apply N.le_trans with (64 * 256 ^ 7).
        + apply N.mul_le_mono_l. apply N.pow_le_mono_r; [lia|]. unfold lenN. subst r. lia.
        + vm_compute; discriminate. }
    rewrite Hval. cbn [app].
    assert (Hlt2 : length (t ++ x) = (length t + amount)%nat) by (rewrite app_length; lia).
    destruct (Nat.eqb_spec (r - amount) 0) as [E0|E0].
    + rewrite rd_varint_cons. assert (Hk : vk b = length (t ++ x)) by (subst r; lia).
      rewrite Hk, Nat.ltb_irrefl, firstn_all, skipn_all. unfold lenN. reflexivity.
    + cbn [iu_rel iu_v iu_remaining]. split; [subst r; lia|]. split; [reflexivity|]. f_equal. subst r; lia.
Qed.

Lemma iu_rel_none p s : iu_rel p s -> rd_varint p = None.
Proof.
  destruct p as [|b t]; [reflexivity|]. cbn [iu_rel]. intros (H & _ & _).
  rewrite rd_varint_cons. destruct (Nat.ltb_spec (length t) (vk b)); [reflexivity|lia].
Qed.

Lemma iu_rel_min p s ext : iu_rel p s -> (length ext < iu_min_remaining s)%nat -> rd_varint (p ++ ext) = None.
Proof.
  destruct p as [|b t]; cbn [iu_rel].
  - intros -> H. cbn in H. destruct ext; [reflexivity|cbn in H; lia].
  - intros (H & _ & Hr). unfold iu_min_remaining. rewrite Hr. intros He. cbn [app].
    rewrite rd_varint_cons, app_length. destruct (Nat.ltb_spec (length t + length ext) (vk b)); [reflexivity|lia].
Qed.

Lemma iu_rel_pos p s : iu_rel p s -> (1 <= iu_min_remaining s)%nat.
Proof.
  destruct p as [|b t]; cbn [iu_rel].
  - intros ->. cbn. lia.
  - intros (H & _ & Hr). unfold iu_min_remaining. rewrite Hr. lia.
Qed.

Lemma rd_varint_extend p v r : rd_varint p = Some (v, []) -> rd_varint (p ++ r) = Some (v, r).
Proof.
  intros H. destruct (rd_varint_prefix _ _ _ H) as (h & E & _ & Hall). rewrite app_nil_r in E. subst h. apply Hall.
Qed.

Lemma feed_chunk_uint fuel : forall p s d,
  iu_rel p s -> dec_wf d -> bytes_ok p -> bytes_ok (dec_rest d) -> (dec_remaining d <= fuel)%nat ->
  match feed_chunk iu_consume fuel s d with
  | Done v lft => rd_varint (p ++ dec_rest d) = Some (v, lft)
  | Pending s' => iu_rel (p ++ dec_rest d) s'
  | Panic => False
  end.
Proof.
  induction fuel as [|fuel IH]; intros p s d Hrel Hwf Hp Hd Hf; cbn [feed_chunk];
  destruct (Nat.eqb_spec (dec_remaining d) 0) as [E|E];
  try (replace (dec_rest d) with (@nil N) by (pose proof (dec_rest_length d Hwf); destruct (dec_rest d); [reflexivity|cbn in *; lia]); rewrite app_nil_r; exact Hrel).
  destruct (iu_consume_rel p s d Hrel Hwf Hp Hd ltac:(lia)) as (k & o & s' & Hk & -> & Ho).
  assert (Hsplit : dec_rest d = firstn k (dec_rest d) ++ dec_rest (dec_advance d k)).
  { rewrite dec_advance_rest. symmetry. apply firstn_skipn. }
  destruct o as [v|].
  - rewrite Hsplit, app_assoc. apply rd_varint_extend. exact Ho.
  - specialize (IH (p ++ firstn k (dec_rest d)) s' (dec_advance d k) Ho).
    rewrite <- app_assoc, <- Hsplit in IH. apply IH.
    + apply dec_advance_wf; [assumption|lia].
    + rewrite bytes_ok_app. split; [assumption|apply bytes_ok_firstn; assumption].
    + rewrite dec_advance_rest. apply bytes_ok_skipn. assumption.
    + revert Hk Hf. unfold dec_remaining, dec_advance; cbn. lia.
Qed.

Lemma feed_uint_gen chunks : forall p s,
  iu_rel p s -> bytes_ok p -> bytes_ok (concat chunks) ->
  match feed_uint s chunks with
  | Done v lft => rd_varint (p ++ concat chunks) = Some (v, lft)
  | Pending s' => iu_rel (p ++ concat chunks) s'
  | Panic => False
  end.
Proof.
  unfold feed_uint. induction chunks as [|c r IH]; intros p s Hrel Hp Hc; cbn [feed concat].
  - rewrite app_nil_r. exact Hrel.
  - cbn [concat] in Hc. apply bytes_ok_app in Hc as [Hc Hr].
    pose proof (feed_chunk_uint (length c) p s (dec_new c) Hrel (dec_wf_new c) Hp) as F.
    rewrite dec_rest_new in F. specialize (F Hc). specialize (F ltac:(unfold dec_remaining, dec_new; cbn; lia)).
    destruct (feed_chunk iu_consume (length c) s (dec_new c)) as [v lft|s'|].
    + destruct (rd_varint_prefix _ _ _ F) as (h & E & _ & Hall).
      rewrite app_assoc, E, <- app_assoc. apply Hall.
    + rewrite app_assoc. apply IH; [assumption| |assumption]. rewrite bytes_ok_app. auto.
    + exact F.
Qed.

(** against the one-shot decoder *)
Lemma dec_varint_rd d v r : dec_wf d -> bytes_ok (dbuf d) -> rd_varint (dec_rest d) = Some (v, r) ->
  exists d', dec_varint d = (Some v, d') /\ dec_rest d' = r.
Proof.
  intros Hwf Hok H. destruct (dec_varint_view d Hwf Hok) as [H1 _].
  destruct (H1 _ _ H) as (n & E & _ & _ & Hr). exists (dec_advance d n). split; [assumption|].
  rewrite dec_advance_rest. auto.
Qed.
Lemma dec_varint_rd_none d : dec_wf d -> bytes_ok (dbuf d) -> rd_varint (dec_rest d) = None ->
  fst (dec_varint d) = None.
Proof.
  intros Hwf Hok H. destruct (dec_varint_view d Hwf Hok) as [_ H2].
  destruct (H2 H) as (n & E & _). rewrite E. reflexivity.
Qed.

Lemma feed_uint_main chunks :
  bytes_ok (concat chunks) ->
  match feed_uint iu_default chunks with
  | Done v lft =>
      exists d', dec_varint (dec_new (concat chunks)) = (Some v, d') /\ dec_rest d' = lft
  | Pending s =>
      fst (dec_varint (dec_new (concat chunks))) = None /\
      (1 <= iu_min_remaining s)%nat /\
      forall ext, bytes_ok ext -> (length ext < iu_min_remaining s)%nat ->
        fst (dec_varint (dec_new (concat chunks ++ ext))) = None
  | Panic => False
  end.
Proof.
  intros Hok. pose proof (feed_uint_gen chunks [] iu_default eq_refl ltac:(constructor) Hok) as F.
  cbn [app] in F. destruct (feed_uint iu_default chunks) as [v lft|s|]; [| |exact F].
  - apply dec_varint_rd; [apply dec_wf_new|exact Hok|exact F].
  - split; [|split].
    + apply dec_varint_rd_none; [apply dec_wf_new|exact Hok|]. eapply iu_rel_none; eassumption.
    + eapply iu_rel_pos; eassumption.
    + intros ext He Hl. apply dec_varint_rd_none; [apply dec_wf_new| |].
      * cbn. apply bytes_ok_app; auto.
      * rewrite dec_rest_new. eapply iu_rel_min; eassumption.
Qed.

(* ------------------------------------------------------------------ *)
Section Runs.
  Variable n : nat.
  Hypothesis Hn : (0 < n)%nat.

  Lemma ib_consume_step p s d :
    dec_wf d -> ib_v s = p -> ib_remaining s = (n - length p)%nat -> (length p < n)%nat -> (0 < dec_remaining d)%nat ->
    exists k, (0 < k <= dec_remaining d)%nat /\ k = Nat.min (n - length p) (dec_remaining d) /\
      ib_consume s d = (if Nat.eqb (length p + k) n then (Some (p ++ firstn k (dec_rest d)), mkIB [] 0, dec_advance d k)
                        else (None, mkIB (p ++ firstn k (dec_rest d)) (n - (length p + k)), dec_advance d k)).
  Proof.
    intros Hwf Hv Hr Hp Hd. unfold ib_consume. rewrite Hr.
    set (k := Nat.min (n - length p) (dec_remaining d)). exists k. split; [subst k; lia|]. split; [reflexivity|].
    rewrite dec_bytes_view by assumption. unfold rd_bytes, lenN, firstnN. rewrite dec_rest_length, Nat2N.id by assumption.
    destruct (N.ltb_spec (N.of_nat (dec_remaining d)) (N.of_nat k)); [subst k; lia|].
    rewrite Hv.
    destruct (Nat.eqb_spec (n - length p - k) 0); destruct (Nat.eqb_spec (length p + k) n); try (subst k; lia).
    - replace (n - length p - k)%nat with 0%nat by lia. reflexivity.
    - replace (n - length p - k)%nat with (n - (length p + k))%nat by lia. reflexivity.
  Qed.

  Definition run_post (all : list N) (r : feed_result (list N) incr_buf) : Prop :=
    match r with
    | Done v lft => all = v ++ lft /\ length v = n
    | Pending s' => (length all < n)%nat /\ ib_v s' = all /\ ib_remaining s' = (n - length all)%nat
    | Panic => False
    end.

  Lemma feed_chunk_buf fuel : forall p s d,
    dec_wf d -> ib_v s = p -> ib_remaining s = (n - length p)%nat -> (length p < n)%nat ->
    (dec_remaining d <= fuel)%nat ->
    run_post (p ++ dec_rest d) (feed_chunk (fun s d => Some (ib_consume s d)) fuel s d).
  Proof.
    induction fuel as [|fuel IH]; intros p s d Hwf Hv Hr Hp Hf; cbn [feed_chunk];
    destruct (Nat.eqb_spec (dec_remaining d) 0) as [E|E];
    try (replace (dec_rest d) with (@nil N) by (pose proof (dec_rest_length d Hwf); destruct (dec_rest d); [reflexivity|cbn in *; lia]);
       rewrite app_nil_r; cbn [run_post]; auto).

    destruct (ib_consume_step p s d Hwf Hv Hr Hp ltac:(lia)) as (k & Hk & Ek & ->).
    pose proof (dec_rest_length d Hwf) as Hlen.
    assert (Hx : length (firstn k (dec_rest d)) = k) by (rewrite firstn_length; lia).
    destruct (Nat.eqb_spec (length p + k) n) as [E1|E1].
    - cbn [run_post]. rewrite dec_advance_rest, <- app_assoc, firstn_skipn. split; [reflexivity|].
      rewrite app_length. lia.
    - specialize (IH (p ++ firstn k (dec_rest d)) (mkIB (p ++ firstn k (dec_rest d)) (n - (length p + k))) (dec_advance d k)).
      rewrite dec_advance_rest, <- app_assoc, firstn_skipn in IH. apply IH.
      + apply dec_advance_wf; [assumption|lia].
      + reflexivity.
      + cbn. rewrite app_length, Hx. reflexivity.
      + rewrite app_length, Hx. lia.
      + revert Hk Hf. unfold dec_remaining, dec_advance; cbn. lia.
  Qed.

  Lemma feed_buf_gen chunks : forall p s,
    ib_v s = p -> ib_remaining s = (n - length p)%nat -> (length p < n)%nat ->
    run_post (p ++ concat chunks) (feed_buf s chunks).
  Proof.
    unfold feed_buf. induction chunks as [|c r IH]; intros p s Hv Hr Hp; cbn [feed concat].
    - rewrite app_nil_r. cbn [run_post]. auto.
    - pose proof (feed_chunk_buf (length c) p s (dec_new c) (dec_wf_new c) Hv Hr Hp) as F.
      rewrite dec_rest_new in F. specialize (F ltac:(unfold dec_remaining, dec_new; cbn; lia)).
      destruct (feed_chunk _ (length c) s (dec_new c)) as [v lft|s'|]; cbn [run_post] in F |- *.
      + destruct F as [E Hl]. split; [|assumption]. rewrite app_assoc, E, <- app_assoc. reflexivity.
      + destruct F as (F1 & F2 & F3). rewrite app_assoc. apply IH; auto.
      + exact F.
  Qed.
End Runs.

Lemma feed_buf_main n chunks : (0 < n)%nat ->
  match feed_buf (ib_new n) chunks with
  | Done v lft => dec_bytes n (dec_new (concat chunks)) = (Some v, mkDec (concat chunks) n) /\ concat chunks = v ++ lft
  | Pending s => fst (dec_bytes n (dec_new (concat chunks))) = None /\
                 (1 <= ib_remaining s)%nat /\ (length (concat chunks) + ib_remaining s = n)%nat
  | Panic => False
  end.
Proof.
  intros Hn. pose proof (feed_buf_gen n Hn chunks [] (ib_new n) eq_refl) as F.
  specialize (F ltac:(cbn; lia) ltac:(cbn; lia)). cbn [app] in F.
  destruct (feed_buf (ib_new n) chunks) as [v lft|s|]; cbn [run_post] in F; [| |exact F].
  - destruct F as [E Hl]. split; [|assumption]. unfold dec_bytes, dec_new, dec_remaining; cbn [dbuf doff].
    rewrite E, app_length. destruct (Nat.ltb_spec (length v + length lft - 0) n); [lia|].
    unfold dec_advance; cbn [dbuf doff skipn Nat.add]. rewrite <- Hl, firstn_app_exact. reflexivity.
  - destruct F as (F1 & F2 & F3). unfold dec_bytes, dec_new, dec_remaining; cbn [dbuf doff].
    destruct (Nat.ltb_spec (length (concat chunks) - 0) n); [|lia]. cbn. repeat split; lia.
Qed.

(** ignore *)
Lemma ii_as_ib s d : dec_wf d ->
  ii_consume (ib_remaining s) d =
  (let '(o, s', d') := ib_consume s d in (match o with Some _ => true | None => false end, ib_remaining s', d')).
Proof.
  intros Hwf. unfold ii_consume, ib_consume.
  unfold dec_bytes. destruct (Nat.ltb_spec (dec_remaining d) (Nat.min (ib_remaining s) (dec_remaining d))); [lia|].
  destruct (Nat.eqb_spec (ib_remaining s - Nat.min (ib_remaining s) (dec_remaining d)) 0) as [E|E]; cbn [ib_remaining]; reflexivity.
Qed.

Lemma feed_chunk_ignore fuel : forall s d, dec_wf d ->
  feed_chunk (fun s d => let '(fin, s', d') := ii_consume s d in Some (if fin then Some tt else None, s', d')) fuel (ib_remaining s) d
  = match feed_chunk (fun s d => Some (ib_consume s d)) fuel s d with
    | Done v lft => Done tt lft
    | Pending s' => Pending (ib_remaining s')
    | Panic => Panic
    end.
Proof.
  induction fuel as [|fuel IH]; intros s d Hwf; cbn [feed_chunk]; destruct (Nat.eqb (dec_remaining d) 0); try reflexivity.
  rewrite ii_as_ib by assumption. destruct (ib_consume s d) as [[o s'] d'] eqn:E.
  assert (Hwf' : dec_wf d').
  { revert E. unfold ib_consume. destruct (dec_bytes_adv (Nat.min (ib_remaining s) (dec_remaining d)) d Hwf) as (o1 & k & -> & Hk).
    destruct o1; [destruct (Nat.eqb _ 0)|]; intros E; injection E as <- <- <-; apply dec_advance_wf; assumption. }
  destruct o; [reflexivity|]. apply IH. assumption.
Qed.

Lemma feed_ignore_eq chunks : forall s,
  feed_ignore (ib_remaining s) chunks
  = match feed_buf s chunks with
    | Done v lft => Done tt lft
    | Pending s' => Pending (ib_remaining s')
    | Panic => Panic
    end.
Proof.
  unfold feed_ignore, feed_buf. induction chunks as [|c r IH]; intros s; cbn [feed]; [reflexivity|].
  rewrite feed_chunk_ignore by apply dec_wf_new.
  destruct (feed_chunk (fun s d => Some (ib_consume s d)) (length c) s (dec_new c)); [reflexivity|apply IH|reflexivity].
Qed.

Lemma feed_ignore_main n chunks : (0 < n)%nat ->
  match feed_ignore n chunks with
  | Done _ lft => exists v, length v = n /\ concat chunks = v ++ lft
  | Pending r => (1 <= r)%nat /\ (length (concat chunks) + r = n)%nat
  | Panic => False
  end.
Proof.
  intros Hn. change n with (ib_remaining (ib_new n)) at 1. rewrite feed_ignore_eq.
  pose proof (feed_buf_gen n Hn chunks [] (ib_new n) eq_refl) as F.
  specialize (F ltac:(cbn; lia) ltac:(cbn; lia)). cbn [app] in F.
  destruct (feed_buf (ib_new n) chunks) as [v lft|s|]; cbn [run_post] in F; [| |exact F].
  - destruct F as [E Hl]. eauto.
  - destruct F as (F1 & F2 & F3). lia.
Qed.
