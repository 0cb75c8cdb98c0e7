From Verif Require Import Base Lib CodecModel Reader CodecSpec CodecProofs FrameModel FrameSpec.

Lemma ftype_from_num t : ftype_from (ftype_num t) = Some t.
Proof. destruct t as [| | | | | | | |[] [] []| | | | | | | | | | | | | | | | | | |]; vm_compute; reflexivity. Qed.

Lemma varint_total v : v < 2 ^ 62 -> exists l, varint_bytes v = Some l.
Proof. apply varint_bytes_some. Qed.

Lemma rdv_varint {v a} (H : varint_bytes v = Some a) r k : rdv (rd_varint (a ++ r)) k = k v r.
Proof. rewrite (rd_varint_encode _ _ _ H). reflexivity. Qed.
Lemma rdv_vvec {v h} (H : varint_bytes (lenN v) = Some h) r k : rdv (rd_vvec ((h ++ v) ++ r)) k = k v r.
Proof.
  assert (lenN v < 2 ^ 62). { destruct (N.lt_ge_cases (lenN v) (2^62)); [assumption|]. rewrite varint_bytes_none in H by assumption. discriminate. }
  rewrite (rd_vvec_encode v _ r h); auto. rewrite <- app_assoc. reflexivity.
Qed.
Lemma rdv_bytes v r n k : lenN v = n -> rdv (rd_bytes n (v ++ r)) k = k v r.
Proof. intros H. assert (E : rd_bytes n (v ++ r) = Some (v, r)) by (apply rd_bytes_spec; auto). rewrite E. reflexivity. Qed.
Lemma rdv_pre1 v r k : lenN v < 256 -> rdv (rd_vec 1 ((lenN v :: v) ++ r)) k = k v r.
Proof.
  intros H. pose proof (rd_vec_encode 1 v r) as E. cbn [be_bytes] in E.
  change (256 ^ N.of_nat 1) with 256 in E. change (256 ^ N.of_nat 0) with 1 in E.
  rewrite N.div_1_r, N.mod_small in E by assumption. cbn [app] in E |- *. rewrite (E H). reflexivity.
Qed.
Lemma rdv_n1 b r k : rdv (rd_n 1 ([b] ++ r)) k = k b r.
Proof. unfold rd_n. cbn [length app Nat.ltb Nat.leb firstn skipn]. rewrite be_val_1. reflexivity. Qed.

Lemma frame_decode_type t a r : varint_bytes (ftype_num t) = Some a -> frame_decode (a ++ r) = decode_body t r.
Proof.
  intros H. unfold frame_decode. rewrite (rdv_varint H). rewrite (varint_bytes_len _ _ H).
  rewrite lenN_app. replace (lenN a + lenN r - lenN r) with (lenN a) by lia. rewrite N.eqb_refl, ftype_from_num. reflexivity.
Qed.

Lemma ack_ranges_read rs : forall l r,
  fields_bytes (flat_map (fun gr => [Vi (fst gr); Vi (snd gr)]) rs) = Some l ->
  rd_ack_ranges (length rs) (l ++ r) = Some (rs, r).
Proof.
  induction rs as [|[g n] rs IH]; intros l r; cbn [flat_map fields_bytes app field_bytes length rd_ack_ranges fst snd].
  - intros H. apply some_inj in H; subst. reflexivity.
  - destruct (varint_bytes g) as [a|] eqn:Ea; [|discriminate].
    destruct (varint_bytes n) as [b|] eqn:Eb; [|discriminate].
    destruct (fields_bytes _) as [c|] eqn:Ec; [|discriminate].
    intros H. apply some_inj in H; subst l. rewrite <- !app_assoc.
    rewrite (rd_varint_encode _ _ _ Ea), (rd_varint_encode _ _ _ Eb), (IH _ _ eq_refl). reflexivity.
Qed.

Lemma fields_app fs gs : fields_bytes (fs ++ gs) =
  match fields_bytes fs, fields_bytes gs with Some a, Some b => Some (a ++ b) | _, _ => None end.
Proof.
  induction fs as [|f fs IH]; cbn [app fields_bytes].
  - destruct (fields_bytes gs); reflexivity.
  - rewrite IH. destruct (field_bytes f); [|reflexivity]. destruct (fields_bytes fs); [|reflexivity].
    destruct (fields_bytes gs); [|reflexivity]. rewrite app_assoc. reflexivity.
Qed.

Lemma repeat_run n rest : match rest with 0 :: _ => False | _ => True end ->
  run_len 0 (repeat 0 n ++ rest) = n /\ skipn n (repeat 0 n ++ rest) = rest.
Proof.
  intros H. induction n as [|n [IH1 IH2]]; cbn [repeat app run_len skipn].
  - destruct rest as [|b rest]; [auto|]. cbn [run_len]. split; [|reflexivity]. destruct (N.eqb_spec b 0); [subst; contradiction|reflexivity].
  - rewrite N.eqb_refl, IH1. auto.
Qed.

Lemma V62_of_bytes v a : varint_bytes v = Some a -> v < 2 ^ 62.
Proof. intros H. destruct (N.lt_ge_cases v (2^62)); [assumption|]. rewrite varint_bytes_none in H by assumption. discriminate. Qed.

(** Split a wire equation into its fields. *)
Ltac split_wire H :=
  cbn [fields_bytes field_bytes app] in H;
  repeat match type of H with
    | context [match varint_bytes ?v with _ => _ end] =>
        let a := fresh "a" in let E := fresh "E" in destruct (varint_bytes v) as [a|] eqn:E; [|discriminate H];
        cbn [app] in H
    end;
  apply some_inj in H.

Ltac rd_step :=
  first [ match goal with E : varint_bytes ?v = Some ?a |- context [rdv (rd_varint (?a ++ ?r)) ?k] => rewrite (rdv_varint E r k) end
        | match goal with E : varint_bytes (lenN ?v) = Some ?a |- context [rdv (rd_vvec ((?a ++ ?v) ++ ?r)) ?k] => rewrite (rdv_vvec E r k) end
        ].
Ltac ltb_f := repeat match goal with |- context [?a <? ?b] =>
  let X := fresh in assert (X : (a <? b) = false) by (apply N.ltb_ge; unfold V62, MAX_VARINT, CID_MAX_LEN in *; lia); rewrite X; clear X end.

Lemma frame_wire_round_trip f l rest :
  frame_ok f -> frame_wire f = Some l -> may_follow f rest -> frame_decode (l ++ rest) = FOk f rest.
Proof.
  unfold frame_wire. intros Hok Hw Hf.
  destruct f; cbn [frame_fields frame_ok may_follow] in *.
  - (* padding *)
    cbn [fields_bytes field_bytes] in Hw. apply some_inj in Hw; subst l.
    destruct (N.to_nat n) as [|m] eqn:En; [lia|].
    cbn [repeat app]. rewrite app_nil_r.
    change (0 :: repeat 0 m ++ rest) with ([0] ++ (repeat 0 m ++ rest)).
    rewrite (frame_decode_type TPadding) by reflexivity. cbn [decode_body].
    destruct (repeat_run m rest Hf) as [E1 E2]. rewrite E1, E2.
    assert (X : (1 + N.of_nat m <? 2 ^ 16) = true) by (apply N.ltb_lt; lia). rewrite X.
    do 2 f_equal. lia.
  - split_wire Hw. subst l. rewrite app_nil_r. rewrite (frame_decode_type TPing) by assumption. reflexivity.
  - (* ack *)
    destruct Hok as (Hla & Had & Hfa & Hn & Hrs & Hecn).
    rewrite !fields_app in Hw.
    destruct (fields_bytes [_;_;_;_;_]) as [h|] eqn:Eh; [|discriminate].
    destruct (fields_bytes (flat_map _ _)) as [m|] eqn:Em; [|discriminate].
    destruct (fields_bytes (match ecn with Some _ => _ | None => _ end)) as [tl|] eqn:Et; [|discriminate].
    apply some_inj in Hw; subst l. split_wire Eh. subst h.
    assert (G : forall b : bool, (b = true <-> ecn <> None) -> decode_ack b (a0 ++ a1 ++ a2 ++ a3 ++ m ++ tl ++ rest) = FOk (FAck largest delay first ranges ecn) rest).
    { intros b Hb. unfold decode_ack. do 3 rd_step.
      assert (X : (lenN ranges <? MAX_ACK_RANGE_COUNT) = true) by (apply N.ltb_lt; exact Hn). rewrite X.
      rd_step. replace (N.to_nat (lenN ranges)) with (length ranges) by (unfold lenN; lia).
      rewrite (ack_ranges_read _ _ _ Em). unfold rdv at 1.
      destruct ecn as [[[e0 e1] ce]|].
      - assert (b = true) by (apply Hb; discriminate). subst b.
        split_wire Et. subst tl. rewrite app_nil_r, <- !app_assoc. do 3 rd_step. reflexivity.
      - destruct b; [exfalso; apply Hb; reflexivity|]. cbn in Et. apply some_inj in Et; subst tl. reflexivity. }
    rewrite app_nil_r. rewrite <- !app_assoc.
    destruct ecn as [e|].
    + rewrite (frame_decode_type TAckEcn) by assumption. cbn [decode_body]. apply G. split; [discriminate|reflexivity].
    + rewrite (frame_decode_type TAck) by assumption. cbn [decode_body]. apply G. split; [discriminate|congruence].
  - split_wire Hw. subst l. rewrite app_nil_r, <- !app_assoc. rewrite (frame_decode_type TResetStream) by assumption. cbn [decode_body]. do 3 rd_step. reflexivity.
  - split_wire Hw. subst l. rewrite app_nil_r, <- !app_assoc. rewrite (frame_decode_type TResetStreamAt) by assumption. cbn [decode_body]. do 4 rd_step. ltb_f. reflexivity.
  - split_wire Hw. subst l. rewrite app_nil_r, <- !app_assoc. rewrite (frame_decode_type TStopSending) by assumption. cbn [decode_body]. do 2 rd_step. reflexivity.
  - (* crypto *)
    split_wire Hw. subst l. rewrite app_nil_r. rewrite <- (app_assoc a), <- (app_assoc a0). rewrite (frame_decode_type TCrypto) by assumption. cbn [decode_body]. do 2 rd_step. ltb_f. reflexivity.
  - split_wire Hw. subst l. rewrite app_nil_r. rewrite <- (app_assoc a). rewrite (frame_decode_type TNewToken) by assumption. cbn [decode_body]. rd_step.
    destruct (N.eqb_spec (lenN token) 0); [lia|reflexivity].
  - (* stream *)
    destruct Hok as [Hid Hlen].
    set (ty := TStream (negb (offset =? 0)) (negb fill) fin).
    assert (Hty : 8 + (if offset =? 0 then 0 else 4) + (if fill then 0 else 2) + (if fin then 1 else 0) = ftype_num ty).
    { unfold ty, ftype_num, b2n. destruct (offset =? 0), fill, fin; reflexivity. }
    rewrite Hty in Hw.
    destruct (N.eqb_spec offset 0) as [Ho|Ho].
    + subst offset. destruct fill; split_wire Hw; subst l; rewrite app_nil_r.
      * subst rest. rewrite app_nil_r. rewrite (frame_decode_type ty) by assumption. subst ty. cbn [decode_body negb].
        rd_step. unfold rdv. ltb_f. reflexivity.
      * rewrite <- (app_assoc a), <- (app_assoc a0). rewrite (frame_decode_type ty) by assumption. subst ty. cbn [decode_body negb].
        rd_step. unfold rdv at 1. rd_step. ltb_f. reflexivity.
    + destruct fill; split_wire Hw; subst l; rewrite app_nil_r.
      * subst rest. rewrite app_nil_r. rewrite (frame_decode_type ty) by assumption. subst ty. cbn [decode_body negb].
        do 2 rd_step. unfold rdv. ltb_f. reflexivity.
      * rewrite <- (app_assoc a), <- (app_assoc a0), <- (app_assoc a1). rewrite (frame_decode_type ty) by assumption. subst ty. cbn [decode_body negb].
        do 3 rd_step. ltb_f. reflexivity.
  - split_wire Hw. subst l. rewrite app_nil_r, <- !app_assoc. rewrite (frame_decode_type TMaxData) by assumption. cbn [decode_body]. do 1 rd_step. reflexivity.
  - split_wire Hw. subst l. rewrite app_nil_r, <- !app_assoc. rewrite (frame_decode_type TMaxStreamData) by assumption. cbn [decode_body]. do 2 rd_step. reflexivity.
  - destruct bidi; split_wire Hw; subst l; rewrite app_nil_r, <- !app_assoc.
    + rewrite (frame_decode_type TMaxStreamsBiDi) by assumption. cbn [decode_body]. rd_step. ltb_f. reflexivity.
    + rewrite (frame_decode_type TMaxStreamsUniDi) by assumption. cbn [decode_body]. rd_step. ltb_f. reflexivity.
  - split_wire Hw. subst l. rewrite app_nil_r, <- !app_assoc. rewrite (frame_decode_type TDataBlocked) by assumption. cbn [decode_body]. do 1 rd_step. reflexivity.
  - split_wire Hw. subst l. rewrite app_nil_r, <- !app_assoc. rewrite (frame_decode_type TStreamDataBlocked) by assumption. cbn [decode_body]. do 2 rd_step. reflexivity.
  - destruct bidi; split_wire Hw; subst l; rewrite app_nil_r, <- !app_assoc.
    + rewrite (frame_decode_type TStreamsBlockedBiDi) by assumption. cbn [decode_body]. rd_step. ltb_f. reflexivity.
    + rewrite (frame_decode_type TStreamsBlockedUniDi) by assumption. cbn [decode_body]. rd_step. ltb_f. reflexivity.
  - (* new connection id *)
    destruct Hok as (Hs & Hrp & Hc & Ht).
    split_wire Hw. subst l. rewrite app_nil_r. rewrite app_comm_cons. rewrite <- !app_assoc. rewrite (frame_decode_type TNewConnectionId) by assumption. cbn [decode_body].
    do 2 rd_step. ltb_f. rewrite (rdv_pre1 cid (srt ++ rest)) by lia.
    destruct (N.eqb_spec (lenN cid) 0); [lia|]. ltb_f. cbn [orb]. rewrite rdv_bytes by exact Ht. reflexivity.
  - split_wire Hw. subst l. rewrite app_nil_r, <- !app_assoc. rewrite (frame_decode_type TRetireConnectionId) by assumption. cbn [decode_body]. do 1 rd_step. reflexivity.
  - split_wire Hw. subst l. rewrite app_nil_r, <- !app_assoc. rewrite (frame_decode_type TPathChallenge) by assumption. cbn [decode_body]. rewrite rdv_bytes by assumption. reflexivity.
  - split_wire Hw. subst l. rewrite app_nil_r, <- !app_assoc. rewrite (frame_decode_type TPathResponse) by assumption. cbn [decode_body]. rewrite rdv_bytes by assumption. reflexivity.
  - (* close *)
    destruct transport; split_wire Hw; subst l; rewrite app_nil_r.
    + rewrite <- (app_assoc a), <- (app_assoc a0), <- (app_assoc a1). rewrite (frame_decode_type TConnectionCloseTransport) by assumption. cbn [decode_body]. do 3 rd_step. reflexivity.
    + rewrite <- (app_assoc a), <- (app_assoc a0). rewrite (frame_decode_type TConnectionCloseApplication) by assumption. cbn [decode_body]. do 2 rd_step. destruct Hok as (_ & -> & _). reflexivity.
  - split_wire Hw. subst l. rewrite app_nil_r. rewrite (frame_decode_type THandshakeDone) by assumption. reflexivity.
  - (* ack frequency *)
    split_wire Hw. subst l. rewrite <- !app_assoc. rewrite (frame_decode_type TAckFrequency) by assumption. cbn [decode_body].
    do 2 rd_step. destruct (N.eqb_spec tolerance 0); [lia|]. rd_step. rewrite (rdv_n1 (if ignore_order then 1 else 0)).
    destruct ignore_order; reflexivity.
  - (* datagram *)
    destruct fill; split_wire Hw; subst l; rewrite app_nil_r.
    + subst rest. rewrite app_nil_r. rewrite (frame_decode_type TDatagram) by assumption. reflexivity.
    + rewrite <- (app_assoc a). rewrite (frame_decode_type TDatagramWithLen) by assumption. cbn [decode_body]. rd_step. reflexivity.
Qed.
