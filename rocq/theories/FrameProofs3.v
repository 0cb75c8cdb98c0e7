From Verif Require Import Base Lib CodecModel Reader CodecSpec CodecProofs FrameModel FrameSpec FrameProofs FrameProofs2.

Lemma vbs_fields vs : vbs vs = fields_bytes (map Vi vs).
Proof. induction vs as [|v vs IH]; cbn [vbs map fields_bytes field_bytes]; [reflexivity|]. rewrite IH. reflexivity. Qed.

Lemma vlens_vbs vs : forall n l, vlens vs = Some n -> vbs vs = Some l -> lenN l = n.
Proof.
  induction vs as [|v vs IH]; intros n l; cbn [vlens vbs].
  - intros H1 H2. apply some_inj in H1, H2; subst. reflexivity.
  - destruct (varint_bytes v) as [a|] eqn:E; [|discriminate].
    rewrite (varint_bytes_len _ _ E).
    destruct (vlens vs) as [m|] eqn:Em; [|discriminate]. destruct (vbs vs) as [b|] eqn:Eb; [|discriminate].
    intros H1 H2. apply some_inj in H1, H2; subst. rewrite lenN_app, (IH _ _ eq_refl eq_refl). reflexivity.
Qed.

Lemma vbs_vlens vs l : vbs vs = Some l -> vlens vs = Some (lenN l).
Proof.
  revert l. induction vs as [|v vs IH]; intros l; cbn [vlens vbs].
  - intros H; apply some_inj in H; subst. reflexivity.
  - destruct (varint_bytes v) as [a|] eqn:E; [|discriminate].
    rewrite (varint_bytes_len _ _ E).
    destruct (vbs vs) as [b|] eqn:Eb; [|discriminate]. rewrite (IH _ eq_refl).
    intros H. apply some_inj in H; subst. rewrite lenN_app. reflexivity.
Qed.

(** [write_varint_frame] writes the fields iff they fit. *)
Lemma write_varint_frame_spec rem vs l :
  fields_bytes (map Vi vs) = Some l ->
  write_varint_frame rem vs = Some (if lenN l <=? rem then Some l else None).
Proof.
  intros H. rewrite <- vbs_fields in H. unfold write_varint_frame. rewrite (vbs_vlens _ _ H), H. reflexivity.
Qed.

Lemma fbytes_fields t vs tail :
  fbytes t vs tail = match fields_bytes (map Vi (ftype_num t :: vs)) with Some a => Some (a ++ tail) | None => None end.
Proof. unfold fbytes. rewrite vbs_fields. reflexivity. Qed.

Lemma fbytes_wire t vs tail fs l :
  fields_bytes fs = Some tail -> fields_bytes (map Vi (ftype_num t :: vs) ++ fs) = Some l ->
  fbytes t vs tail = Some l.
Proof.
  intros H1 H2. rewrite fbytes_fields. rewrite fields_app in H2. destruct (fields_bytes (map _ _)); [|discriminate].
  rewrite H1 in H2. exact H2.
Qed.

Lemma ack_freq_tail : field_bytes (Vi 0) = Some [0].
Proof. reflexivity. Qed.

Lemma one_byte v a : v < 64 -> varint_bytes v = Some a -> lenN a = 1.
Proof.
  intros H E. apply varint_bytes_len in E. unfold varint_len in E.
  assert (X : (v <? 2 ^ 6) = true) by (apply N.ltb_lt; exact H). rewrite X in E. injection E as E. auto.
Qed.

Lemma wr_if_spec rem n l : lenN l = n -> wr_if rem (Some n) (Some l) = Some (if lenN l <=? rem then Some l else None).
Proof. intros <-. unfold wr_if. destruct (lenN l <=? rem); reflexivity. Qed.

(** Every request is written exactly as the frame asked for, iff it fits. *)
Lemma run_wreq_spec rem w : frame_ok (wreq_frame w) ->
  exists l, frame_wire (wreq_frame w) = Some l /\ run_wreq rem w = Some (if lenN l <=? rem then Some l else None).
Proof.
  intros Hok. destruct (frame_ok_wire _ Hok) as [l Hl]. exists l. split; [exact Hl|].
  unfold frame_wire in Hl. destruct w; cbn [wreq_frame run_wreq frame_fields] in *.
  - unfold wr_reset_stream. destruct (reliable =? 0); apply write_varint_frame_spec; exact Hl.
  - apply write_varint_frame_spec; exact Hl.
  - apply write_varint_frame_spec; exact Hl.
  - apply write_varint_frame_spec; exact Hl.
  - destruct bidi; apply write_varint_frame_spec; exact Hl.
  - apply write_varint_frame_spec; exact Hl.
  - apply write_varint_frame_spec; exact Hl.
  - destruct bidi; apply write_varint_frame_spec; exact Hl.
  - apply write_varint_frame_spec. exact Hl.
  - apply some_inj in Hl; subst l. apply wr_if_spec. reflexivity.
  - apply some_inj in Hl; subst l. apply wr_if_spec. reflexivity.
  - unfold wr_new_token, fbytes. split_wire Hl. subst l. cbn [vbs]. rewrite E0.
    change (varint_bytes (ftype_num TNewToken)) with (Some [7]). cbn in E. apply some_inj in E; subst a.
    unfold vvec_len. rewrite (varint_bytes_len _ _ E0). rewrite !app_nil_r.
    change (([7] ++ a0) ++ token) with ([7] ++ (a0 ++ token)). apply wr_if_spec. rewrite !lenN_app. reflexivity.
  - unfold wr_new_connection_id, fbytes. cbn [frame_ok] in Hok. destruct Hok as (Hs & _ & Hc & Ht).
    split_wire Hl. subst l. cbn [vbs].
    change (varint_bytes (ftype_num TNewConnectionId)) with (Some [24]). cbn in E. apply some_inj in E; subst a.
    rewrite E0. change (varint_bytes 0) with (Some [0]). cbn in E1. apply some_inj in E1; subst a1.
    rewrite (varint_bytes_len _ _ E0).
    assert (Hb : be_bytes 1 (lenN cid) = [lenN cid]).
    { cbn [be_bytes]. change (256 ^ N.of_nat 0) with 1. rewrite N.div_1_r, N.mod_small by lia. reflexivity. }
    rewrite Hb, !app_nil_r. rewrite <- !app_assoc. cbn [app].
    apply wr_if_spec. rewrite lenN_cons, lenN_app, !lenN_cons, lenN_app, Ht. unfold SRT_LEN. lia.
  - unfold wr_retire_connection_id, fbytes. split_wire Hl. subst l. cbn [vbs]. rewrite E0.
    change (varint_bytes (ftype_num TRetireConnectionId)) with (Some [25]). cbn in E. apply some_inj in E; subst a.
    rewrite (varint_bytes_len _ _ E0). rewrite !app_nil_r. apply wr_if_spec. rewrite lenN_app. reflexivity.
  - cbn [frame_ok] in Hok. unfold wr_path_response. split_wire Hl. cbn in E. apply some_inj in E; subst a l. rewrite app_nil_r.
    change (fbytes TPathResponse [] data) with (Some ([27] ++ data)). apply wr_if_spec. rewrite lenN_app, Hok. reflexivity.
  - cbn [frame_ok] in Hok. unfold wr_path_challenge. split_wire Hl. cbn in E. apply some_inj in E; subst a l. rewrite app_nil_r.
    change (fbytes TPathChallenge [] data) with (Some ([26] ++ data)). apply wr_if_spec. rewrite lenN_app, Hok. reflexivity.
Qed.

(** ** STREAM *)
Lemma firstnN_len n (l : list N) : n <= lenN l -> lenN (firstnN n l) = n.
Proof. unfold firstnN, lenN. intros H. rewrite firstn_length. lia. Qed.

Lemma varint_len_mono a b la lb : a <= b -> varint_len a = Some la -> varint_len b = Some lb -> la <= lb.
Proof.
  unfold varint_len. intros H.
  repeat match goal with |- context [?x <? ?y] => destruct (N.ltb_spec x y) end; intros E1 E2; inv E1; inv E2; lia.
Qed.

Lemma varint_len_some v : v < 2 ^ 62 -> exists n, varint_len v = Some n /\ 1 <= n <= 8.
Proof.
  intros H. destruct (varint_bytes_some _ H) as [l Hl]. exists (lenN l). split; [apply varint_bytes_len; exact Hl|].
  apply varint_bytes_len in Hl. unfold varint_len in Hl.
  repeat match type of Hl with context [?x <? ?y] => destruct (N.ltb_spec x y) end; inv Hl; lia.
Qed.

Lemma varint_len_bytes v n : varint_len v = Some n -> exists l, varint_bytes v = Some l /\ lenN l = n.
Proof.
  intros H. assert (v < 2 ^ 62).
  { unfold varint_len in H. repeat match type of H with context [?x <? ?y] => destruct (N.ltb_spec x y) end; try discriminate H; try assumption;
    (eapply N.lt_le_trans; [eassumption|]; vm_compute; discriminate). }
  destruct (varint_bytes_some _ H0) as [l Hl]. exists l. split; [exact Hl|]. apply varint_bytes_len in Hl. congruence.
Qed.

Lemma length_and_fill_spec dl space len fill :
  length_and_fill dl space = Some (len, fill) ->
  len <= dl /\ len <= space /\ (len = N.min dl space) /\
  (fill = false -> exists ll, varint_len dl = Some ll /\ len = dl /\ dl + ll + 2 <= space).
Proof.
  unfold length_and_fill. destruct (N.leb_spec space dl).
  - intros H'. injection H' as <- <-. repeat split; try lia. 
  - destruct (varint_len (N.min (space - 1) dl)) as [ll|] eqn:E; [|discriminate].
    intros H'. injection H' as <- <-. repeat split; try lia. intros F. apply N.ltb_ge in F. unfold MINIMUM_FRAME_SIZE in F.
    exists ll. rewrite N.min_r in E by lia. auto.
Qed.

Lemma length_and_fill_total dl space : dl < 2 ^ 62 -> length_and_fill dl space <> None.
Proof.
  intros H. unfold length_and_fill. destruct (N.leb_spec space dl); [discriminate|].
  destruct (varint_len_some (N.min (space - 1) dl)) as (n & -> & _); [lia|discriminate].
Qed.

Lemma wr_stream_spec rem id offset data fin_offset :
  id < 2 ^ 62 -> offset + lenN data < 2 ^ 62 ->
  exists r, wr_stream rem id offset data fin_offset = Some r /\
  forall l len fin fill, r = Some (l, len, fin, fill) ->
    frame_wire (FStream id offset (firstnN len data) fin fill) = Some l /\
    lenN l <= rem /\ len <= lenN data /\ (0 < len \/ fin = true) /\
    (fin = true <-> fin_offset = Some (offset + len)).
Proof.
  intros Hid Hod. unfold wr_stream.
  destruct (varint_bytes_some _ Hid) as [bi Hbi]. rewrite (varint_bytes_len _ _ Hbi).
  assert (Hob : exists bo lo, (if 0 <? offset then varint_len offset else Some 0) = Some lo /\ lenN bo = lo /\
                 fields_bytes (if offset =? 0 then [] else [Vi offset]) = Some bo).
  { destruct (N.ltb_spec 0 offset); destruct (N.eqb_spec offset 0); try lia.
    - destruct (varint_bytes_some offset) as [bo Hbo]; [lia|]. exists bo, (lenN bo). rewrite (varint_bytes_len _ _ Hbo).
      cbn [fields_bytes field_bytes]. rewrite Hbo, app_nil_r. auto.
    - exists [], 0. auto. }
  destruct Hob as (bo & lo & -> & Hlo & Hbo).
  destruct (N.ltb_spec rem (1 + lenN bi + lo)); [exists None; split; [reflexivity|discriminate]|].
  destruct (length_and_fill (lenN data) (rem - (1 + lenN bi + lo))) as [[len fill]|] eqn:E;
    [|exfalso; apply (length_and_fill_total (lenN data) (rem - (1 + lenN bi + lo))); [lia|exact E]].
  destruct (length_and_fill_spec _ _ _ _ E) as (Hl1 & Hl2 & _ & Hl3).
  set (fin := match fin_offset with Some fo => fo =? offset + len | None => false end).
  destruct ((len =? 0) && negb fin) eqn:Ez; [exists None; split; [reflexivity|discriminate]|].
  assert (Hid' : fields_bytes (map Vi (id :: (if 0 <? offset then [offset] else []))) = Some (bi ++ bo)).
  { destruct (N.ltb_spec 0 offset); destruct (N.eqb_spec offset 0); try lia; cbn [map fields_bytes field_bytes] in *; rewrite Hbi.
    - rewrite Hbo. reflexivity.
    - apply some_inj in Hbo; subst bo. reflexivity. }
  set (d := firstnN len data). assert (Hd : lenN d = len) by (apply firstnN_len; exact Hl1).
  assert (Hty : exists b, varint_bytes (ftype_num (stream_type fin (0 <? offset) fill)) = Some [b] /\
                          varint_bytes (8 + (if offset =? 0 then 0 else 4) + (if fill then 0 else 2) + (if fin then 1 else 0)) = Some [b]).
  { unfold stream_type, ftype_num, b2n. destruct (N.ltb_spec 0 offset); destruct (N.eqb_spec offset 0); try lia; destruct fill, fin; eexists; split; reflexivity. }
  destruct Hty as (b & Hb1 & Hb2).
  set (tl := if fill then d else match varint_bytes len with Some h => h ++ d | None => [] end).
  assert (Htl : fields_bytes [if fill then Raw d else Pre d] = Some tl).
  { unfold tl. destruct fill; cbn [fields_bytes field_bytes]; [rewrite app_nil_r; reflexivity|].
    rewrite Hd. destruct (varint_bytes_some len) as [h ->]; [lia|]. rewrite app_nil_r. reflexivity. }
  assert (Hw : fbytes (stream_type fin (0 <? offset) fill) ((id :: (if 0 <? offset then [offset] else [])) ++ (if fill then [] else [lenN d])) d
               = Some ([b] ++ (bi ++ bo) ++ tl)).
  { rewrite fbytes_fields. cbn [map fields_bytes]. cbn [field_bytes]. rewrite Hb1. rewrite map_app, fields_app, Hid'.
    unfold tl. destruct fill; cbn [map fields_bytes].
    - rewrite app_nil_r, <- !app_assoc. reflexivity.
    - cbn [field_bytes]. rewrite Hd. destruct (varint_bytes_some len) as [h ->]; [lia|]. rewrite app_nil_r. rewrite <- !app_assoc. reflexivity. }
  cbn [app] in Hw |- *. rewrite Hw. eexists; split; [reflexivity|].
  intros l len' fin' fill' X. injection X as <- <- <- <-.
  assert (Hwire : frame_wire (FStream id offset d fin fill) = Some ([b] ++ (bi ++ bo) ++ tl)).
  { unfold frame_wire. cbn [frame_fields]. rewrite fields_app. cbn [fields_bytes field_bytes]. rewrite Hb2, Hbi.
    rewrite fields_app, Hbo, Htl. rewrite app_nil_r, <- !app_assoc. reflexivity. }
  repeat split.
  - exact Hwire.
  - rewrite lenN_cons, !lenN_app. assert (lenN tl <= rem - (1 + lenN bi + lo)); [|lia].
    unfold tl. destruct fill; [lia|]. destruct (Hl3 eq_refl) as (ll & E1 & E2 & E3).
    rewrite E2. destruct (varint_len_bytes _ _ E1) as (h & -> & Hh). rewrite lenN_app. lia.
  - exact Hl1.
  - apply andb_false_iff in Ez as [Ez|Ez]; [left; apply N.eqb_neq in Ez; lia|right; destruct fin; [reflexivity|discriminate]].
  - subst fin. destruct fin_offset as [fo|]; [|discriminate]. destruct (N.eqb_spec fo (offset + len)); [congruence|discriminate].
  - intros ->. subst fin. rewrite N.eqb_refl. reflexivity.
Qed.

(** ** CRYPTO *)
Lemma wr_crypto_spec rem offset data : offset + lenN data < 2 ^ 62 -> 
  exists r, wr_crypto rem offset data = Some r /\
  forall l len, r = Some (l, len) ->
    frame_wire (FCrypto offset (firstnN len data)) = Some l /\ lenN l <= rem /\ len <= lenN data /\
    (0 < lenN data -> 0 < len).
Proof.
  intros Hod. unfold wr_crypto.
  destruct (varint_bytes_some offset) as [bo Hbo]; [lia|]. rewrite (varint_bytes_len _ _ Hbo).
  destruct (N.ltb_spec rem (1 + lenN bo + 1 + 1)); [exists None; split; [reflexivity|discriminate]|].
  set (len1 := N.min (lenN data) (rem - (1 + lenN bo + 1))).
  destruct (varint_len_some len1) as (ll & Hll & Hll1); [unfold len1; lia|]. rewrite Hll.
  assert (Hbig : ll - 1 <= len1 - (if len1 =? 0 then 0 else 1)).
  { unfold varint_len in Hll. destruct (N.eqb_spec len1 0).
    - rewrite e in *. cbn in Hll. injection Hll as <-. lia.
    - repeat match type of Hll with context [?x <? ?y] => destruct (N.ltb_spec x y) end; try discriminate Hll; injection Hll as <-; lia. }
  destruct (N.ltb_spec rem (1 + lenN bo + 1 + (ll - 1))); [exfalso; destruct (len1 =? 0); lia|].
  set (len2 := N.min (lenN data) (rem - (1 + lenN bo + 1 + (ll - 1)))).
  assert (Hle : len2 <= len1) by (unfold len1, len2; lia).
  assert (Hd : lenN (firstnN len2 data) = len2) by (apply firstnN_len; unfold len2; lia).
  destruct (varint_len_some len2) as (l2 & Hl2 & Hl2'); [unfold len2; lia|].
  pose proof (varint_len_mono _ _ _ _ Hle Hl2 Hll) as Hm.
  destruct (varint_len_bytes _ _ Hl2) as (h & Hh & Hhl).
  rewrite fbytes_fields. rewrite Hd. cbn [map fields_bytes field_bytes]. change (varint_bytes (ftype_num TCrypto)) with (Some [6]).
  rewrite Hbo, Hh. rewrite app_nil_r. eexists; split; [reflexivity|].
  intros l len X. injection X as <- <-. repeat split.
  - unfold frame_wire. cbn [frame_fields fields_bytes field_bytes]. rewrite Hbo, Hd, Hh. change (varint_bytes 6) with (Some [6]).
    rewrite app_nil_r, <- !app_assoc. reflexivity.
  - cbn [app]. rewrite lenN_cons, !lenN_app, Hd, Hhl. unfold len2. lia.
  - unfold len2; lia.
  - intros. unfold len2. destruct (N.eqb_spec len1 0); unfold len1 in *; lia.
Qed.

(** ** DATAGRAM *)
Lemma wr_datagram_spec rem data : lenN data < 2 ^ 62 ->
  exists r, wr_datagram rem data = Some r /\
  (r = None <-> rem < lenN data + 1) /\
  forall l full, r = Some (l, full) -> frame_wire (FDatagram data full) = Some l /\ lenN l <= rem.
Proof.
  intros Hd. unfold wr_datagram. destruct (N.leb_spec (lenN data + 1) rem).
  - destruct (varint_bytes_some _ Hd) as [h Hh]. rewrite (varint_bytes_len _ _ Hh). unfold MINIMUM_FRAME_SIZE.
    destruct (N.leb_spec (1 + lenN h + lenN data + 2) rem); rewrite fbytes_fields; cbn [map fields_bytes field_bytes].
    + change (varint_bytes (ftype_num TDatagramWithLen)) with (Some [49]). rewrite Hh, app_nil_r. eexists; split; [reflexivity|]. split; [split; [discriminate|lia]|].
      intros l full X. injection X as <- <-. split.
      * unfold frame_wire. cbn [frame_fields fields_bytes field_bytes]. rewrite Hh. change (varint_bytes 49) with (Some [49]). rewrite app_nil_r. reflexivity.
      * cbn [app]. rewrite lenN_cons, lenN_app. lia.
    + change (varint_bytes (ftype_num TDatagram)) with (Some [48]). eexists; split; [reflexivity|]. split; [split; [discriminate|lia]|].
      intros l full X. injection X as <- <-. split.
      * unfold frame_wire. cbn [frame_fields fields_bytes field_bytes]. change (varint_bytes 48) with (Some [48]). rewrite app_nil_r. reflexivity.
      * cbn [app]. rewrite lenN_cons. lia.
  - exists None. split; [reflexivity|]. split; [split; [intros; lia|reflexivity]|discriminate].
Qed.

(** ** CONNECTION_CLOSE *)
Lemma wr_close_spec rem transport code ft reason :
  code < 2 ^ 62 -> ft < 2 ^ 62 -> lenN reason < 2 ^ 62 ->
  exists r, wr_close rem transport code ft reason = Some r /\
  (r = None <-> rem < 27) /\
  forall l, r = Some l -> exists n, n <= lenN reason /\
    frame_wire (FConnectionClose transport code (if transport then ft else 0) (firstnN n reason)) = Some l /\
    lenN l <= 17 + N.min 256 rem.
Proof.
  intros Hc Hf Hr. unfold wr_close. change CLOSE_MIN_LENGTH with 27.
  destruct (N.ltb_spec rem 27); [exists None; split; [reflexivity|]; split; [split; auto|discriminate]|].
  unfold vvec_len. destruct (varint_len_some _ Hr) as (vl & Hvl & Hvl1). rewrite Hvl.
  set (n := if N.min 256 rem <? vl + lenN reason then N.min 256 rem - 2 else lenN reason).
  assert (Hn : n <= lenN reason /\ exists ln, varint_len n = Some ln /\ n + ln <= N.min 256 rem).
  { unfold n. destruct (N.ltb_spec (N.min 256 rem) (vl + lenN reason)).
    - assert (L : forall k, varint_len (N.min 256 rem - 2) = Some k -> k <= 2).
      { unfold varint_len. intros k. destruct (N.ltb_spec (N.min 256 rem - 2) (2^6)); [intros E; injection E as <-; lia|].
        destruct (N.ltb_spec (N.min 256 rem - 2) (2^14)); [intros E; injection E as <-; lia|]. exfalso. assert (254 < 2^14) by reflexivity. lia. }
      destruct (varint_len_some (N.min 256 rem - 2)) as (ln & E & _); [lia|]. pose proof (L _ E). split; [|exists ln; split; [exact E|lia]].
      destruct (N.le_gt_cases (N.min 256 rem - 2) (lenN reason)) as [|G]; [assumption|].
      pose proof (varint_len_mono _ _ _ _ (N.lt_le_incl _ _ G) Hvl E). lia.
    - split; [lia|]. exists vl. split; [exact Hvl|lia]. }
  destruct Hn as (Hn & ln & Hln & Hnl).
  assert (Hreason : (if N.min 256 rem <? vl + lenN reason then firstnN (N.min 256 rem - 2) reason else reason) = firstnN n reason).
  { unfold n. destruct (N.min 256 rem <? vl + lenN reason); [reflexivity|]. unfold firstnN, lenN. rewrite Nat2N.id, firstn_all. reflexivity. }
  rewrite Hreason. assert (Hd : lenN (firstnN n reason) = n) by (apply firstnN_len; exact Hn).
  destruct (varint_len_bytes _ _ Hln) as (h & Hh & Hhl).
  destruct (varint_bytes_some _ Hc) as [bc Hbc]. destruct (varint_bytes_some _ Hf) as [bf Hbf].
  assert (lenN bc <= 8) by (destruct (varint_len_some _ Hc) as (k & E & ?); rewrite (varint_bytes_len _ _ Hbc) in E; injection E as <-; lia).
  assert (lenN bf <= 8) by (destruct (varint_len_some _ Hf) as (k & E & ?); rewrite (varint_bytes_len _ _ Hbf) in E; injection E as <-; lia).
  destruct transport; rewrite fbytes_fields, Hd; cbn [map fields_bytes field_bytes].
  - change (varint_bytes (ftype_num TConnectionCloseTransport)) with (Some [28]). rewrite Hbc, Hbf, Hh, app_nil_r.
    eexists; split; [reflexivity|]. split; [split; [discriminate|lia]|]. intros l X. injection X as <-. exists n. split; [exact Hn|]. split.
    + unfold frame_wire. cbn [frame_fields fields_bytes field_bytes]. rewrite Hbc, Hbf, Hd, Hh. change (varint_bytes 28) with (Some [28]). rewrite app_nil_r, <- !app_assoc. reflexivity.
    + cbn [app]. rewrite lenN_cons, !lenN_app, Hd. lia.
  - change (varint_bytes (ftype_num TConnectionCloseApplication)) with (Some [29]). rewrite Hbc, Hh, app_nil_r.
    eexists; split; [reflexivity|]. split; [split; [discriminate|lia]|]. intros l X. injection X as <-. exists n. split; [exact Hn|]. split.
    + unfold frame_wire. cbn [frame_fields fields_bytes field_bytes]. rewrite Hbc, Hd, Hh. change (varint_bytes 29) with (Some [29]). rewrite app_nil_r, <- !app_assoc. reflexivity.
    + cbn [app]. rewrite lenN_cons, !lenN_app, Hd. lia.
Qed.

(** ** ACK *)
Fixpoint ack_pairs (last : N) (rs : list (N * N)) : list (N * N) :=
  match rs with [] => [] | (lg, sm) :: r => (last - lg - 2, lg - sm) :: ack_pairs sm r end.

Lemma ack_tail_pairs rs : forall last, separated last rs ->
  ack_tail last rs = Some (flat_map (fun gr => [fst gr; snd gr]) (ack_pairs last rs)).
Proof.
  induction rs as [|[lg sm] rs IH]; intros last; cbn [separated ack_tail ack_pairs flat_map fst snd app]; [reflexivity|].
  intros (H1 & H2 & H3). rewrite (IH _ H3).
  destruct (N.ltb_spec last (lg + 2)); [lia|]. destruct (N.ltb_spec lg sm); [lia|]. reflexivity.
Qed.
Lemma ack_pairs_len rs : forall last, length (ack_pairs last rs) = length rs.
Proof. induction rs as [|[lg sm] rs IH]; intros last; cbn [ack_pairs length]; [reflexivity|]. rewrite IH. reflexivity. Qed.
Lemma map_flat ps : map Vi (flat_map (fun gr : N * N => [fst gr; snd gr]) ps) = flat_map (fun gr => [Vi (fst gr); Vi (snd gr)]) ps.
Proof. induction ps as [|[g r] ps IH]; cbn [flat_map map app fst snd]; [reflexivity|]. rewrite IH. reflexivity. Qed.
Lemma ack_pairs_ok rs : forall last, last < 2 ^ 62 -> separated last rs ->
  Forall (fun gr => V62 (fst gr) /\ V62 (snd gr)) (ack_pairs last rs).
Proof.
  induction rs as [|[lg sm] rs IH]; intros last Hl; cbn [separated ack_pairs]; [constructor|].
  intros (H1 & H2 & H3). constructor; [unfold V62; cbn [fst snd]; lia|]. apply IH; [lia|assumption].
Qed.

Lemma ack_frame_wire lg sm rest delay ecn :
  sm <= lg -> separated sm rest -> 
  ack_frame_bytes (lg, sm) rest delay ecn = frame_wire (FAck lg delay (lg - sm) (ack_pairs sm rest) ecn).
Proof.
  intros H1 H2. unfold ack_frame_bytes. destruct (N.ltb_spec lg sm); [lia|].
  rewrite (ack_tail_pairs _ _ H2). rewrite fbytes_fields. unfold frame_wire. cbn [frame_fields].
  assert (L : lenN (ack_pairs sm rest) = lenN rest) by (unfold lenN; rewrite ack_pairs_len; reflexivity). rewrite L.
  assert (E : map Vi (ftype_num (match ecn with Some _ => TAckEcn | None => TAck end) :: lg :: delay :: lenN rest :: lg - sm
             :: flat_map (fun gr => [fst gr; snd gr]) (ack_pairs sm rest) ++ match ecn with Some (e0, e1, ce) => [e0; e1; ce] | None => [] end)
     = [Vi (match ecn with None => 2 | Some _ => 3 end); Vi lg; Vi delay; Vi (lenN rest); Vi (lg - sm)]
       ++ flat_map (fun gr => [Vi (fst gr); Vi (snd gr)]) (ack_pairs sm rest)
       ++ match ecn with None => [] | Some (e0, e1, ce) => [Vi e0; Vi e1; Vi ce] end).
  { cbn [map app]. rewrite map_app, map_flat. destruct ecn as [[[e0 e1] ce]|]; reflexivity. }
  rewrite E. destruct (fields_bytes _); [rewrite app_nil_r|]; reflexivity.
Qed.

Definition flip (r : N * N) : N * N := (snd r, fst r).

Lemma rfc_of_pairs rs : forall last, separated last rs -> rfc_ranges last (ack_pairs last rs) (map flip rs).
Proof.
  induction rs as [|[lg sm] rs IH]; intros last; cbn [separated ack_pairs map flip rfc_ranges fst snd]; [auto|].
  intros (H1 & H2 & H3). repeat split; [lia|lia|apply IH; assumption].
Qed.

Lemma loop_complete rs : forall s out, 1 <= s -> rfc_ranges s rs out -> ack_ranges_loop (s - 1) rs = Some out.
Proof.
  induction rs as [|[g r] rs IH]; intros s out Hs; destruct out as [|[a e] out]; cbn [rfc_ranges ack_ranges_loop]; try contradiction; [auto|].
  intros (H1 & H2 & H3).
  destruct (N.ltb_spec (s - 1) (g + 1)); [lia|].
  replace (s - 1 - g - 1) with e by lia. destruct (N.ltb_spec e r); [lia|].
  replace (e - r) with a by lia.
  destruct (N.ltb_spec (r + 1) e) as [Hlt|Hge].
  - replace (e - (r + 1)) with (a - 1) by lia. rewrite (IH a out); [reflexivity|lia|assumption].
  - destruct rs as [|[g2 r2] rs]; destruct out as [|[a2 e2] out]; cbn [rfc_ranges ack_ranges_loop] in *; try contradiction; [reflexivity|].
    destruct H3 as (? & ? & _). lia.
Qed.

Lemma decode_ack_frame_complete la fa rs out : rfc_ack la fa rs out -> decode_ack_frame la fa rs = Some out.
Proof.
  unfold rfc_ack, decode_ack_frame. destruct out as [|[s e] out]; [contradiction|]. intros (-> & H1 & H2).
  destruct (N.ltb_spec la fa); [lia|].
  destruct rs as [|p rs].
  - destruct out; [|contradiction]. do 3 f_equal. lia.
  - destruct (N.ltb_spec la (fa + 1)) as [G|G].
    + destruct p, out as [|[? ?] ?]; cbn [rfc_ranges] in H2; [contradiction|]. lia.
    + replace (la - fa) with s by lia. rewrite (loop_complete _ s out); [reflexivity|lia|assumption].
Qed.

Lemma loop_sound rs : forall s out, 1 <= s -> ack_ranges_loop (s - 1) rs = Some out ->
  rfc_ranges s rs out \/
  exists rs' out' e, rs = rs' ++ [(0, 0)] /\ out = out' ++ [(1, e); (0, 0)] /\ rfc_ranges s rs' (out' ++ [(1, e)]).
Proof.
  induction rs as [|[g r] rs IH]; intros s out Hs; cbn [ack_ranges_loop].
  - intros H. injection H as <-. left. exact I.
  - destruct (N.ltb_spec (s - 1) (g + 1)); [discriminate|].
    set (e := s - 1 - g - 1). destruct (N.ltb_spec e r); [discriminate|].
    destruct (N.ltb_spec (r + 1) e) as [Hlt|Hge].
    + replace (e - (r + 1)) with ((e - r) - 1) by lia.
      destruct (ack_ranges_loop _ rs) as [more|] eqn:E; [|discriminate]. intros X. injection X as <-.
      destruct (IH (e - r) more) as [H'|(rs' & out' & e' & -> & -> & H')]; [lia|exact E| |].
      * left. cbn [rfc_ranges]. repeat split; [unfold e; lia|lia|exact H'].
      * right. exists ((g, r) :: rs'), ((e - r, e) :: out'), e'. cbn [app rfc_ranges]. repeat split; [unfold e; lia|lia|exact H'].
    + destruct (ack_ranges_loop (e - r) rs) as [more|] eqn:E; [|discriminate]. intros X. injection X as <-.
      destruct rs as [|[g2 r2] rs].
      * cbn [ack_ranges_loop] in E. injection E as <-. left. cbn [rfc_ranges]. repeat split; [unfold e; lia|lia].
      * cbn [ack_ranges_loop] in E. destruct (N.ltb_spec (e - r) (g2 + 1)); [discriminate|].
        assert (Her : e - r = 1) by lia. rewrite Her in E. assert (g2 = 0) by lia. subst g2.
        replace (1 - 0 - 1) with 0 in E by lia. destruct (N.ltb_spec 0 r2); [discriminate|]. assert (r2 = 0) by lia. subst r2.
        change (0 + 1 <? 0) with false in E. cbn [ack_ranges_loop] in E. change (0 - 0) with 0 in E.
        destruct rs as [|[g3 r3] rs]; cbn [ack_ranges_loop] in E.
        -- injection E as <-. right. exists [(g, r)], [], e. rewrite Her. cbn [app rfc_ranges]. repeat split; [unfold e; lia|lia].
        -- destruct (N.ltb_spec 0 (g3 + 1)); [discriminate|lia].
Qed.

Lemma decode_ack_frame_sound la fa rs out : decode_ack_frame la fa rs = Some out ->
  rfc_ack la fa rs out \/
  exists rs' out' e, rs = rs' ++ [(0, 0)] /\ out = out' ++ [(1, e); (0, 0)] /\ rfc_ack la fa rs' (out' ++ [(1, e)]).
Proof.
  unfold decode_ack_frame. destruct (N.ltb_spec la fa); [discriminate|].
  destruct rs as [|p rs].
  - intros X. injection X as <-. left. cbn. repeat split. lia.
  - destruct (N.ltb_spec la (fa + 1)); [discriminate|].
    destruct (ack_ranges_loop _ _) as [more|] eqn:E; [|discriminate]. intros X. injection X as <-.
    destruct (loop_sound _ (la - fa) _ ltac:(lia) E) as [H'|(rs' & out' & e' & Hrs & -> & H')].
    + left. cbn [rfc_ack]. repeat split; [lia|exact H'].
    + right. exists rs', ((la - fa, la) :: out'), e'. cbn [app rfc_ack]. repeat split; [exact Hrs|lia|exact H'].
Qed.

Lemma descending_weaken b b' l : b <= b' -> descending b l -> descending b' l.
Proof. intros H. destruct l as [|[s e] l]; cbn [descending]; [auto|]. intros (? & ? & ?). repeat split; auto. lia. Qed.

Lemma descending_rfc rs : forall prev out, rfc_ranges prev rs out -> descending prev out.
Proof.
  induction rs as [|[g r] rs IH]; intros prev out; destruct out as [|[s e] out]; cbn [rfc_ranges descending]; try contradiction; auto.
  intros (? & ? & ?). repeat split; [lia|lia|apply IH; assumption].
Qed.

Lemma descending_snoc out : forall b e, descending b (out ++ [(1, e)]) -> descending b (out ++ [(1, e); (0, 0)]).
Proof.
  induction out as [|[s x] out IH]; intros b e; cbn [app descending].
  - intros (? & ? & _). repeat split; auto; lia.
  - intros (? & ? & ?). repeat split; auto.
Qed.

Lemma rfc_ack_descending la fa rs out : rfc_ack la fa rs out -> descending (la + 1) out.
Proof.
  destruct out as [|[s e] out]; cbn [rfc_ack descending]; [contradiction|]. intros (-> & H & H').
  repeat split; [lia|lia|]. eapply descending_rfc; exact H'.
Qed.

Lemma ack_descending la fa rs out : decode_ack_frame la fa rs = Some out -> descending (la + 1) out.
Proof.
  intros H. apply decode_ack_frame_sound in H as [H|(rs' & out' & e & -> & -> & H)].
  - eapply rfc_ack_descending; exact H.
  - apply descending_snoc. eapply rfc_ack_descending; exact H.
Qed.

Lemma ack_round_trip lg sm rest delay ecn after :
  lg < 2 ^ 62 -> sm <= lg -> separated sm rest -> lenN rest < 32768 -> delay < 2 ^ 62 ->
  match ecn with Some (e0, e1, ce) => e0 < 2 ^ 62 /\ e1 < 2 ^ 62 /\ ce < 2 ^ 62 | None => True end ->
  exists l first gaps,
    ack_frame_bytes (lg, sm) rest delay ecn = Some l /\
    frame_decode (l ++ after) = FOk (FAck lg delay first gaps ecn) after /\
    decode_ack_frame lg first gaps = Some (map flip ((lg, sm) :: rest)).
Proof.
  intros H1 H2 H3 H4 H5 H6.
  assert (Hok : frame_ok (FAck lg delay (lg - sm) (ack_pairs sm rest) ecn)).
  { cbn [frame_ok]. unfold V62. repeat split; try lia.
    - unfold lenN in *. rewrite ack_pairs_len. exact H4.
    - apply ack_pairs_ok; [lia|assumption].
    - exact H6. }
  destruct (frame_ok_wire _ Hok) as [l Hl]. exists l, (lg - sm), (ack_pairs sm rest). split; [|split].
  - rewrite ack_frame_wire by assumption. exact Hl.
  - apply frame_wire_round_trip; [exact Hok|exact Hl|exact I].
  - apply decode_ack_frame_complete. cbn [rfc_ack map flip fst snd]. repeat split; [lia|]. apply rfc_of_pairs. exact H3.
Qed.

Lemma vi_len v l : fields_bytes [Vi v] = Some l -> lenN l <= 8.
Proof.
  cbn [fields_bytes field_bytes]. destruct (varint_bytes v) as [a|] eqn:E; [|discriminate]. intros X; apply some_inj in X; subst l.
  rewrite app_nil_r. destruct (varint_len_some v) as (k & Ek & ?); [eapply V62_of_bytes; exact E|].
  rewrite (varint_bytes_len _ _ E) in Ek. injection Ek as ->. lia.
Qed.
Lemma vis_len vs : forall l, fields_bytes (map Vi vs) = Some l -> lenN l <= 8 * lenN vs.
Proof.
  induction vs as [|v vs IH]; intros l.
  - cbn. intros X; apply some_inj in X; subst l. cbn. lia.
  - change (map Vi (v :: vs)) with ([Vi v] ++ map Vi vs). rewrite fields_app.
    destruct (fields_bytes [Vi v]) as [a|] eqn:Ea; [|discriminate]. destruct (fields_bytes (map Vi vs)) as [b|]; [|discriminate].
    intros X; apply some_inj in X; subst l. rewrite lenN_app, lenN_cons. pose proof (vi_len _ _ Ea). pose proof (IH _ eq_refl). lia.
Qed.

(** An ACK with fewer than 64 additional ranges. *)
Lemma ack_size first rest delay ecn l : lenN rest < 64 -> ack_frame_bytes first rest delay ecn = Some l ->
  lenN l <= 50 + 16 * lenN rest.
Proof.
  intros Hn. unfold ack_frame_bytes. destruct first as [lg sm]. destruct (lg <? sm); [discriminate|].
  destruct (ack_tail sm rest) as [tail|] eqn:Et; [|discriminate].
  assert (Hlt : lenN tail = 2 * lenN rest).
  { revert sm tail Et. clear. induction rest as [|[a b] rest IH]; intros sm tail; cbn [ack_tail].
    - intros X; injection X as <-. reflexivity.
    - destruct ((sm <? a + 2) || (a <? b)); [discriminate|]. destruct (ack_tail b rest) as [m|] eqn:E; [|discriminate].
      intros X; injection X as <-. rewrite !lenN_cons, (IH _ _ E). lia. }
  rewrite fbytes_fields.
  set (t := match ecn with Some _ => TAckEcn | None => TAck end).
  set (ecs := match ecn with Some (e0, e1, ce) => [e0; e1; ce] | None => [] end).
  assert (He : lenN ecs <= 3) by (unfold ecs; destruct ecn as [[[? ?] ?]|]; cbn; lia).
  change (map Vi (ftype_num t :: lg :: delay :: lenN rest :: lg - sm :: tail ++ ecs))
    with ([Vi (ftype_num t)] ++ map Vi [lg; delay] ++ [Vi (lenN rest)] ++ map Vi (lg - sm :: tail ++ ecs)).
  rewrite !fields_app.
  destruct (fields_bytes [Vi (ftype_num t)]) as [a|] eqn:Ea; [|discriminate].
  destruct (fields_bytes (map Vi [lg; delay])) as [b|] eqn:Eb; [|discriminate].
  destruct (fields_bytes [Vi (lenN rest)]) as [c|] eqn:Ec; [|discriminate].
  destruct (fields_bytes (map Vi (lg - sm :: tail ++ ecs))) as [d|] eqn:Ed; [|discriminate].
  intros X; apply some_inj in X; subst l. rewrite app_nil_r, !lenN_app.
  apply vis_len in Eb, Ed. rewrite lenN_cons, lenN_app in Ed. change (lenN [lg; delay]) with 2 in Eb.
  assert (lenN a = 1). { cbn [fields_bytes field_bytes] in Ea. unfold t in Ea. destruct ecn; apply some_inj in Ea; subst a; reflexivity. }
  assert (lenN c = 1). { cbn [fields_bytes field_bytes] in Ec. destruct (varint_bytes (lenN rest)) as [x|] eqn:Ex; [|discriminate].
    apply some_inj in Ec; subst c. rewrite app_nil_r. eapply one_byte; [|exact Ex]. exact Hn. }
  lia.
Qed.

Lemma control_frames rem w : frame_ok (wreq_frame w) ->
  exists l, frame_wire (wreq_frame w) = Some l /\
            run_wreq rem w = Some (if lenN l <=? rem then Some l else None) /\
            forall rest, frame_decode (l ++ rest) = FOk (wreq_frame w) rest.
Proof.
  intros H. destruct (run_wreq_spec rem w H) as (l & A & B). exists l. repeat split; auto.
  intros rest. apply frame_wire_round_trip; auto. destruct w; cbn; auto. destruct (reliable =? 0); exact I.
Qed.

Lemma close_too_long : exists rem code ft reason l,
  code < 2 ^ 62 /\ ft < 2 ^ 62 /\ bytes_ok reason /\
  wr_close rem true code ft reason = Some (Some l) /\ rem < lenN l.
Proof.
  exists 27, 0x128, 0, (repeat 65 26), ([28; 65; 40; 0; 26] ++ repeat 65 26).
  repeat split; try (vm_compute; reflexivity). apply Forall_forall. intros x Hx. apply repeat_spec in Hx. subst x. reflexivity.
Qed.

Lemma ack_minus_one : exists la fa rs out,
  decode_ack_frame la fa rs = Some out /\ forall out', ~ rfc_ack la fa rs out'.
Proof.
  exists 3, 0, [(0, 0); (0, 0)], [(3, 3); (1, 1); (0, 0)]. split; [vm_compute; reflexivity|].
  intros [|[s e] [|[s1 e1] [|[s2 e2] o]]]; cbn [rfc_ack rfc_ranges]; try tauto.
  intros (-> & H1 & H2 & H3 & H4 & _). lia.
Qed.

Lemma fields_head v fs l rest : fields_bytes (Vi v :: fs) = Some l -> exists r, rd_varint (l ++ rest) = Some (v, r).
Proof.
  cbn [fields_bytes field_bytes]. destruct (varint_bytes v) as [a|] eqn:E; [|discriminate].
  destruct (fields_bytes fs) as [b|]; [|discriminate]. intros X; apply some_inj in X; subst l.
  rewrite <- app_assoc, (rd_varint_encode _ _ _ E). eauto.
Qed.

(** The type a frame was parsed from. *)
Lemma get_type_wire f l rest : frame_ok f ->
  match f with FDatagram _ _ | FAck _ _ _ _ (Some _) | FPadding _ => False | _ => True end ->
  frame_wire f = Some l -> exists r, rd_varint (l ++ rest) = Some (ftype_num (get_type f), r).
Proof.
  intros Hok Hx Hw. unfold frame_wire in Hw.
  destruct f; try contradiction; try destruct bidi; try destruct transport; try (apply fields_head with (rest := rest) in Hw; exact Hw).
  - cbn [frame_fields get_type] in *. destruct ecn; [contradiction|]. cbn [app] in Hw. apply fields_head with (rest := rest) in Hw. exact Hw.
  - cbn [frame_fields get_type app] in *. apply fields_head with (rest := rest) in Hw as [r Hr]. exists r. rewrite Hr.
    unfold stream_type, ftype_num, b2n. do 2 f_equal.
    destruct (N.eqb_spec offset 0), (N.ltb_spec 0 offset); try lia; destruct fill, fin; reflexivity.
Qed.

Lemma get_type_datagram : exists l f rest, frame_decode l = FOk f rest /\ exists t r, rd_varint l = Some (t, r) /\ ftype_num (get_type f) <> t.
Proof. exists [49; 1; 9], (FDatagram [9] false), []. split; [reflexivity|]. exists 49, [1; 9]. split; [reflexivity|]. vm_compute. discriminate. Qed.
