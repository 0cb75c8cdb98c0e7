From Verif Require Import Base Lib CodecModel Reader CodecSpec CodecProofs FrameModel FrameSpec FrameProofs.

Lemma fields_total fs : Forall (fun f => exists l, field_bytes f = Some l) fs -> exists l, fields_bytes fs = Some l.
Proof.
  induction 1 as [|f fs [a Ha] _ [b Hb]]; cbn [fields_bytes]; [eauto|]. rewrite Ha, Hb. eauto.
Qed.
Lemma vi_total v : v < 2 ^ 62 -> exists l, field_bytes (Vi v) = Some l.
Proof. apply varint_bytes_some. Qed.
Lemma pre_total d : lenN d < 2 ^ 62 -> exists l, field_bytes (Pre d) = Some l.
Proof. intros H. cbn [field_bytes]. destruct (varint_bytes_some _ H) as [l ->]. eauto. Qed.

Lemma small62 : 2 ^ 60 <= 2 ^ 62. Proof. vm_compute; discriminate. Qed.
Ltac fieldt := first [ apply vi_total | apply pre_total | (cbn [field_bytes]; eexists; reflexivity) ];
  try (unfold V62 in *; first [assumption | reflexivity | lia]).
Lemma frame_ok_wire f : frame_ok f -> exists l, frame_wire f = Some l.
Proof.
  pose proof small62 as H60. unfold frame_wire. intros H. apply fields_total.
  destruct f; cbn [frame_fields frame_ok] in *; unfold V62 in *; repeat match goal with H : _ /\ _ |- _ => destruct H end.
  3: { rewrite !Forall_app. split; [|split].
       - destruct ecn; repeat (apply Forall_cons; [fieldt|]); apply Forall_nil.
       - match goal with H : Forall _ ranges |- _ => induction H as [|[g n] rs [Hg Hn] _ IH] end; [constructor|].
         cbn [flat_map fst snd app]. apply Forall_cons; [fieldt|]. apply Forall_cons; [fieldt|]. apply IH.
         rewrite lenN_cons in *. lia.
       - destruct ecn as [[[e0 e1] ce]|]; [|constructor]. repeat match goal with H : _ /\ _ |- _ => destruct H end.
         repeat (apply Forall_cons; [fieldt|]); apply Forall_nil. }
  8: { destruct (offset =? 0), fill, fin; cbn [app]; repeat (apply Forall_cons; [fieldt|]); apply Forall_nil. }
  21: { destruct fill; [|destruct H; [discriminate|]]; repeat (apply Forall_cons; [fieldt|]); apply Forall_nil. }
  all: try destruct bidi; try destruct transport; try (repeat (apply Forall_cons; [fieldt|]); apply Forall_nil).
Qed.

Lemma frames_round_trip_lemma f : frame_ok f ->
  exists l, frame_wire f = Some l /\ forall rest, may_follow f rest -> frame_decode (l ++ rest) = FOk f rest.
Proof. intros H. destruct (frame_ok_wire f H) as [l Hl]. exists l. split; [exact Hl|]. intros. apply frame_wire_round_trip; assumption. Qed.

(** ** Soundness of decoding *)
Definition suffix (l r : list N) := exists p, l = p ++ r.
Lemma suffix_refl l : suffix l l. Proof. exists []. reflexivity. Qed.
Lemma suffix_trans a b c : suffix a b -> suffix b c -> suffix a c.
Proof. intros [p ->] [q ->]. exists (p ++ q). rewrite app_assoc. reflexivity. Qed.

Definition good (l : list N) (x : fres) : Prop :=
  match x with FOk f r => frame_ok f /\ suffix l r | FErr _ => True end.

Lemma good_weaken l l' x : suffix l l' -> good l' x -> good l x.
Proof. unfold good. destruct x; [|auto]. intros H [Hf Hs]. split; [exact Hf|]. eapply suffix_trans; eauto. Qed.

Lemma rdv_varint_good l k : bytes_ok l ->
  (forall v r, v < 2 ^ 62 -> bytes_ok r -> suffix l r -> good r (k v r)) -> good l (rdv (rd_varint l) k).
Proof.
  intros Hok H. destruct (rd_varint l) as [[v r]|] eqn:E; [|exact I]. cbn [rdv].
  pose proof (rd_varint_bound _ _ _ Hok E) as Hb. destruct (rd_varint_suffix _ _ _ E) as (p & Hp & _).
  assert (S : suffix l r) by (exists p; exact Hp).
  eapply good_weaken; [exact S|]. apply H; [exact Hb| |exact S]. subst l. apply bytes_ok_app in Hok. tauto.
Qed.
Lemma rdv_bytes_good n l k : bytes_ok l ->
  (forall v r, lenN v = n -> bytes_ok v -> bytes_ok r -> good r (k v r)) -> good l (rdv (rd_bytes n l) k).
Proof.
  intros Hok H. destruct (rd_bytes n l) as [[v r]|] eqn:E; [|exact I]. cbn [rdv].
  apply rd_bytes_spec in E as [E1 E2]. subst l. apply bytes_ok_app in Hok as [? ?].
  eapply good_weaken; [exists v; reflexivity|]. auto.
Qed.
Lemma rdv_vvec_good l k : bytes_ok l ->
  (forall v r, lenN v < 2 ^ 62 -> bytes_ok v -> bytes_ok r -> good r (k v r)) -> good l (rdv (rd_vvec l) k).
Proof.
  intros Hok H. unfold rd_vvec. destruct (rd_varint l) as [[n r1]|] eqn:E; [|exact I].
  pose proof (rd_varint_bound _ _ _ Hok E) as Hb. destruct (rd_varint_suffix _ _ _ E) as (p & Hp & _).
  eapply good_weaken; [exists p; exact Hp|].
  apply rdv_bytes_good; [subst l; apply bytes_ok_app in Hok; tauto|]. intros v r Hv. apply H. lia.
Qed.
Lemma rdv_n_good n l k : bytes_ok l ->
  (forall v r, v < 256 ^ N.of_nat n -> bytes_ok r -> good r (k v r)) -> good l (rdv (rd_n n l) k).
Proof.
  intros Hok H. destruct (rd_n n l) as [[v r]|] eqn:E; [|exact I]. cbn [rdv].
  apply rd_n_spec in E as (h & E1 & E2 & E3). subst l v. apply bytes_ok_app in Hok as [Hh ?].
  eapply good_weaken; [exists h; reflexivity|]. apply H; [|assumption]. rewrite <- E2. rewrite pow256. rewrite <- pow256. apply be_val_bound. exact Hh.
Qed.
Lemma rdv_vec1_good l k : bytes_ok l ->
  (forall v r, lenN v < 256 -> bytes_ok v -> bytes_ok r -> good r (k v r)) -> good l (rdv (rd_vec 1 l) k).
Proof.
  intros Hok H. unfold rd_vec. destruct (rd_n 1 l) as [[n r1]|] eqn:E; [|exact I].
  apply rd_n_spec in E as (h & E1 & E2 & E3). subst l. apply bytes_ok_app in Hok as [Hh ?].
  eapply good_weaken; [exists h; reflexivity|]. apply rdv_bytes_good; [assumption|]. intros v r Hv. apply H. rewrite Hv, E3.
  change 256 with (256 ^ N.of_nat 1). rewrite <- E2. apply be_val_bound. exact Hh.
Qed.
Lemma rd_ack_ranges_good n : forall l rs r, bytes_ok l -> rd_ack_ranges n l = Some (rs, r) ->
  length rs = n /\ Forall (fun gr => V62 (fst gr) /\ V62 (snd gr)) rs /\ suffix l r /\ bytes_ok r.
Proof.
  induction n as [|n IH]; intros l rs r Hok; cbn [rd_ack_ranges].
  - intros H. injection H as <- <-. repeat split; auto. apply suffix_refl.
  - destruct (rd_varint l) as [[g l1]|] eqn:E1; [|discriminate].
    destruct (rd_varint l1) as [[x l2]|] eqn:E2; [|discriminate].
    destruct (rd_ack_ranges n l2) as [[rs' l3]|] eqn:E3; [|discriminate].
    intros H. injection H as <- <-.
    pose proof (rd_varint_bound _ _ _ Hok E1). destruct (rd_varint_suffix _ _ _ E1) as (p & -> & _).
    apply bytes_ok_app in Hok as [_ Hok].
    pose proof (rd_varint_bound _ _ _ Hok E2). destruct (rd_varint_suffix _ _ _ E2) as (q & -> & _).
    apply bytes_ok_app in Hok as [_ Hok].
    destruct (IH _ _ _ Hok E3) as (A & B & [s ->] & D). apply bytes_ok_app in Hok as [_ Hok].
    repeat split; cbn [length]; auto.
    exists (p ++ q ++ s). rewrite <- !app_assoc. reflexivity.
Qed.

Ltac gstep := first
  [ apply rdv_varint_good; [assumption|intros ? ? ? ? ?]
  | apply rdv_vvec_good; [assumption|intros ? ? ? ? ?]
  | apply rdv_vec1_good; [assumption|intros ? ? ? ? ?]
  | apply rdv_bytes_good; [assumption|intros ? ? ? ? ?]
  | apply rdv_n_good; [assumption|intros ? ? ? ?] ].
Ltac gend := split; [cbn [frame_ok]; unfold V62, MAX_VARINT in *; try lia | apply suffix_refl].

Lemma skipn_suffix k (l : list N) : suffix l (skipn k l).
Proof. exists (firstn k l). rewrite firstn_skipn. reflexivity. Qed.

Lemma decode_ack_good b l : bytes_ok l -> good l (decode_ack b l).
Proof.
  intros Hok. unfold decode_ack. gstep. gstep. gstep.
  match goal with |- context [?n <? MAX_ACK_RANGE_COUNT] => destruct (N.ltb_spec n MAX_ACK_RANGE_COUNT) as [Hn|]; [|exact I] end.
  gstep.
  match goal with |- good ?l (rdv (rd_ack_ranges ?n ?l) _) => destruct (rd_ack_ranges n l) as [[rs r']|] eqn:E; [|exact I] end.
  cbn [rdv]. apply rd_ack_ranges_good in E as (A & B & D & F); [|assumption].
  eapply good_weaken; [exact D|].
  assert (lenN rs < 32768). { unfold lenN. rewrite A. rewrite N2Nat.id. exact Hn. }
  destruct b.
  - gstep. gstep. gstep. gend. tauto.
  - gend. tauto.
Qed.

Lemma run_len_fix l : (run_len 0 l <= length l)%nat.
Proof. apply run_len_le. Qed.

Lemma decode_body_good t l : bytes_ok l -> good l (decode_body t l).
Proof.
  intros Hok. pose proof small62. destruct t; cbn [decode_body]; try (apply decode_ack_good; assumption).
  - destruct (N.ltb_spec (1 + N.of_nat (run_len 0 l)) (2 ^ 16)); [|exact I]. split; [cbn [frame_ok]; lia|]. apply skipn_suffix.
  - gend.
  - repeat gstep. gend.
  - repeat gstep. gend.
  - repeat gstep. match goal with |- context [?a <? ?b] => destruct (N.ltb_spec a b) end; [exact I|]. gend.
  - repeat gstep. match goal with |- context [?a =? ?b] => destruct (N.eqb_spec a b) end; [exact I|]. gend.
  - (* stream *)
    gstep.
    match goal with |- good ?l (rdv (if off then rd_varint ?l else _) ?k) => assert (G : forall o r', bytes_ok r' -> suffix l r' -> good r' (k o r')) end.
    { intros o r' Hr' Hs. destruct len.
      - gstep. match goal with |- context [?a <? ?b] => destruct (N.ltb_spec a b) end; [exact I|]. gend.
      - cbn [rdv]. match goal with |- context [?a <? ?b] => destruct (N.ltb_spec a b) end; [exact I|].
        split; [cbn [frame_ok]; unfold V62, MAX_VARINT in *; lia|]. exists r'. rewrite app_nil_r. reflexivity. }
    destruct off.
    + apply rdv_varint_good; [assumption|]. intros. apply G; assumption.
    + cbn [rdv]. apply G; [assumption|apply suffix_refl].
  - gstep. gend.
  - repeat gstep. gend.
  - repeat gstep. match goal with |- context [?a <? ?b] => destruct (N.ltb_spec a b) end; [exact I|]. gend.
  - repeat gstep. match goal with |- context [?a <? ?b] => destruct (N.ltb_spec a b) end; [exact I|]. gend.
  - gstep. gend.
  - repeat gstep. gend.
  - repeat gstep. match goal with |- context [?a <? ?b] => destruct (N.ltb_spec a b) end; [exact I|]. gend.
  - repeat gstep. match goal with |- context [?a <? ?b] => destruct (N.ltb_spec a b) end; [exact I|]. gend.
  - repeat gstep. match goal with |- context [?a <? ?b] => destruct (N.ltb_spec a b) end; [exact I|]. gstep.
    destruct (N.eqb_spec (lenN v1) 0); [exact I|]. unfold CID_MAX_LEN. destruct (N.ltb_spec 20 (lenN v1)); [exact I|]. cbn [orb].
    gstep. gend. unfold SRT_LEN in *. lia.
  - gstep. gend.
  - gstep. gend.
  - gstep. gend.
  - repeat gstep. gend.
  - repeat gstep. gend.
  - gend.
  - repeat gstep. match goal with |- context [?a <? ?b] => destruct (N.ltb_spec a b) end; [exact I|]. gend.
  - repeat gstep. match goal with |- context [?a =? ?b] => destruct (N.eqb_spec a b) end; [exact I|]. repeat gstep.
    destruct (N.eqb_spec v2 0); [gend|]. destruct (N.eqb_spec v2 1); [gend|exact I].
  - split; [cbn [frame_ok]; auto|]. exists l. rewrite app_nil_r. reflexivity.
  - repeat gstep. gend.
Qed.

Lemma frame_decode_sound_lemma l f rest : bytes_ok l -> frame_decode l = FOk f rest ->
  frame_ok f /\ (exists used, l = used ++ rest /\ used <> []) /\
  exists t r, rd_varint l = Some (t, r) /\ varint_len t = Some (lenN l - lenN r).
Proof.
  intros Hok H. unfold frame_decode in H.
  destruct (rd_varint l) as [[t r]|] eqn:E; [|discriminate]. cbn [rdv] in H.
  destruct (varint_len t) as [n|] eqn:En; [|discriminate].
  destruct (N.eqb_spec n (lenN l - lenN r)) as [Hn|]; [|discriminate].
  destruct (ftype_from t) as [ft|]; [|discriminate].
  destruct (rd_varint_suffix _ _ _ E) as (p & Hp & Hlp).
  assert (Hr : bytes_ok r) by (subst l; apply bytes_ok_app in Hok; tauto).
  pose proof (decode_body_good ft r Hr) as G. rewrite H in G. destruct G as [G1 [q Hq]].
  split; [exact G1|]. split.
  - exists (p ++ q). rewrite Hp, Hq. split; [rewrite app_assoc; reflexivity|].
    intros X. apply app_eq_nil in X as [X _]. subst p.
    assert (varint_need l = 0)%nat by (rewrite <- Hlp; reflexivity).
    destruct l as [|b l']; [discriminate|]. cbn [varint_need] in *. destruct (b <? 64), (b <? 128), (b <? 192); discriminate.
  - exists t, r. rewrite <- Hn. auto.
Qed.

Lemma nonminimal_refused_lemma l t r : rd_varint l = Some (t, r) -> varint_len t <> Some (lenN l - lenN r) ->
  frame_decode l = FErr ProtocolViolation.
Proof.
  intros E H. unfold frame_decode. rewrite E. cbn [rdv]. destruct (varint_len t) as [n|]; [|reflexivity].
  destruct (N.eqb_spec n (lenN l - lenN r)); [congruence|reflexivity].
Qed.
