(** A QPACK encoder and a decoder joined: every step keeps the invariant. *)
From Verif Require Import Base Lib QpTables QiModel QiSpec QiProofs QiProofs2 QbModel QbSpec QbProofs QbProofs2 QeModel QeProofs QeProofs2 QeProofs3 QjModel QjProofs.
From Coq Require Import Permutation.
Open Scope N_scope.
Open Scope list_scope.
Import ListNotations.

(** *** Header blocks in flight, each with the entries it refers to *)
Definition flight := (N * list N * list header * list N)%type.
Definition bare (q : flight) : N * list N * list header := fst q.
Definition fl1 (s : N) (q : flight) : list (list N) := if fst (fst (fst q)) =? s then match snd q with [] => [] | r => [r] end else [].
Definition fl (s : N) (Q : list flight) : list (list N) := flat_map (fl1 s) Q.
Lemma fl_app : forall s A B, fl s (A ++ B) = fl s A ++ fl s B. Proof. intros. apply flat_map_app. Qed.
Lemma first_split : forall s Q b h, first_block s (map bare Q) = Some (b, h) -> exists Q1 r Q2, Q = Q1 ++ (s, b, h, r) :: Q2 /\ fl s Q1 = [] /\ drop_block s (map bare Q) = map bare (Q1 ++ Q2).
Proof.
  intros s. induction Q as [|(((x, b0), h0), r0) Q IH]; intros b h E; cbn [map first_block drop_block bare fst] in *; [discriminate|]. destruct (N.eqb_spec x s) as [->|NE].
  - inversion E. subst. exists [], r0, Q. splits; auto.
  - destruct (IH b h E) as (Q1 & r & Q2 & -> & F & D). exists ((x, b0, h0, r0) :: Q1), r, Q2. splits; auto.
    + cbn [fl flat_map]. unfold fl1 at 1. cbn [fst snd]. destruct (N.eqb_spec x s); [congruence|]. exact F.
    + rewrite D. auto.
Qed.
Definition block_ok (H : list header) (huff : bool) (M : N) (q : flight) : Prop :=
  match q with (s, b, h, r) => bfacts H huff M h r b /\ Forall (h_fits huff) h /\ total_size h <= MAX_LEN /\ s < 2 ^ 62 end.
Lemma bfacts_ext : forall H X huff M h r b, bfacts H huff M h r b -> bfacts (H ++ X) huff M h r b.
Proof. intros H X huff M h r b (fs & w & m & base & A1 & A2 & A3). exists fs, w, m, base. split; [rewrite lenN_app; lia|]. split; auto. apply f2_ext. auto. Qed.
Lemma bfacts_none : forall H huff M M' h b, bfacts H huff M h [] b -> bfacts H huff M' h [] b.
Proof.
  intros H huff M M' h b (fs & w & m & base & A1 & A2 & A3 & A4 & A5 & A6 & A7). exists fs, w, m, base. splits; auto. destruct m as [x|]; [|exact A6]. exfalso. destruct A5 as ((f & F1 & F2) & _). destruct (proj2 (A7 x)) . eauto.
Qed.

Record jinv (huff : bool) (S B k : N) (Hd : list header) (pend : list einstr) (G : list ghost) (rest : N -> list (list N)) (Q : list flight) (j : joint) : Prop := mkJi {
  ji_e : einv (Hd ++ inserts pend) [] (j_enc j);
  ji_k : lenN (Hd ++ inserts pend) <= k;
  ji_conf : n_huff (j_enc j) = huff /\ S <= n_max_table (j_enc j) /\ d_max_table (j_dec j) = S /\ d_max_entries (j_dec j) = S / 32 /\ d_maxb (j_dec j) = B /\ n_maxb (j_enc j) <= B;
  ji_cap : (t_cap (n_table (j_enc j)) = 0 \/ t_cap (n_table (j_enc j)) = S) /\ (n_next (j_enc j) = None \/ n_next (j_enc j) = Some S);
  ji_td : t_ok Hd (d_table (j_dec j)) /\ t_base (d_table (j_dec j)) = lenN Hd /\ free (d_table (j_dec j));
  ji_down : e_feed (d_reader (j_dec j)) (j_down j) = (pend, SInstr, FOk) /\ caps_ok S pend;
  ji_mir : exists td', t_exec_all (d_table (j_dec j)) pend = Good td' /\ same (n_table (j_enc j)) td' /\ free td';
  ji_up : d_feed (n_reader (j_enc j)) (j_up j ++ d_out (j_dec j)) = (map erase G, DInstr, FOk) /\ bytes_ok (j_up j ++ d_out (j_dec j)) /\ Forall gfit G;
  ji_chain : chain (t_acked (n_table (j_enc j))) G = d_acked (j_dec j) /\ d_acked (j_dec j) <= t_base (d_table (j_dec j));
  ji_can : nocan G /\ forall s, In (KCancel s) G -> In s (j_dead j) /\ ~ In s (map fst (d_blocked (j_dec j)));
  ji_U : forall s, U (n_unacked (j_enc j)) s = acks s G ++ rest s;
  ji_rest : forall s, ~ In s (j_dead j) -> rest s = fl s Q;
  ji_Q : j_blocks j = map bare Q /\ Forall (block_ok (Hd ++ inserts pend) huff (S / 32)) Q;
  ji_bl : NoDup (map fst (d_blocked (j_dec j))) /\ forall s r, In (s, r) (d_blocked (j_dec j)) -> t_base (d_table (j_dec j)) < r /\ exists b, In b (rest s) /\ In (r - 1) b }.
Ltac dji V := destruct V as [je jk (jc1 & jc2 & jc3 & jc4 & jc5 & jc6) (jp1 & jp2) (jt1 & jt2 & jt3) (jd1 & jd2) jm (ju1 & ju2 & ju3) (jh1 & jh2) (jn1 & jn2) jU jr (jq1 & jq2) (jb1 & jb2)].
Section Joint.
Variables (huff : bool) (S B : N).
Hypotheses (S30 : S < 2 ^ 30) (B16 : B < 65536).
Definition good (k : N) (j : joint) : Prop := exists Hd pend G rest Q, jinv huff S B k Hd pend G rest Q j.

Lemma same_oldest : forall a b, same a b -> oldest a = oldest b.
Proof. intros a b (A & _ & _ & D). unfold oldest. rewrite D, (map_strip_len _ _ A). auto. Qed.
(** The decoder's table is behind the encoder's. *)
Lemma behind : forall k Hd pend G rest Q j, jinv huff S B k Hd pend G rest Q j -> oldest (d_table (j_dec j)) <= oldest (n_table (j_enc j)) /\ t_base (d_table (j_dec j)) <= t_base (n_table (j_enc j)) /\
  t_base (n_table (j_enc j)) <= oldest (n_table (j_enc j)) + S / 32 /\ oldest (n_table (j_enc j)) <= d_acked (j_dec j) /\ t_acked (n_table (j_enc j)) <= d_acked (j_dec j).
Proof.
  intros k Hd pend G rest Q j V. dji V. destruct jm as (td' & E & SM & F). destruct (exec_keep pend Hd _ _ jt1 jt2 E) as (P1 & P2 & P3 & P4 & _). rewrite (same_oldest _ _ SM). pose proof (chain_mono G (t_acked (n_table (j_enc j)))) as CM. pose proof (ev_old _ _ _ je) as EO. rewrite (same_oldest _ _ SM) in EO.
  splits; try lia.
  - rewrite (ev_base _ _ _ je), jt2, lenN_app. lia.
  - rewrite <- (same_oldest _ _ SM). unfold oldest. destruct (ev_t _ _ _ je) as (W & U1 & U2 & U3). pose proof (win_len _ _ _ W). pose proof (sizes_min (t_dyn (n_table (j_enc j)))) as SZ.
    assert (lenN (t_dyn (n_table (j_enc j))) <= S / 32); [|lia]. apply N.div_le_lower_bound; [lia|]. destruct jp1 as [Z|Z]; rewrite Z in U2; lia.
Qed.
Lemma settings_step : forall k j, good k j -> exists j', jstep j JSettings = Good (j', JNone) /\ good k j'.
Proof.
  intros k j (Hd & pend & G & rest & Q & V). dji V. cbn [jstep]. unfold set_max_capacity, set_max_blocked. rewrite jc3, jc5. destruct (N.ltb_spec (2 ^ 30 - 1) S); [exfalso; lia|].
  assert (X : exists e1, (if S =? t_cap (n_table (j_enc j)) then Good (j_enc j) else Good (with_next (Some (N.min (n_max_table (j_enc j)) S)) (j_enc j))) = Good e1 /\ exists nx, e1 = with_next nx (j_enc j) /\ (nx = None \/ nx = Some S)).
  { destruct (N.eqb_spec S (t_cap (n_table (j_enc j)))); eexists; (split; [reflexivity|]); [exists (n_next (j_enc j)); split; auto; destruct (j_enc j); reflexivity|]. eexists. split; [reflexivity|]. right. rewrite N.min_r by auto. auto. }
  destruct X as (e1 & -> & nx & -> & NX). cbn [rbind]. destruct (N.leb_spec 65536 B); [lia|]. cbn [rbind]. eexists. split; [reflexivity|]. exists Hd, pend, G, rest, Q.
  constructor; cbn [with_next with_maxb j_enc j_dec j_down j_up j_blocks j_dead n_table n_max_table n_max_entries n_reader n_local n_maxb n_maxt n_unacked n_cnt n_huff n_next]; auto; try (splits; auto; lia).
  dev je. constructor; cbn [with_next with_maxb n_table n_max_table n_max_entries n_reader n_local n_maxb n_maxt n_unacked n_cnt n_huff n_next]; auto; try lia. intros c C. destruct NX; subst nx; [discriminate | apply some_inj in C; subst; auto].
Qed.
Lemma open_enc_step : forall k j, good k j -> exists j', jstep j JOpenEncoder = Good (j', JNone) /\ good k j'.
Proof.
  intros k j (Hd & pend & G & rest & Q & V). cbn [jstep]. unfold add_send_stream. destruct (n_local (j_enc j)) eqn:NL; cbn [rbind]; eexists; (split; [reflexivity|]); exists Hd, pend, G, rest, Q; auto.
  dji V. constructor; cbn [with_local j_enc j_dec j_down j_up j_blocks j_dead n_table n_max_table n_max_entries n_reader n_local n_maxb n_maxt n_unacked n_cnt n_huff n_next]; auto 10. apply set_next_ev. auto.
Qed.
Lemma open_dec_step : forall k j, good k j -> exists j', jstep j JOpenDecoder = Good (j', JNone) /\ good k j'.
Proof.
  intros k j (Hd & pend & G & rest & Q & V). cbn [jstep]. unfold dec_add_stream. destruct (d_local (j_dec j)) eqn:NL; cbn [rbind]; eexists; (split; [reflexivity|]); exists Hd, pend, G, rest, Q; auto.
  dji V. constructor; cbn [j_enc j_dec j_down j_up j_blocks j_dead d_reader d_table d_acked d_max_entries d_out d_local d_max_table d_maxb d_blocked]; auto 10.
Qed.
Lemma updates_step : forall k j sends, good k j -> k < 2 ^ 62 -> exists j', jstep j (JUpdates sends) = Good (j', JNone) /\ good k j'.
Proof.
  intros k j sends (Hd & pend & G & rest & Q & V) KB. dji V. cbn [jstep].
  destruct (send_updates_spec (Hd ++ inserts pend) S (j_enc j) (sends, []) je) as (e1 & x1 & ok & l1 & -> & V1 & EF & _ & _ & W1 & I1 & M1 & CO1 & D1 & NX1); [change (2 ^ 63) with (2 * 2 ^ 62); lia | intros c C; destruct jp2 as [Z|Z]; rewrite Z in C; [discriminate | apply some_inj in C; lia]|].
  cbn [rbind]. eexists. split; [reflexivity|]. destruct W1 as (w & W1 & W2 & W3 & W4). cbn [snd List.app] in W2. pose proof EF as (E1 & E2 & E3 & E4 & E5 & E6 & E7 & E8).
  exists Hd, (pend ++ l1), G, rest, Q. assert (HH : Hd ++ inserts (pend ++ l1) = Hd ++ inserts pend) by (rewrite inserts_app, I1, app_nil_r; auto).
  constructor; cbn [j_enc j_dec j_down j_up j_blocks j_dead]; rewrite ?HH, ?E5, ?E6, ?E8; auto.
  - rewrite E4, E1, E2. auto 10.
  - split.
    + destruct D1 as [(D1 & _)|(D1 & D2)]; [rewrite D1; auto|]. destruct jp2 as [Z|Z]; rewrite Z in D2; [discriminate | apply some_inj in D2; auto].
    + destruct NX1 as [Z|Z]; rewrite Z; auto.
  - split; [|apply Forall_app; auto]. rewrite W2. eapply e_feed_snoc; eauto.
  - destruct jm as (td' & E & SM & F). destruct (M1 td' SM F) as (t2 & E' & S2 & F2). exists t2. rewrite t_exec_app, E. cbn [rbind]. auto.
Qed.
Lemma encode_step : forall k j s l sends, good k j -> k + lenN l < 2 ^ 62 -> Forall (h_fits huff) l -> total_size l <= MAX_LEN -> s < 2 ^ 62 -> exists j', jstep j (JEncode s l sends) = Good (j', JNone) /\ good (k + lenN l) j'.
Proof.
  intros k j s l sends (Hd & pend & G & rest & Q & V) KB FT TS SB. dji V. cbn [jstep].
  destruct (encode_spec (Hd ++ inserts pend) S (j_enc j) (sends, []) l s je) as (e1 & x1 & b & l1 & ins & refs & -> & V1 & LI & W1 & I1 & M1 & CO1 & (E1 & E2 & E3 & E4 & E5 & E8) & BF & UU & D1 & NX1).
  { rewrite jc1. auto. } { lia. } { intros c C; destruct jp2 as [Z|Z]; rewrite Z in C; [discriminate | apply some_inj in C; lia]. }
  cbn [rbind]. eexists. split; [reflexivity|]. destruct W1 as (w & W1 & W2 & W3 & W4). cbn [snd List.app] in W2.
  assert (HH : Hd ++ inserts (pend ++ l1) = (Hd ++ inserts pend) ++ ins) by (rewrite inserts_app, I1, app_assoc; auto).
  assert (CP : t_cap (n_table e1) = 0 \/ t_cap (n_table e1) = S). { destruct D1 as [D1|(D1 & D2)]; [rewrite D1; auto|]. destruct jp2 as [Z|Z]; rewrite Z in D2; [discriminate | apply some_inj in D2; auto]. }
  assert (BM : bfacts ((Hd ++ inserts pend) ++ ins) huff (S / 32) l refs b).
  { rewrite <- jc1. destruct refs as [|i r]; [eapply bfacts_none; eauto|]. assert (In (i :: r) ([] ++ ublocks (n_unacked e1))) as IU.
    { specialize (UU s). rewrite N.eqb_refl in UU. unfold U at 1 in UU. destruct (ub_get s (n_unacked e1)) as [c|] eqn:GT; [|symmetry in UU; apply app_eq_nil in UU; destruct UU; discriminate]. cbn [List.app]. eapply in_ublocks; [apply ub_get_in; eauto|]. apply in_rev. rewrite UU. apply in_or_app. right. left. auto. }
    destruct (pres_cap _ _ _ i (i :: r) V1 IU) as (C32 & _); [left; auto|]. assert (n_max_entries e1 = S / 32) as <-; auto. rewrite (ev_ent _ _ _ V1). destruct CP as [Z|Z]; [lia | rewrite Z; auto]. }
  exists Hd, (pend ++ l1), G, (fun x => if x =? s then rest x ++ match refs with [] => [] | _ => [refs] end else rest x), (Q ++ [(s, b, l, refs)]).
  constructor; cbn [j_enc j_dec j_down j_up j_blocks j_dead]; rewrite ?HH, ?E5, ?E8; auto.
  - rewrite lenN_app. lia.
  - rewrite E4, E1, E2. auto 10.
  - split; auto. destruct NX1 as [Z|Z]; rewrite Z; auto.
  - split; [|apply Forall_app; auto]. rewrite W2. eapply e_feed_snoc; eauto.
  - destruct jm as (td' & E & SM & F). destruct (M1 td' SM F) as (t2 & E' & S2 & F2). exists t2. rewrite t_exec_app, E. cbn [rbind]. auto.
  - intros x. rewrite UU, jU. destruct (x =? s); auto. rewrite app_assoc. auto.
  - intros x NI. rewrite fl_app. cbn [fl flat_map]. unfold fl1. cbn [fst snd]. rewrite (jr x NI), app_nil_r, (N.eqb_sym s x). destruct (x =? s); rewrite ?app_nil_r; auto. destruct refs; auto.
  - split; [rewrite map_app, jq1; auto|]. apply Forall_app. split.
    + eapply Forall_impl; [|exact jq2]. intros (((x, b0), h0), r0) (P1 & P2). split; auto. apply bfacts_ext. auto.
    + constructor; [|constructor]. cbn [block_ok]. auto.
  - split; auto. intros x r I. destruct (jb2 x r I) as (P1 & c & P2 & P3). split; auto. exists c. split; auto. destruct (x =? s); auto. apply in_or_app. auto.
Qed.
Lemma down_step : forall k j n, good k j -> exists j', jstep j (JDown n) = Good (j', JNone) /\ good k j'.
Proof.
  intros k j n (Hd & pend & G & rest & Q & V). dji V. cbn [jstep]. unfold dec_receive. rewrite <- (firstn_skipn n (j_down j)) in jd1. destruct (e_feed_cut _ _ _ _ jd1) as (l1 & s1 & l2 & E1 & E2 & ->). rewrite E1.
  destruct jm as (td' & E & SM & F). rewrite t_exec_app in E. destruct (t_exec_all (d_table (j_dec j)) l1) as [t1| |] eqn:X1; cbn [rbind] in E; try discriminate. apply Forall_app in jd2. destruct jd2 as (C1 & C2).
  set (d0 := mkD s1 _ _ _ _ _ _ _ _). rewrite (execute_ok S l1 d0 t1); auto. cbn [rbind]. rewrite inserts_app, app_assoc in *.
  destruct (exec_keep l1 Hd _ _ jt1 jt2 X1) as (P1 & P2 & P3 & P4 & P5).
  assert (BB : t_base (d_table (j_dec j)) <= t_base t1) by (rewrite jt2, P2, lenN_app; lia).
  assert (FR : free t1) by (destruct jt3; split; auto; congruence).
  assert (QQ : forall bl, (forall x r, In (x, r) bl -> In (x, r) (d_blocked (j_dec j)) /\ t_base t1 < r) -> NoDup (map fst bl) -> good k (mkJ (j_enc j) (mkD s1 t1 (d_acked (j_dec j)) (d_max_entries (j_dec j)) (d_out (j_dec j)) (d_local (j_dec j)) (d_max_table (j_dec j)) (d_maxb (j_dec j)) bl) (skipn n (j_down j)) (j_up j) (j_blocks j) (j_dead j))).
  { intros bl B1 B2. exists (Hd ++ inserts l1), l2, G, rest, Q. constructor; cbn [j_enc j_dec j_down j_up j_blocks j_dead d_reader d_table d_acked d_max_entries d_out d_local d_max_table d_maxb d_blocked]; auto 10.
    - eauto.
    - split; auto. lia.
    - split; auto. intros s I. destruct (jn2 s I) as (A1 & A2). split; auto. intros I2. apply A2. apply in_map_iff in I2. destruct I2 as ((x, r) & <- & I2). apply in_map_iff. exists (x, r). split; auto. apply (B1 x r I2).
    - split; auto. intros s r I. destruct (B1 s r I) as (I1 & I2). split; auto. apply (jb2 s r I1). }
  cbn [dwith_table d_reader d_table d_acked d_max_entries d_out d_local d_max_table d_maxb d_blocked d0]. destruct (N.eqb_spec (t_base (d_table (j_dec j))) (t_base t1)) as [EB|NB]; cbn [rbind]; eexists; (split; [reflexivity|]); apply QQ.
  - intros x r I. split; auto. rewrite <- EB. apply (jb2 x r I).
  - auto.
  - intros x r I. apply filter_In in I. destruct I as (I1 & I2). split; auto. cbn [snd] in I2. apply negb_true_iff, N.leb_gt in I2. auto.
  - clear - jb1. induction (d_blocked (j_dec j)) as [|p l IH]; cbn [filter map]; [constructor|]. cbn [map] in jb1. inversion jb1 as [|? ? A1 A2]. subst. destruct (negb (snd p <=? t_base t1)); cbn [map]; auto. constructor; auto. intros I. apply A1. apply in_map_iff in I. destruct I as (q & <- & I). apply filter_In in I. apply in_map. apply I.
Qed.
Lemma send_jinv : forall k Hd pend G rest Q j n, jinv huff S B k Hd pend G rest Q j -> k < 2 ^ 62 -> exists j', jstep j (JSend n) = Good (j', JNone) /\ exists G', jinv huff S B k Hd pend (G ++ G') rest Q j'.
Proof.
  intros k Hd pend G rest Q j n V KB. dji V. cbn [jstep]. unfold dec_send. destruct (N.ltb_spec (t_base (d_table (j_dec j))) (d_acked (j_dec j))); [lia|]. cbn [rbind].
  set (m := if d_local (j_dec j) then n else O). eexists. split; [reflexivity|]. set (kk := t_base (d_table (j_dec j)) - d_acked (j_dec j)).
  set (out := if 0 <? kk then d_out (j_dec j) ++ d_marshal (DIncrement kk) else d_out (j_dec j)).
  assert (JJ : (j_up j ++ firstn m out) ++ skipn m out = j_up j ++ out) by (rewrite <- app_assoc, firstn_skipn; auto).
  exists (if 0 <? kk then [KInc kk] else []). assert (TB : t_base (d_table (j_dec j)) <= k) by (rewrite jt2; rewrite lenN_app in jk; lia).
  constructor; cbn [j_enc j_dec j_down j_up j_blocks j_dead d_reader d_table d_acked d_max_entries d_out d_local d_max_table d_maxb d_blocked]; auto 10; rewrite ?JJ.
  - unfold out. destruct (N.ltb_spec 0 kk); rewrite ?app_nil_r; auto. rewrite app_assoc, map_app. cbn [map erase]. splits.
    + apply d_feed_snoc; auto. cbn. change (2 ^ 64) with (4 * 2 ^ 62). lia.
    + apply bytes_ok_app. split; auto. apply marshal_bytes.
    + apply Forall_app. split; auto.
  - destruct (N.ltb_spec 0 kk); rewrite ?app_nil_r; auto. rewrite chain_app, jh1. cbn [chain]. unfold kk. split; lia.
  - destruct (0 <? kk); rewrite ?app_nil_r; auto. split; [apply nocan_snoc; auto; intros; discriminate|]. intros s I. apply in_app_or in I. destruct I as [I|[I|[]]]; [auto | discriminate].
  - intros s. rewrite acks_app. destruct (0 <? kk); cbn [acks]; rewrite app_nil_r; auto.
Qed.
Lemma send_step : forall k j n, good k j -> k < 2 ^ 62 -> exists j', jstep j (JSend n) = Good (j', JNone) /\ good k j'.
Proof. intros k j n (Hd & pend & G & rest & Q & V) KB. destruct (send_jinv k Hd pend G rest Q j n V KB) as (j' & E & G' & V'). exists j'. split; auto. unfold good. eauto 10. Qed.
Lemma cancel_jinv : forall k j s, good k j -> s < 2 ^ 62 -> exists j', jstep j (JCancel s) = Good (j', JNone) /\ exists Hd pend G rest Q, jinv huff S B k Hd pend G rest Q j' /\ (0 < t_cap (d_table (j_dec j)) -> In (KCancel s) G).
Proof.
  intros k j s (Hd & pend & G & rest & Q & V) SB. dji V. cbn [jstep]. unfold cancel_stream. eexists. split; [reflexivity|]. destruct (N.ltb_spec 0 (t_cap (d_table (j_dec j)))).
  - exists Hd, pend, (G ++ [KCancel s]), rest, Q. split; [|intros; apply in_or_app; right; left; auto]. constructor; cbn [j_enc j_dec j_down j_up j_blocks j_dead d_reader d_table d_acked d_max_entries d_out d_local d_max_table d_maxb d_blocked]; auto 10.
    + rewrite app_assoc, map_app. cbn [map erase]. splits.
      * apply d_feed_snoc; auto. cbn. change (2 ^ 64) with (4 * 2 ^ 62). lia.
      * apply bytes_ok_app. split; auto. apply marshal_bytes.
      * apply Forall_app. split; auto. constructor; auto. exact Logic.I.
    + rewrite chain_app, jh1. cbn [chain]. auto.
    + split; [apply nocan_snoc; auto; intros; discriminate|]. intros x I.
      assert (IN : forall y, In y (map fst (filter (fun p => negb (fst p =? s)) (d_blocked (j_dec j)))) -> In y (map fst (d_blocked (j_dec j))) /\ y <> s).
      { intros y Y. apply in_map_iff in Y. destruct Y as (p & <- & Y). apply filter_In in Y. destruct Y as (Y1 & Y2). split; [apply in_map; auto|]. apply negb_true_iff, N.eqb_neq in Y2. auto. }
      apply in_app_or in I. destruct I as [I|[I|[]]].
      * destruct (jn2 x I) as (A1 & A2). split; [right; auto|]. intros Y. apply A2. apply (IN x Y).
      * injection I as ->. split; [left; auto|]. intros Y. apply (IN x Y). auto.
    + intros x. rewrite acks_app. cbn [acks]. rewrite app_nil_r. auto.
    + intros x NI. apply jr. intros I. apply NI. right. auto.
    + split.
      * clear - jb1. induction (d_blocked (j_dec j)) as [|p l IH]; cbn [filter map]; [constructor|]. cbn [map] in jb1. inversion jb1 as [|? ? A1 A2]. subst. destruct (negb (fst p =? s)); cbn [map]; auto. constructor; auto. intros I. apply A1. apply in_map_iff in I. destruct I as (q & <- & I). apply filter_In in I. apply in_map. apply I.
      * intros x r I. apply filter_In in I. destruct I as (I & _). apply (jb2 x r I).
  - exists Hd, pend, G, rest, Q. split; [|lia]. constructor; cbn [j_enc j_dec j_down j_up j_blocks j_dead]; auto 10.
    + split; auto. intros x I. destruct (jn2 x I). split; auto. right. auto.
    + intros x NI. apply jr. intros I. apply NI. right. auto.
Qed.
Lemma cancel_step : forall k j s, good k j -> s < 2 ^ 62 -> exists j', jstep j (JCancel s) = Good (j', JNone) /\ good k j'.
Proof. intros k j s GD SB. destruct (cancel_jinv k j s GD SB) as (j' & E & Hd & pend & G & rest & Q & V & _). exists j'. split; auto. unfold good. eauto 10. Qed.
Lemma up_step : forall k j n, good k j -> k < 2 ^ 62 -> exists j', jstep j (JUp n) = Good (j', JNone) /\ good k j'.
Proof.
  intros k j n (Hd & pend & G & rest & Q & V) KB. pose proof V as V0. dji V. cbn [jstep]. unfold enc_receive. rewrite <- (firstn_skipn n (j_up j)), <- app_assoc in ju1, ju2. destruct (d_feed_cut _ _ _ _ ju1) as (l1 & s1 & l2 & E1 & E2 & EL). rewrite E1.
  apply map_eq_app in EL. destruct EL as (G1 & G2 & -> & <- & <-). apply bytes_ok_app in ju2. destruct ju2 as (Y1 & Y2). apply Forall_app in ju3. destruct ju3 as (F1 & F2).
  pose proof (d_feed_ok (length (firstn n (j_up j))) _ _ ltac:(auto) (ev_reader _ _ _ je) Y1) as DO. rewrite E1 in DO. destruct DO as (DO & _).
  assert (VR : einv (Hd ++ inserts pend) [] (with_reader s1 (j_enc j))) by (dev je; constructor; auto).
  destruct (call_ghosts (Hd ++ inserts pend) G1 G2 (with_reader s1 (j_enc j)) rest VR) as (e' & -> & V' & (K1 & K2 & K3 & K4 & K5 & K6 & K7 & K8) & TL & CH & UU); auto; [change (2 ^ 63) with (2 * 2 ^ 62); lia | cbn [with_reader n_table]; rewrite jh1, lenN_app; lia|].
  cbn [with_reader n_table n_max_table n_max_entries n_local n_maxb n_maxt n_huff n_next n_reader] in *. cbn [rbind]. eexists. split; [reflexivity|]. pose proof TL as (L1 & L2 & L3 & L4).
  exists Hd, pend, G2, (cut G1 rest), Q. constructor; cbn [j_enc j_dec j_down j_up j_blocks j_dead]; rewrite ?K8, ?L2; auto.
  - rewrite K6, K1, K4. auto 10.
  - rewrite K7. auto.
  - destruct jm as (td' & E & SM & F). exists td'. splits; auto; try apply F. destruct SM as (M1 & M2 & M3 & M4). unfold same. rewrite L1, L2, L3, L4. auto.
  - rewrite CH. auto.
  - split; [eapply nocan_suffix; eauto|]. intros s I. apply jn2. apply in_or_app. auto.
  - intros s NI. rewrite <- (jr s NI). unfold cut. destruct (existsb _ G1) eqn:X; auto. exfalso. apply NI. apply existsb_exists in X. destruct X as ([| |x] & X1 & X2); try discriminate. apply N.eqb_eq in X2. subst x. apply (jn2 s). apply in_or_app. auto.
  - split; auto. intros s r I. destruct (jb2 s r I) as (P1 & b & P2 & P3). split; auto. exists b. split; auto. unfold cut. destruct (existsb _ G1) eqn:X; auto. exfalso. apply existsb_exists in X. destruct X as ([| |x] & X1 & X2); try discriminate. apply N.eqb_eq in X2. subst x. destruct (jn2 s) as (_ & Z); [apply in_or_app; auto|]. apply Z. change s with (fst (s, r)). apply in_map. auto.
Qed.

Lemma ack_to_max : forall refs a x, In x refs -> (forall i, In i refs -> i <= x) -> ack_to a refs = N.max a (x + 1).
Proof.
  intros refs a x I M. destruct (ack_to_spec refs a) as (A1 & A2 & A3). specialize (A2 x I). destruct A3 as [A3|(i & A3 & A4)]; [lia|]. specialize (M i A3). lia.
Qed.
Lemma blocking_count : forall a u ks, NoDup (map fst u) -> NoDup ks -> (forall s, In s ks -> exists b, In b (U u s) /\ exists i, In i b /\ a <= i) -> lenN ks <= nblocking a u.
Proof.
  intros a u ks NU NK HK. unfold nblocking, lenN. rewrite <- (map_length fst (filter _ u)). assert (length ks <= length (map fst (filter (fun p => blocks_on a (snd p)) u)))%nat; [|lia]. apply NoDup_incl_length; auto.
  intros s I. destruct (HK s I) as (b & BI & i & I1 & I2). unfold U in BI. destruct (ub_get s u) as [c|] eqn:G; [|destruct BI]. apply in_rev in BI. apply in_map_iff. exists (s, c). split; auto. apply filter_In. split; [apply ub_get_in; auto|]. apply blocks_on_iff. exists b, i. auto.
Qed.
Lemma memN_in : forall s l, memN s l = true <-> In s l. Proof. intros. apply existsb_in. Qed.
Definition out_ok (o : jout) : Prop := match o with JGot _ got sent => got = sent | _ => True end.
Lemma block_step : forall k j s, good k j -> k < 2 ^ 62 -> exists j' o, jstep j (JBlock s) = Good (j', o) /\ good k j' /\ out_ok o /\
  (j_down j = [] -> d_reader (j_dec j) = SInstr -> ~ In s (j_dead j) -> forall b h, first_block s (j_blocks j) = Some (b, h) -> o = JGot s h h).
Proof.
  intros k j s (Hd & pend & G & rest & Q & V) KB. cbn [jstep]. destruct (memN s (j_dead j)) eqn:MD.
  { exists j, JNone. splits; auto; [unfold good; eauto 10 | exact Logic.I|]. intros _ _ ND. exfalso. apply ND, memN_in, MD. }
  assert (ND : ~ In s (j_dead j)) by (intros I; apply memN_in in I; congruence).
  destruct (first_block s (j_blocks j)) as [(b, h)|] eqn:FB.
  2:{ exists j, JNone. splits; auto; [unfold good; eauto 10 | exact Logic.I|]. intros _ _ _ b h E. discriminate. }
  pose proof (behind _ _ _ _ _ _ _ V) as (BH1 & BH2 & BH3 & BH4 & BH5). dji V. rewrite jq1 in FB. destruct (first_split _ _ _ _ FB) as (Q1 & refs & Q2 & -> & F1 & DB).
  pose proof jq2 as jq3. apply Forall_app in jq3. destruct jq3 as (JA & JB). inversion JB as [|? ? JX JC]. subst. clear JB. destruct JX as ((fs & w & m & base & X1 & X2 & X3 & X4 & X5 & X6 & X7) & XF & XT & XS).
  assert (OK : t_ok (Hd ++ inserts pend) (d_table (j_dec j))). { destruct jt1 as (W & T1 & T2 & T3). unfold t_ok. splits; auto; [apply win_ext; auto | rewrite lenN_app; lia]. }
  assert (M60 : S / 32 < 2 ^ 60). { eapply N.le_lt_trans; [apply N.div_le_upper_bound with (q := S); lia|]. eapply N.lt_trans; [exact S30|]. reflexivity. }
  pose proof (block_trip huff (Hd ++ inserts pend) (d_table (j_dec j)) base (S / 32) (S / 32) fs h w m b OK ltac:(lia) ltac:(lia) M60 X2 XF X3 XT X4 X5 X6) as BT.
  unfold dec_block. rewrite jc4. destruct m as [x|].
  2:{ rewrite BT. cbn [rbind N.eqb]. assert (refs = []) as ->. { destruct refs as [|i r]; auto. exfalso. destruct (proj1 (X7 i)) as (f & Y1 & Y2); [left; auto|]. rewrite (X5 f Y1) in Y2. discriminate. }
    eexists _, _. split; [reflexivity|]. splits; auto; [|reflexivity|].
    - exists Hd, pend, G, rest, (Q1 ++ Q2). rewrite jq1, DB. constructor; cbn [j_enc j_dec j_down j_up j_blocks j_dead]; auto 10.
      + intros y NY. rewrite (jr y NY), !fl_app. f_equal. cbn [fl flat_map]. unfold fl1 at 1. cbn [fst snd]. destruct (s =? y); auto.
      + split; auto. apply Forall_app. auto.
    - intros _ _ _ b1 h1 E. inversion E. auto. }
  (* the entries are still in the encoder's table *)
  assert (RN : refs <> []). { destruct X5 as ((f & Y1 & Y2) & _). intros ->. apply (proj2 (X7 x)). eauto. }
  assert (RX : In x refs /\ forall i, In i refs -> i <= x). { destruct X5 as ((f & Y1 & Y2) & Y3). split; [apply X7; eauto|]. intros i I. apply X7 in I. destruct I as (g & Z1 & Z2). eauto. }
  assert (RS : rest s = refs :: fl s Q2). { rewrite (jr s ND), fl_app, F1. cbn [fl flat_map List.app]. unfold fl1 at 1. cbn [fst snd]. rewrite N.eqb_refl. destruct refs; [congruence | auto]. }
  assert (PR : forall i, In i refs -> pres (n_table (j_enc j)) i).
  { intros i I. pose proof (proj2 (ev_refs _ _ _ je)) as RF. cbn [List.app] in RF. rewrite Forall_forall in RF. assert (In refs (ublocks (n_unacked (j_enc j)))) as IU.
    { specialize (jU s). unfold U in jU. destruct (ub_get s (n_unacked (j_enc j))) as [c|] eqn:GT; [|rewrite RS in jU; symmetry in jU; apply app_eq_nil in jU; destruct jU; discriminate]. eapply in_ublocks; [apply ub_get_in; eauto|]. apply in_rev. rewrite jU, RS. apply in_or_app. right. left. auto. }
    specialize (RF _ IU). rewrite Forall_forall in RF. auto. }
  pose proof (PR x (proj1 RX)) as (PX1 & PX2). specialize (BT eq_refl). rewrite BT by lia. clear BT. destruct (N.ltb_spec (t_base (d_table (j_dec j))) (x + 1)) as [BL|BL]; cbn [rbind].
  - assert (NE : j_down j = [] -> d_reader (j_dec j) = SInstr -> False).
    { intros DN DR. rewrite DN, DR in jd1. vm_compute in jd1. injection jd1 as <-.
      cbn [inserts] in *. rewrite app_nil_r in *. pose proof (ev_base _ _ _ je). lia. }
    destruct (existsb (fun p => fst p =? s) (d_blocked (j_dec j))) eqn:EXB; cbn [rbind].
    + eexists _, _. split; [reflexivity|]. split; [|split; [exact Logic.I | intros DN DR; destruct (NE DN DR)]]. exists Hd, pend, G, rest, (Q1 ++ (s, b, h, refs) :: Q2). constructor; cbn [j_enc j_dec j_down j_up j_blocks j_dead]; auto 10.
    + assert (NI : ~ In s (map fst (d_blocked (j_dec j)))). { intros I. apply in_map_iff in I. destruct I as ((y, r) & Y & I). cbn in Y. subst y. assert (existsb (fun p => fst p =? s) (d_blocked (j_dec j)) = true) as Z by (apply existsb_exists; exists (s, r); split; auto; apply N.eqb_refl). congruence. }
      assert (CNT : lenN (map fst (d_blocked (j_dec j)) ++ [s]) <= nblocking (t_acked (n_table (j_enc j))) (n_unacked (j_enc j))).
      { apply blocking_count; [apply je | apply nodup_snoc; auto|]. intros y I. apply in_app_or in I. destruct I as [I|[<-|[]]].
        - apply in_map_iff in I. destruct I as ((y0, r) & Y & I). cbn in Y. subst y0. destruct (jb2 y r I) as (Z1 & c & Z2 & Z3). exists c. split; [rewrite jU; apply in_or_app; auto|]. exists (r - 1). split; auto. lia.
        - exists refs. split; [rewrite jU, RS; apply in_or_app; right; left; auto|]. exists x. split; [apply RX|]. lia. }
      rewrite lenN_app, lenN_cons, lenN_nil in CNT. unfold lenN in CNT at 1. rewrite map_length in CNT. pose proof (ev_cnt _ _ _ je). pose proof (ev_cntb _ _ _ je).
      destruct (N.leb_spec (d_maxb (j_dec j)) (lenN (d_blocked (j_dec j)))); [unfold lenN in *; lia|]. cbn [rbind].
      eexists _, _. split; [reflexivity|]. split; [|split; [exact Logic.I | intros DN DR; destruct (NE DN DR)]]. exists Hd, pend, G, rest, (Q1 ++ (s, b, h, refs) :: Q2).
      constructor; cbn [j_enc j_dec j_down j_up j_blocks j_dead d_reader d_table d_acked d_max_entries d_out d_local d_max_table d_maxb d_blocked]; auto 10.
      * split; auto. intros y I. destruct (jn2 y I) as (Z1 & Z2). split; auto. rewrite map_app. cbn [map fst]. intros Z. apply in_app_or in Z. destruct Z as [Z|[<-|[]]]; auto.
      * split; [rewrite map_app; cbn [map fst]; apply nodup_snoc; auto|]. intros y r I. apply in_app_or in I. destruct I as [I|[I|[]]]; auto. injection I as <- <-. split; [lia|]. exists refs. split; [rewrite RS; left; auto|]. replace (x + 1 - 1) with x by lia. apply RX.
  - assert (FA : forallb (fun f => match f_ref f with Some i => oldest (d_table (j_dec j)) <=? i | None => true end) fs = true).
    { apply forallb_forall. intros f I. destruct (f_ref f) as [i|] eqn:FR; auto. apply N.leb_le. assert (In i refs) as II by (apply X7; eauto). destruct (PR i II). lia. }
    rewrite FA. cbn [rbind]. destruct (N.eqb_spec (x + 1) 0); [lia|]. cbn [rbind]. eexists _, _. split; [reflexivity|]. splits; [|reflexivity|].
    2:{ intros _ _ _ b1 h1 E. inversion E. auto. }
    exists Hd, pend, (G ++ [KAck s refs]), (fun y => if y =? s then fl s Q2 else rest y), (Q1 ++ Q2). rewrite jq1, DB.
    constructor; cbn [j_enc j_dec j_down j_up j_blocks j_dead d_reader d_table d_acked d_max_entries d_out d_local d_max_table d_maxb d_blocked]; auto 10.
    + rewrite app_assoc, map_app. cbn [map erase]. splits.
      * apply d_feed_snoc; auto. cbn. change (2 ^ 64) with (4 * 2 ^ 62). lia.
      * apply bytes_ok_app. split; auto. apply marshal_bytes.
      * apply Forall_app. split; auto. constructor; auto. exact Logic.I.
    + rewrite chain_app, jh1. cbn [chain]. rewrite (ack_to_max refs (d_acked (j_dec j)) x) by apply RX. split; lia.
    + split; [apply nocan_snoc; auto; intros y r E I; injection E as <- <-; apply ND; apply (jn2 s I)|]. intros y I. apply in_app_or in I. destruct I as [I|[I|[]]]; [auto | discriminate].
    + intros y. rewrite acks_app, jU. cbn [acks]. rewrite app_nil_r, (N.eqb_sym s y). destruct (N.eqb_spec y s) as [->|]; [rewrite RS, <- app_assoc; auto | rewrite app_nil_r; auto].
    + intros y NY. rewrite !fl_app. destruct (N.eqb_spec y s) as [->|NS]; [rewrite F1; auto|]. rewrite (jr y NY), fl_app. f_equal. cbn [fl flat_map]. unfold fl1 at 1. cbn [fst snd]. destruct (N.eqb_spec s y); [congruence | auto].
    + split; auto. apply Forall_app. auto.
    + split; auto. intros y r I. destruct (jb2 y r I) as (Z1 & c & Z2 & Z3). split; auto. exists c. split; auto. destruct (N.eqb_spec y s) as [->|]; auto. rewrite RS in Z2. destruct Z2 as [<-|Z2]; auto. exfalso. pose proof (proj2 RX _ Z3). lia.
Qed.

(** When all the bytes of the encoder stream are there, nothing waits. *)
Lemma down_all : forall k j, good k j -> k < 2 ^ 62 -> exists j1, jstep j (JDown (length (j_down j))) = Good (j1, JNone) /\ j_dead j1 = j_dead j /\ j_blocks j1 = j_blocks j /\
  forall s b h, ~ In s (j_dead j) -> first_block s (j_blocks j) = Some (b, h) -> exists j2, jstep j1 (JBlock s) = Good (j2, JGot s h h).
Proof.
  intros k j GD KB. destruct (down_step k j (length (j_down j)) GD) as (j1 & E & G1). exists j1. split; auto.
  assert (Q : j_dead j1 = j_dead j /\ j_blocks j1 = j_blocks j /\ j_down j1 = [] /\ d_reader (j_dec j1) = SInstr).
  { destruct GD as (Hd & pend & G & rest & Q & V). dji V. cbn [jstep] in E. rewrite firstn_all, skipn_all in E. unfold dec_receive in E. rewrite jd1 in E. destruct jm as (td' & EX & _). set (d0 := mkD SInstr _ _ _ _ _ _ _ _) in E. rewrite (execute_ok S pend d0 td') in E by auto. cbn [rbind] in E.
    destruct (t_base (d_table (j_dec j)) =? t_base (d_table (dwith_table td' d0))); cbn [rbind] in E; inversion E; subst j1; auto. }
  destruct Q as (Q1 & Q2 & Q3 & Q4). splits; auto. intros s b h ND FB. rewrite <- Q1 in ND. rewrite <- Q2 in FB. destruct (block_step k j1 s G1 KB) as (j2 & o & E2 & _ & _ & Z). exists j2. rewrite E2, (Z Q3 Q4 ND b h FB). auto.
Qed.
Definition op_ok (o : jop) : Prop := match o with JEncode s l _ => Forall (h_fits huff) l /\ total_size l <= MAX_LEN /\ s < 2 ^ 62 | JCancel s => s < 2 ^ 62 | _ => True end.
Definition weight (o : jop) : N := match o with JEncode _ l _ => lenN l | _ => 0 end.
Lemma step_good : forall k j o, good k j -> op_ok o -> k + weight o < 2 ^ 62 -> exists j' x, jstep j o = Good (j', x) /\ good (k + weight o) j' /\ out_ok x.
Proof.
  intros k j o GD OK KB. destruct o; cbn [weight op_ok] in *; rewrite ?N.add_0_r in *.
  - destruct (settings_step k j GD) as (j' & E & G'). exists j', JNone. cbn [out_ok]. auto.
  - destruct (open_enc_step k j GD) as (j' & E & G'). exists j', JNone. cbn [out_ok]. auto.
  - destruct (open_dec_step k j GD) as (j' & E & G'). exists j', JNone. cbn [out_ok]. auto.
  - destruct OK as (O1 & O2 & O3). destruct (encode_step k j s l sends GD KB O1 O2 O3) as (j' & E & G'). exists j', JNone. cbn [out_ok]. auto.
  - destruct (updates_step k j sends GD KB) as (j' & E & G'). exists j', JNone. cbn [out_ok]. auto.
  - destruct (down_step k j n GD) as (j' & E & G'). exists j', JNone. cbn [out_ok]. auto.
  - destruct (block_step k j s GD KB) as (j' & x & E & G' & X & _). eauto 10.
  - destruct (cancel_step k j s GD OK) as (j' & E & G'). exists j', JNone. cbn [out_ok]. auto.
  - destruct (send_step k j n GD KB) as (j' & E & G'). exists j', JNone. cbn [out_ok]. auto.
  - destruct (up_step k j n GD KB) as (j' & E & G'). exists j', JNone. cbn [out_ok]. auto.
Qed.
Fixpoint weights (l : list jop) : N := match l with [] => 0 | o :: l' => weight o + weights l' end.
Lemma run_good : forall l k j, good k j -> Forall op_ok l -> k + weights l < 2 ^ 62 -> exists j' xs, jrun j l = Good (j', xs) /\ good (k + weights l) j' /\ Forall out_ok xs.
Proof.
  induction l as [|o l IH]; intros k j GD OK KB; cbn [jrun weights] in *; [rewrite N.add_0_r; eauto 10|]. inversion OK as [|? ? O1 O2]. subst. destruct (step_good k j o GD O1) as (j1 & x & -> & G1 & X); [lia|]. cbn [rbind].
  destruct (IH (k + weight o) j1 G1 O2) as (j' & xs & -> & G' & XS); [lia|]. cbn [rbind]. exists j', (x :: xs). rewrite N.add_assoc. auto.
Qed.
Lemma init_good : forall et en, S <= et -> good 0 (jinit et en S B huff).
Proof.
  intros et en L. exists [], [], [], (fun _ => []), []. constructor; cbn [jinit j_enc j_dec j_down j_up j_blocks j_dead enc_new dec_new n_huff n_max_table n_maxb d_max_table d_max_entries d_maxb n_table t_cap n_next table_new d_table d_reader d_acked d_out d_blocked n_unacked inserts List.app map acks chain nocan]; auto.
  - constructor; cbn [enc_new n_table n_max_table n_max_entries n_reader n_local n_maxb n_maxt n_unacked n_cnt n_huff n_next table_new t_dyn t_base t_acked t_cap t_used ublocks flat_map List.app]; auto; try (cbn; lia); try constructor; try discriminate.
    + cbn. auto.
    + cbn. splits; auto; lia.
    + cbn. intros e [].
    + constructor.
  - cbn. lia.
  - splits; auto; [|lia]. rewrite N.shiftr_div_pow2. auto.
  - splits; auto; [|split; [constructor | reflexivity]]. unfold t_ok. cbn. splits; auto; discriminate.
  - split; [vm_compute; auto | constructor].
  - exists (table_new false). splits; auto; [unfold same; cbn; auto | split; [constructor | reflexivity]].
  - splits; [vm_compute; auto | constructor | constructor].
  - cbn. split; auto; lia.
  - split; [constructor|]. intros s r [].
Qed.
End Joint.
