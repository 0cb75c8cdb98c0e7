(** C43: packets survive the wire. *)
From Coq Require Import Lia.
From Verif Require Import Base Lib CodecModel CodecProofs Reader PnModel PnProofs VerModel VerProps PktModel PktSpec PktProofs PktProofs2 PktProofs3.

(** A packet with a long header and a payload is built without a panic, behind whatever is already in the datagram;
    when it is shorter than 2^14 bytes it parses, whatever follows it, into its own bytes and what follows, with every
    field as sent, and removing protection gives the number and the payload (with [k] bytes of padding, none when the
    payload has 20 bytes).  Missing: packets of 2^14 bytes or more, refuted below. *)
Theorem long_packet_round_trip_partial : forall x pre pt v kp dcid scid token limit grease rnd pn la b payload,
  good_keys x -> protected_long pt -> bytes_ok payload -> lenN dcid <= 20 -> lenN scid <= 20 -> lenN token < 2 ^ 62 ->
  build_header pre pt v kp dcid scid token limit grease rnd pn la = Some b -> b_limit b <> 0%nat ->
  (length (b_enc b ++ payload) <= limit)%nat ->
  exists pkt k hlen,
    b_build x (b_write payload b) = Some (Some (pre ++ pkt)) /\
    length (pre ++ pkt) = (length (b_enc b ++ payload) + k + x_exp x)%nat /\
    (k = 0%nat \/ (length payload + k <= 19)%nat) /\
    (lenN pkt < 2 ^ 14 ->
     forall rexp cid other_ok rest,
       let u := mkPub pt dcid (Some scid) (match pt with PInitial => token | _ => [] end) hlen (Some (wire v)) pkt None in
       decode_pkt rexp cid other_ok (pkt ++ rest) = Some (POk u rest) /\
       forall next, pn_recoverable pn la next -> unprotect x next u = Some (DOk false pn (payload ++ repeat 0 k))).
Proof.
  intros x pre pt v kp dcid scid token limit grease rnd pn la b payload Hx Hp Hb Hd Hs Htk H HL Hlim.
  destruct (built_long x pre pt v kp dcid scid token limit grease rnd pn la b payload Hx Hp Hb H HL Hlim)
    as (t & T & n & q & f & M & k & text & m & l0 & l1 & P & h1 & h2 & h3 & h4 & h5 & h6 & h7 & h8 & h9 & h10 & h11 & h12 & h13 & h14 & h15 & h16 & h17 & h18 & h19 & h20 & h21).
  set (g := N.lxor f (N.land (hd 0 m) HP_MASK_LONG)) in *. set (P' := xorl P (firstn n (skipn 1 m))) in *.
  assert (LP' : length P' = n) by (unfold P'; rewrite xorl_length; [exact h6|rewrite firstn_length, skipn_length; lia]).
  assert (Hm : N.land (hd 0 m) HP_MASK_LONG < 16).
  { unfold HP_MASK_LONG. change 15 with (N.ones 4). rewrite N.land_ones. apply N.mod_lt. discriminate. }
  pose proof (long_first t (N.of_nat (n - 1)) q (N.land (hd 0 m) HP_MASK_LONG) h2 ltac:(lia) h7 Hm) as L.
  unfold long_ok in L. rewrite <- h8 in L. fold g in L. rewrite !andb_true_iff in L.
  destruct L as (((((((L1 & L2) & L3) & L4) & L5) & L6) & L7) & L8).
  apply negb_true_iff, N.eqb_neq in L2. apply N.eqb_eq in L3, L4, L5, L6.
  exists (g :: (M ++ [l0; l1]) ++ P' ++ text), k, (1 + length M + 2)%nat. splits.
  - exact h21.
  - rewrite !app_length. rewrite h20. cbn [length]. rewrite !app_length, LP', h11. cbn [length]. lia.
  - lia.
  - intros Hl rexp cid ok rest u.
    assert (Hlen : lenN (P' ++ text) < 16384).
    { revert Hl. unfold lenN. cbn [length]. rewrite !app_length, LP'. change (2 ^ 14) with 16384. lia. }
    assert (Hlen' : N.of_nat (n + length text) = lenN (P' ++ text)) by (unfold lenN; rewrite app_length, LP'; reflexivity).
    split.
    + unfold decode_pkt.
      pose proof (turn_long rexp cid ok None v dcid scid g pt T token _ (P' ++ text) rest t Hd Hs Hp h1 L2 L3 h3 Htk eq_refl Hlen) as D.
      rewrite <- Hlen', <- h17, <- h18, <- h9 in D.
      replace (g :: (M ++ [l0; l1]) ++ P' ++ text) with (g :: M ++ l0 :: l1 :: P' ++ text) by (rewrite <- app_assoc; reflexivity).
      rewrite D. unfold u. rewrite <- app_assoc. reflexivity.
    + intros next [Hpn1 [Hpn2 Hpn3]].
      destruct (pn_roundtrip pn la next Hpn1 Hpn3 Hpn2) as (P1 & W1 & W2 & W3).
      assert (P1 = P) by congruence. subst P1.
      assert (Hmask : hmask (u_type u) = HP_MASK_LONG) by (unfold u; cbn [u_type]; destruct Hp as [->|[->| ->]]; reflexivity).
      apply (unprotect_shape x next u f (M ++ [l0; l1]) P text (payload ++ repeat 0 k) m pn false); rewrite ?h6, ?Hmask; auto.
      * unfold u; cbn [u_hlen]. rewrite app_length; cbn [length]. lia.
      * rewrite L5. lia.
      * rewrite h6 in W3. exact W3.
      * unfold u; cbn [u_type]. destruct Hp as [->|[->| ->]]; reflexivity.
      * unfold u; cbn [u_type]. destruct Hp as [->|[->| ->]]; exact L6.
Qed.
Print Assumptions long_packet_round_trip_partial.

(** The same for a short header: the packet takes the rest of the datagram, and the key phase comes back. *)
Theorem short_packet_round_trip : forall x pre v kp dcid scid token limit grease rnd pn la b payload,
  good_keys x -> bytes_ok payload ->
  build_header pre PShort v kp dcid scid token limit grease rnd pn la = Some b -> b_limit b <> 0%nat ->
  (length (b_enc b ++ payload) <= limit)%nat ->
  exists pkt k hlen,
    b_build x (b_write payload b) = Some (Some (pre ++ pkt)) /\
    length (pre ++ pkt) = (length (b_enc b ++ payload) + k + x_exp x)%nat /\
    (k = 0%nat \/ (length payload + k <= 19)%nat) /\
    forall rexp cid other_ok, knows cid dcid ->
       let u := mkPub PShort dcid None [] hlen None pkt None in
       decode_pkt rexp cid other_ok pkt = Some (POk u []) /\
       forall next, pn_recoverable pn la next -> unprotect x next u = Some (DOk kp pn (payload ++ repeat 0 k)).
Proof.
  intros x pre v kp dcid scid token limit grease rnd pn la b payload Hx Hb H HL Hlim.
  destruct (built_short x pre v kp dcid scid token limit grease rnd pn la b payload Hx Hb ltac:(lia) H HL Hlim)
    as (n & q & f & k & text & m & P & h4 & h5 & h6 & h7 & h8 & h10 & h11 & h12 & h13 & h14 & h15 & h16 & h19 & h20 & h21).
  set (g := N.lxor f (N.land (hd 0 m) HP_MASK_SHORT)) in *. set (P' := xorl P (firstn n (skipn 1 m))) in *.
  assert (LP' : length P' = n) by (unfold P'; rewrite xorl_length; [exact h6|rewrite firstn_length, skipn_length; lia]).
  assert (Hm : N.land (hd 0 m) HP_MASK_SHORT < 32).
  { unfold HP_MASK_SHORT. change 31 with (N.ones 5). rewrite N.land_ones. apply N.mod_lt. discriminate. }
  pose proof (short_first kp (N.of_nat (n - 1)) q (N.land (hd 0 m) HP_MASK_SHORT) ltac:(lia) h7 Hm) as L.
  unfold short_ok in L. rewrite <- h8 in L. fold g in L. rewrite !andb_true_iff in L.
  destruct L as (((((((L1 & L2) & L4) & L5) & L6) & L9) & L7) & L8).
  apply N.eqb_eq in L2, L4, L5, L6. apply Bool.eqb_prop in L9.
  exists (g :: dcid ++ P' ++ text), k, (1 + length dcid)%nat. splits.
  - exact h21.
  - rewrite !app_length. rewrite h20. cbn [length]. rewrite !app_length, LP', h11. lia.
  - lia.
  - intros rexp cid ok Hc u. split.
    + unfold decode_pkt, decode_turn.
      assert (R1 : rd_n 1 (g :: dcid ++ P' ++ text) = Some (g, dcid ++ P' ++ text)).
      { apply rd_n_spec. exists [g]. splits; auto. }
      rewrite R1, L2, N.eqb_refl, Hc.
      destruct (Nat.ltb_spec (length (P' ++ text)) (SAMPLE_OFFSET + SAMPLE_SIZE)) as [B|B].
      * exfalso. revert B. unfold SAMPLE_OFFSET, SAMPLE_SIZE. rewrite app_length, LP'. lia.
      * replace (offset (g :: dcid ++ P' ++ text) (P' ++ text)) with (1 + length dcid)%nat; [reflexivity|].
        change (g :: dcid ++ P' ++ text) with ((g :: dcid) ++ P' ++ text). rewrite offset_app. reflexivity.
    + intros next [Hpn1 [Hpn2 Hpn3]].
      destruct (pn_roundtrip pn la next Hpn1 Hpn3 Hpn2) as (P1 & W1 & W2 & W3).
      assert (P1 = P) by congruence. subst P1.
      apply (unprotect_shape x next u f dcid P text (payload ++ repeat 0 k) m pn kp); rewrite ?h6; auto.
      * rewrite L5. lia.
      * rewrite h6 in W3. exact W3.
Qed.
Print Assumptions short_packet_round_trip.

(** A datagram of packets that each parse to their own bytes is parsed into exactly those packets, in order; a last
    one with a short header ends it. *)
Theorem coalesced_packets_separate : forall rexp cid (ps : list (list N * public)) (tail : list (list N * public)) fuel,
  (forall pkt u, In (pkt, u) ps -> pkt <> [] /\ forall rest, decode_pkt rexp cid false (pkt ++ rest) = Some (POk u rest)) ->
  (tail = [] \/ exists pkt u, tail = [(pkt, u)] /\ pkt <> [] /\ decode_pkt rexp cid false pkt = Some (POk u [])) ->
  (length (flat_map fst (ps ++ tail)) < fuel)%nat ->
  parse_all rexp cid fuel (flat_map fst (ps ++ tail)) = Some (map snd (ps ++ tail)).
Proof.
  intros rexp cid ps tail. induction ps as [|[pkt u] ps IH]; intros fuel Hp Ht Hf.
  - cbn [app] in *. destruct fuel as [|fuel]; [lia|].
    destruct Ht as [->|(pkt & u & -> & Hne & Hd)]; [reflexivity|].
    cbn [flat_map map fst snd] in *. rewrite app_nil_r in *. cbn [parse_all].
    destruct pkt as [|y pkt]; [contradiction|]. rewrite Hd. destruct fuel; [cbn [length] in Hf; lia|]. reflexivity.
  - destruct (Hp pkt u (or_introl eq_refl)) as [Hne Hd]. cbn [app flat_map map fst snd] in *.
    rewrite app_length in Hf. destruct fuel as [|fuel]; [lia|]. cbn [parse_all].
    destruct pkt as [|y pkt]; [contradiction|].
    change ((y :: pkt) ++ flat_map fst (ps ++ tail)) with (y :: (pkt ++ flat_map fst (ps ++ tail))) at 1.
    cbv iota. rewrite Hd. rewrite IH; [reflexivity| |exact Ht|cbn [length] in Hf; lia].
    intros p' u' Hin. apply Hp. right. exact Hin.
Qed.
Print Assumptions coalesced_packets_separate.

Lemma rd_n_suffix n l v r : rd_n n l = Some (v, r) -> exists h, l = h ++ r /\ length h = n.
Proof. intros H. apply rd_n_spec in H. destruct H as (h & -> & Hl & _). eauto. Qed.
Lemma rd_vec_suffix n l v r : rd_vec n l = Some (v, r) -> exists h, l = h ++ v ++ r /\ length h = n.
Proof.
  unfold rd_vec. destruct (rd_n n l) as [[k l1]|] eqn:E; [|discriminate]. intros H.
  apply rd_n_suffix in E. destruct E as (h & -> & Hl). apply rd_bytes_spec in H. destruct H as [-> _]. eauto.
Qed.
Lemma rd_vvec_suffix l v r : rd_vvec l = Some (v, r) -> exists h, l = h ++ v ++ r.
Proof.
  unfold rd_vvec. destruct (rd_varint l) as [[k l1]|] eqn:E; [|discriminate]. intros H.
  apply rd_varint_suffix in E. destruct E as (h & -> & _). apply rd_bytes_spec in H. destruct H as [-> _]. eauto.
Qed.

(** What one turn of the parser can do: bytes are neither lost nor invented. *)
Definition turn_ok (data : list N) (sc : option N) (r : option pres) : Prop :=
  match r with
  | None => False
  | Some (PErr _) => True
  | Some (PScone rate rest) => sc = None /\ rate < 128 /\ exists h, data = h ++ rest /\ (7 <= length h)%nat
  | Some (POk u rest) => data = u_data u ++ rest /\ (u_hlen u <= length (u_data u))%nat /\ (1 <= u_hlen u)%nat /\ u_scone u = sc
  end.
Lemma bitrate_lt f ver : f < 256 -> ver < 2 ^ 32 -> bitrate f ver < 128.
Proof.
  intros Hf Hv. unfold bitrate. rewrite land_63, N.shiftr_div_pow2.
  assert (A : ver / 2 ^ 31 < 2 ^ 1) by (apply N.div_lt_upper_bound; [discriminate|]; change (2 ^ 31 * 2 ^ 1) with (2 ^ 32); exact Hv).
  rewrite lor_add by exact A. change (2 ^ 1) with 2 in *. assert (f mod 64 < 64) by (apply N.mod_lt; discriminate). lia.
Qed.
Lemma turn_in_bounds rexp cid ok sc data : takes_prefix cid -> bytes_ok data -> turn_ok data sc (decode_turn rexp cid ok sc data).
Proof.
  intros Hc Hb. unfold decode_turn.
  destruct (rd_n 1 data) as [[first l0]|] eqn:E0; [|exact Logic.I].
  apply rd_n_spec in E0. destruct E0 as (h0 & D0 & L0 & V0).
  destruct h0 as [|b0 [|? ?]]; try discriminate.
  assert (Hf : first < 256). { rewrite D0 in Hb. apply bytes_ok_app in Hb. destruct Hb as [Hb _]. rewrite V0. pose proof (be_val_bound _ Hb) as B. exact B. }
  destruct (N.land first 128 =? 0).
  { destruct (cid l0) as [[dcid l1]|] eqn:Ec; [|exact Logic.I]. apply Hc in Ec.
    destruct (Nat.ltb _ _); [exact Logic.I|]. cbn [turn_ok u_data u_hlen u_scone]. rewrite app_nil_r. unfold offset. rewrite D0, Ec. rewrite !app_length.
    splits; auto; cbn [length]; lia. }
  destruct (rd_n 4 l0) as [[ver l1]|] eqn:E1; [|exact Logic.I].
  apply rd_n_spec in E1. destruct E1 as (h1 & D1 & L1 & V1).
  destruct (rd_vec 1 l1) as [[dcid l2]|] eqn:E2; [|exact Logic.I]. apply rd_vec_suffix in E2. destruct E2 as (h2 & D2 & L2).
  destruct (rd_vec 1 l2) as [[scid l3]|] eqn:E3; [|exact Logic.I]. apply rd_vec_suffix in E3. destruct E3 as (h3 & D3 & L3).
  assert (D : exists h, data = h ++ l3 /\ (7 <= length h)%nat).
  { exists ([b0] ++ h1 ++ h2 ++ dcid ++ h3 ++ scid). split.
    - rewrite D0, D1, D2, D3. rewrite <- !app_assoc. reflexivity.
    - rewrite !app_length, L1, L2, L3. cbn [length]. lia. }
  assert (Hwhole : forall t vv, turn_ok data sc (Some (POk (mkPub t dcid (Some scid) [] (offset data l3) vv data sc) []))).
  { intros t vv. destruct D as (h & D & Lh). cbn [turn_ok u_data u_hlen u_scone]. rewrite app_nil_r. rewrite D, offset_app, app_length. splits; auto; lia. }
  destruct (ver =? 0); [apply Hwhole|].
  destruct ((ver =? SCONE1) || (ver =? SCONE2)).
  { destruct sc; [exact Logic.I|]. cbn [turn_ok]. splits; auto. apply bitrate_lt; [exact Hf|].
    rewrite V1. assert (B : bytes_ok h1). { rewrite D0, D1 in Hb. apply bytes_ok_app in Hb. destruct Hb as [_ Hb]. apply bytes_ok_app in Hb. apply Hb. }
    apply be_val_bound in B. unfold lenN in B. rewrite L1 in B. exact B. }
  destruct (version_of_wire ver) as [v|]; [|destruct ok; [apply Hwhole|exact Logic.I]].
  destruct ((MAX_CID <? lenN dcid) || (MAX_CID <? lenN scid)); [exact Logic.I|].
  destruct (proj2 (packet_type_round_trip v) (N.land (N.shiftr first 4) 3)) as (t & Et & _).
  { change 3 with (N.ones 2). rewrite N.land_ones. apply N.mod_lt. discriminate. }
  rewrite Et. destruct D as (h & D & Lh).
  assert (K : forall token hl l4 a, decode_long rexp data l3 t v = inl (token, hl, l4) -> a = offset data l4 ->
    turn_ok data sc (Some (POk (mkPub t dcid (Some scid) token hl (Some (wire v)) (firstn a data) sc) (skipn a data)))).
  { intros token hl l4 a E Ea.
    assert (G : exists m1 m2, l3 = m1 ++ m2 ++ l4 /\ hl = (length h + length m1)%nat).
    { assert (G : forall tk, match rd_varint tk with
                  | None => inr NoMoreData
                  | Some (len, l2) => match rd_bytes len l2 with None => inr NoMoreData | Some (_, l3) => inl (token, offset data l2, l3) end
                  end = inl (token, hl, l4) -> (exists h', l3 = h' ++ tk) -> exists m1 m2, l3 = m1 ++ m2 ++ l4 /\ hl = (length h + length m1)%nat).
      { intros tk E' [h' Eh']. destruct (rd_varint tk) as [[len l5]|] eqn:Ev; [|discriminate].
        apply rd_varint_suffix in Ev. destruct Ev as (h5 & Ev & _).
        destruct (rd_bytes len l5) as [[w l6]|] eqn:Er; [|discriminate]. apply rd_bytes_spec in Er. destruct Er as [Er _].
        injection E' as E1' E2'. subst l6. exists (h' ++ h5), w. rewrite Eh', Ev, Er. split; [rewrite <- app_assoc; reflexivity|].
        rewrite <- E1', D, Eh', Ev. replace (h ++ h' ++ h5 ++ l5) with ((h ++ h' ++ h5) ++ l5) by (rewrite <- !app_assoc; reflexivity).
        rewrite offset_app, !app_length. lia. }
      unfold decode_long in E.
      destruct t; try (destruct (Nat.ltb _ _); [discriminate|];
        destruct (rd_bytes _ l3) as [[tk l5]|] eqn:Er; [|discriminate]; destruct tk as [|tk0 tk']; [discriminate|];
        destruct (rd_bytes (N.of_nat (rexp v)) l5) as [[tk2 l6]|] eqn:Er2; [|discriminate];
        injection E as E1' E2' E3'; subst l6; apply rd_bytes_spec in Er; apply rd_bytes_spec in Er2; destruct Er as [Er _]; destruct Er2 as [Er2 _];
        exists [], ((tk0 :: tk') ++ tk2); split; [rewrite Er, Er2, <- app_assoc; reflexivity|]; rewrite <- E2', D, offset_app; cbn [length]; lia).
      all: try (destruct (rd_varint l3) as [[len l5]|] eqn:Ev; [|discriminate]; destruct (rd_bytes len l5) as [[w l6]|] eqn:Er; [|discriminate];
        injection E as E1' E2' E3'; subst token; apply (G l3); [rewrite Ev, Er, E2', E3'; reflexivity|exists []; reflexivity]).
      destruct (rd_vvec l3) as [[tk l5]|] eqn:Evv; [|discriminate]. apply rd_vvec_suffix in Evv. destruct Evv as (h6 & Evv).
      destruct (rd_varint l5) as [[len l7]|] eqn:Ev; [|discriminate]. destruct (rd_bytes len l7) as [[w l6]|] eqn:Er; [|discriminate].
      injection E as E1' E2' E3'; subst token; apply (G l5); [rewrite Ev, Er, E2', E3'; reflexivity|exists (h6 ++ tk); rewrite Evv, <- app_assoc; reflexivity]. }
    destruct G as (m1 & m2 & G1 & G2).
    assert (Dd : data = (h ++ m1 ++ m2) ++ l4) by (rewrite D, G1, <- !app_assoc; reflexivity).
    rewrite Dd in Ea at 1. rewrite offset_app in Ea.
    assert (La : length (firstn a data) = a) by (rewrite Ea, Dd, firstn_app_exact; reflexivity).
    cbn [turn_ok u_data u_hlen u_scone]. rewrite firstn_skipn, La, Ea, G2, !app_length. splits; auto; lia. }
  destruct (decode_long rexp data l3 t v) as [[[token hl] l4]|e] eqn:El; [|exact Logic.I].
  apply (K token hl l4 _ eq_refl eq_refl).
Qed.

(** Whatever the bytes: the parser returns, and a parsed packet is a piece of the input behind at most one SCONE
    packet, with the rest after it; it makes progress and the header lies inside. *)
Theorem parser_stays_in_bounds : forall rexp cid other_ok data, takes_prefix cid -> bytes_ok data ->
  match decode_pkt rexp cid other_ok data with
  | None => False
  | Some (PErr _) => True
  | Some (PScone _ _) => False
  | Some (POk u rest) =>
      (u_hlen u <= length (u_data u))%nat /\ (1 <= u_hlen u)%nat /\
      exists h, data = h ++ u_data u ++ rest /\
        match u_scone u with None => h = [] | Some rate => (7 <= length h)%nat /\ rate < 128 end
  end.
Proof.
  intros rexp cid ok data Hc Hb. unfold decode_pkt.
  pose proof (turn_in_bounds rexp cid ok None data Hc Hb) as T1.
  destruct (decode_turn rexp cid ok None data) as [[u rest|e|rate rest]|]; cbn [turn_ok] in T1; auto.
  - destruct T1 as (A & B & C & D). splits; auto. exists []. rewrite D. auto.
  - destruct T1 as (_ & Hr & h & Dh & Lh).
    assert (Hb' : bytes_ok rest) by (rewrite Dh in Hb; apply bytes_ok_app in Hb; apply Hb).
    pose proof (turn_in_bounds rexp cid ok (Some rate) rest Hc Hb') as T2.
    destruct (decode_turn rexp cid ok (Some rate) rest) as [[u rest'|e|rate' rest']|]; cbn [turn_ok] in T2; auto.
    + destruct T2 as (A & B & C & D). splits; auto. exists h. rewrite D. rewrite Dh, A. auto.
    + destruct T2 as [T2 _]. discriminate.
Qed.
Print Assumptions parser_stays_in_bounds.

(** Removing protection never panics, whatever the packet and the keys. *)
Theorem unprotect_never_panics : forall x next u, unprotect x next u <> None.
Proof.
  intros x next u. unfold unprotect, decrypt_header.
  destruct (slice (u_hlen u + SAMPLE_OFFSET) _ (u_data u)) as [s|] eqn:E; [|discriminate].
  unfold slice in E. match type of E with (if ?c then _ else _) = _ => destruct c eqn:C; [|discriminate] end.
  apply andb_true_iff in C. destruct C as [_ C]. apply Nat.leb_le in C. unfold SAMPLE_OFFSET, SAMPLE_SIZE in C.
  destruct (u_data u) as [|b0 d]; [cbn [length] in C; lia|].
  assert (S4 : forall g, exists w, slice (u_hlen u) (u_hlen u + MAX_PACKET_NUMBER_LEN) (g :: d) = Some w).
  { intros g. unfold slice, MAX_PACKET_NUMBER_LEN. cbn [length] in *.
    destruct (Nat.leb_spec (u_hlen u) (u_hlen u + 4)); [|lia]. destruct (Nat.leb_spec (u_hlen u + 4) (S (length d))); [|lia]. cbn [andb]. eauto. }
  match goal with |- context [slice (u_hlen u) (u_hlen u + MAX_PACKET_NUMBER_LEN) (?g :: d)] => destruct (S4 g) as (w & W); rewrite W end.
  destruct (x_open x _ _ _); [|discriminate]. destruct (_ =? 0); discriminate.
Qed.
Print Assumptions unprotect_never_panics.


(** An accepted packet: the AEAD accepted, as associated data, every byte of the header that the parser read (type,
    version, connection IDs, token, length), with only the protected bits of the first byte and the packet number
    changed; the number reported comes from those bytes, and so does the key phase; the reserved bits are zero. *)
Theorem accepted_header_is_authenticated : forall x next u kp pn body,
  (forall s, length (x_mask x s) = 16%nat) -> (1 <= u_hlen u)%nat ->
  unprotect x next u = Some (DOk kp pn body) ->
  exists f P,
    x_open x pn (f :: firstn (u_hlen u - 1) (skipn 1 (u_data u)) ++ P) (skipn (u_hlen u + length P) (u_data u)) = Some body /\
    N.shiftr (N.lxor (hd 0 (u_data u)) f) (match u_type u with PShort => 5 | _ => 4 end) = 0 /\
    length P = N.to_nat (N.land f 3 + 1) /\
    (exists more, length (P ++ more) = 4%nat /\ pn = pn_read next (P ++ more) (length P)) /\
    kp = (match u_type u with PShort => N.land f 4 =? 4 | _ => false end) /\
    N.land f (match u_type u with PShort | POther | PVn => 24 | _ => 12 end) = 0.
Proof.
  intros x next u kp pn body Hm Hh H. unfold unprotect, decrypt_header in H.
  destruct (slice (u_hlen u + SAMPLE_OFFSET) _ (u_data u)) as [s|] eqn:E; [|discriminate].
  unfold slice in E. match type of E with (if ?c then _ else _) = _ => destruct c eqn:C; [|discriminate] end. clear E.
  apply andb_true_iff in C. destruct C as [_ C]. apply Nat.leb_le in C. unfold SAMPLE_OFFSET, SAMPLE_SIZE in C.
  set (mask := x_mask x s) in *. assert (Lm : length mask = 16%nat) by apply Hm.
  destruct (u_data u) as [|b0 d]; [discriminate|].
  set (y := N.land (hd 0 mask) _) in H. set (f := N.lxor b0 y) in H.
  assert (W : slice (u_hlen u) (u_hlen u + MAX_PACKET_NUMBER_LEN) (f :: d) = Some (firstn 4 (skipn (u_hlen u) (f :: d)))).
  { unfold slice, MAX_PACKET_NUMBER_LEN. cbn [length] in *.
    destruct (Nat.leb_spec (u_hlen u) (u_hlen u + 4)); [|lia]. destruct (Nat.leb_spec (u_hlen u + 4) (S (length d))); [|lia]. cbn [andb].
    replace (u_hlen u + 4 - u_hlen u)%nat with 4%nat by lia. reflexivity. }
  rewrite W in H. set (four := firstn 4 (skipn (u_hlen u) (f :: d))) in *.
  assert (L4 : length four = 4%nat) by (unfold four; rewrite firstn_length, skipn_length; cbn [length] in *; lia).
  set (bytes := map _ (combine four _)) in H.
  assert (Lb : length bytes = 4%nat) by (unfold bytes; rewrite map_length, combine_length, firstn_length, skipn_length; lia).
  set (n := N.to_nat (N.land f 3 + 1)) in *.
  assert (Hn : (1 <= n <= 4)%nat).
  { unfold n. change 3 with (N.ones 2). rewrite N.land_ones. assert (f mod 2 ^ 2 < 4) by (apply N.mod_lt; discriminate). lia. }
  set (P := firstn n bytes) in *. assert (LP : length P = n) by (unfold P; rewrite firstn_length; lia).
  assert (LF : length (firstn (u_hlen u) (f :: d)) = u_hlen u) by (rewrite firstn_length; cbn [length] in *; lia).
  assert (F1 : firstn (u_hlen u + n) (firstn (u_hlen u) (f :: d) ++ P ++ skipn (u_hlen u + n) (f :: d)) = firstn (u_hlen u) (f :: d) ++ P).
  { rewrite app_assoc. apply firstn_exact. rewrite app_length. lia. }
  assert (F2 : skipn (u_hlen u + n) (firstn (u_hlen u) (f :: d) ++ P ++ skipn (u_hlen u + n) (f :: d)) = skipn (u_hlen u + n) (f :: d)).
  { rewrite app_assoc. apply skipn_exact. rewrite app_length. lia. }
  rewrite F1, F2 in H.
  destruct (u_hlen u) as [|hl] eqn:Eh; [lia|].
  destruct (x_open x _ _ _) as [bd|] eqn:Eo; [|discriminate].
  replace (S hl - 1)%nat with hl by lia. cbn [firstn app hd skipn] in *.
  destruct (N.eqb_spec (N.land f (if is_long_type (u_type u) then 12 else 24)) 0) as [Er|]; [|discriminate].
  apply some_inj in H. injection H as H1 H2 H3.
  assert (Hs : forall k z, N.shiftr (N.land z (N.ones k)) k = 0).
  { intros k z. rewrite N.land_ones, N.shiftr_div_pow2. apply N.div_small. apply N.mod_lt. apply N.pow_nonzero. discriminate. }
  exists f, P. rewrite LP. splits.
  - rewrite H3 in Eo. rewrite <- H2. exact Eo.
  - unfold f. rewrite <- N.lxor_assoc, N.lxor_nilpotent, N.lxor_0_l. unfold y.
    destruct (u_type u); try (apply (Hs 4)); apply (Hs 5).
  - reflexivity.
  - exists (skipn n bytes). unfold P. rewrite firstn_skipn. auto.
  - rewrite <- H1. reflexivity.
  - destruct (u_type u); exact Er.
Qed.
Print Assumptions accepted_header_is_authenticated.

Lemma set_at_prefix pre f s e : set_at (length pre) f (pre ++ s) = Some e -> exists s', e = pre ++ s' /\ length s' = length s.
Proof. unfold set_at. rewrite skipn_app_exact, firstn_app_exact. destruct s; [discriminate|]. intros H. apply some_inj in H. subst e. eexists. split; reflexivity. Qed.
Definition behind (pre : list N) (b : builder) : Prop := b_start b = length pre /\ exists s, b_enc b = pre ++ s.
Lemma behind_app pre b e : behind pre b -> behind pre (with_enc (b_enc b ++ e) b).
Proof. intros [A [s B]]. split; [exact A|]. exists (s ++ e). cbn. rewrite B, <- app_assoc. reflexivity. Qed.
Lemma header_behind pre pt v kp dcid scid token limit grease rnd pn la b :
  build_header pre pt v kp dcid scid token limit grease rnd pn la = Some b -> behind pre b.
Proof.
  intros H. unfold build_header in H.
  match type of H with match ?z with _ => _ end = _ => destruct z as [b0|] eqn:E0; [|discriminate] end.
  assert (B0 : behind pre b0).
  { assert (L : b_long pre pt v dcid scid limit = Some b0 -> behind pre b0).
    { unfold b_long. destruct (_ && _)%bool.
      - destruct (type_to_byte pt v); [|discriminate]. intros Q. apply some_inj in Q. subst b0. split; [reflexivity|]. eexists. reflexivity.
      - intros Q. apply some_inj in Q. subst b0. split; [reflexivity|]. exists []. cbn. symmetry. apply app_nil_r. }
    destruct pt; auto. apply some_inj in E0. subst b0. unfold b_short. destruct (_ && _)%bool.
    - split; [reflexivity|]. eexists. reflexivity.
    - split; [reflexivity|]. exists []. cbn. symmetry. apply app_nil_r. }
  match type of H with match ?z with _ => _ end = _ => destruct z as [b2|] eqn:E2; [|discriminate] end.
  assert (B2 : behind pre b2).
  { destruct (Nat.ltb 0 (b_remaining b0)); [|apply some_inj in E2; subst b2; exact B0].
    destruct (b_scramble grease rnd b0) as [b1|] eqn:E1; [|discriminate].
    assert (B1 : behind pre b1).
    { unfold b_scramble in E1. destruct (b_is_long b0); [|discriminate].
      destruct B0 as [A [s B]]. rewrite A, B in E1.
      match type of E1 with match ?z with _ => _ end = _ => destruct z as [e|] eqn:E3; [|discriminate] end.
      apply set_at_prefix in E3. destruct E3 as (s' & -> & _). apply some_inj in E1. subst b1. split; [exact A|]. exists s'. reflexivity. }
    assert (T : b_token token b1 = Some b2 -> behind pre b2).
    { unfold b_token. destruct (varint_bytes (lenN token)); [|discriminate]. intros Q. apply some_inj in Q. subst b2.
      destruct (Nat.ltb _ _); [apply behind_app; exact B1|]. destruct B1 as [A B]. split; [exact A|exact B]. }
    destruct pt; auto; apply some_inj in E2; subst b2; exact B1. }
  destruct (pn_len pn la) as [n|]; [|discriminate]. unfold b_number in H. destruct B2 as [A [s B]].
  destruct (Nat.ltb (b_remaining b2) MAX_PACKET_NUMBER_LEN). { apply some_inj in H. subst b. split; [exact A|]. exists s. exact B. }
  destruct (b_is_long b2) as [long|]; [|discriminate].
  destruct (_ && _)%bool. { apply some_inj in H. subst b. split; [exact A|]. exists s. exact B. }
  destruct (Nat.eqb _ 0); [discriminate|]. rewrite A, B in H.
  match type of H with match ?z with _ => _ end = _ => destruct z as [e|] eqn:E3; [|discriminate] end.
  apply some_inj in H. subst b. split; [reflexivity|]. cbn [b_enc].
  destruct long; rewrite <- ?app_assoc in E3; apply set_at_prefix in E3; destruct E3 as (s' & -> & _); exists s'; reflexivity.
Qed.

(** A packet can always be abandoned: the datagram is left exactly as it was, whether or not the header fitted
    (a header that does not fit gives a builder with no room). *)
Theorem abort_restores_the_datagram : forall pre pt v kp dcid scid token limit grease rnd pn la b payload,
  build_header pre pt v kp dcid scid token limit grease rnd pn la = Some b ->
  b_abort b = pre /\ b_abort (b_write payload b) = pre.
Proof.
  intros pre pt v kp dcid scid token limit grease rnd pn la b payload H.
  apply header_behind in H. assert (K : forall b, behind pre b -> b_abort b = pre).
  { intros b' [A [s B]]. unfold b_abort. rewrite A, B. apply firstn_app_exact. }
  split; apply K; [exact H|]. apply behind_app. exact H.
Qed.
Print Assumptions abort_restores_the_datagram.

(** ** Retry *)
Lemma retry_first : forall t r, t < 4 -> r < 16 ->
  let f := N.lor (N.lor (N.lor BIT_LONG BIT_FIXED) (N.shiftl t 4)) r in (N.land f 128 =? 0) = false /\ N.land (N.shiftr f 4) 3 = t.
Proof.
  intros t r Ht Hr.
  assert (A : forallb (fun t => forallb (fun r => let f := N.lor (N.lor (N.lor BIT_LONG BIT_FIXED) (N.shiftl t 4)) r in
     negb (N.land f 128 =? 0) && (N.land (N.shiftr f 4) 3 =? t)) (Nseq 16)) (Nseq 4) = true) by (vm_compute; reflexivity).
  rewrite forallb_forall in A. specialize (A t (Nseq_in t 4 Ht)). cbv beta in A.
  rewrite forallb_forall in A. specialize (A r (Nseq_in r 16 Hr)). cbv beta zeta in A.
  apply andb_true_iff in A. destruct A as [A B]. apply negb_true_iff in A. apply N.eqb_eq in B. auto.
Qed.

(** A Retry packet parses to its version, connection IDs and token; the client accepts it exactly when the tag is the
    one made for the connection ID it first used. *)
Theorem retry_round_trip : forall rexp rseal v dcid scid token odcid rnd pkt,
  (forall aad, length (rseal v aad) = rexp v) -> lenN dcid <= 20 -> lenN scid <= 20 ->
  build_retry (rseal v) v dcid scid token odcid rnd = Some pkt ->
  forall cid other_ok, exists u, decode_pkt rexp cid other_ok pkt = Some (POk u []) /\
    u_type u = PRetry /\ u_dcid u = dcid /\ u_scid u = Some scid /\ u_token u = token /\ u_ver u = Some (wire v) /\ u_data u = pkt /\
    (forall ropen, (forall aad t, ropen v aad t = true <-> t = rseal v aad) ->
       valid_retry rexp ropen odcid u = true /\
       forall od', valid_retry rexp ropen od' u = true -> exists p, rseal v (vec1 od' ++ p) = rseal v (vec1 odcid ++ p)).
Proof.
  intros rexp rseal v dcid scid token odcid rnd pkt Hr Hd Hs H cid ok. unfold build_retry in H.
  destruct (type_to_byte PRetry v) as [t|] eqn:Et; [|discriminate].
  destruct (proj1 (packet_type_round_trip v) PRetry eq_refl) as (t' & E1 & E2 & E3). assert (t' = t) by congruence. subst t'.
  destruct token as [|t0 token'] eqn:Etok; [discriminate|]. rewrite <- Etok in *.
  set (f := N.lor (N.lor (N.lor BIT_LONG BIT_FIXED) (N.shiftl t 4)) (N.land rnd 15)) in H.
  assert (R15 : N.land rnd 15 < 16) by (change 15 with (N.ones 4); rewrite N.land_ones; apply N.mod_lt; discriminate).
  destruct (retry_first t (N.land rnd 15) E2 R15) as [F1 F2]. fold f in F1, F2.
  set (M := be_bytes 4 (wire v) ++ vec1 dcid ++ vec1 scid) in *.
  set (p := f :: be_bytes 4 (wire v) ++ vec1 dcid ++ vec1 scid ++ token) in H. set (tag := rseal v (vec1 odcid ++ p)) in H.
  apply some_inj in H. assert (Lt : length tag = rexp v) by apply Hr.
  exists (mkPub PRetry dcid (Some scid) token (1 + length M) (Some (wire v)) pkt None).
  cbn [u_type u_dcid u_scid u_token u_ver u_data]. splits; auto.
  - unfold decode_pkt, decode_turn.
    assert (R1 : rd_n 1 pkt = Some (f, be_bytes 4 (wire v) ++ vec1 dcid ++ vec1 scid ++ token ++ tag)).
    { apply rd_n_spec. exists [f]. rewrite <- H. unfold p. cbn [app]. rewrite <- !app_assoc. splits; auto. }
    rewrite R1, F1. destruct (wire_facts v) as (W1 & W2 & W3 & W4 & W5).
    rewrite rd_be by exact W1. rewrite rd_vec1 by (revert Hd; clear; intros; lia). rewrite rd_vec1 by (revert Hs; clear; intros; lia).
    destruct (N.eqb_spec (wire v) 0) as [|_]; [contradiction|].
    destruct (N.eqb_spec (wire v) SCONE1) as [|_]; [contradiction|]. destruct (N.eqb_spec (wire v) SCONE2) as [|_]; [contradiction|].
    cbn [orb]. rewrite W5. unfold MAX_CID.
    destruct (N.ltb_spec 20 (lenN dcid)); [lia|]. destruct (N.ltb_spec 20 (lenN scid)); [lia|]. cbn [orb].
    rewrite F2, E3.
    assert (DL : decode_long rexp pkt (token ++ tag) PRetry v = inl (token, (1 + length M)%nat, [])).
    { unfold decode_long. rewrite app_length, Lt. destruct (Nat.ltb_spec (length token + rexp v) (rexp v)); [lia|].
      assert (Rb : rd_bytes (N.of_nat (length token + rexp v - rexp v)) (token ++ tag) = Some (token, tag)).
      { apply rd_bytes_spec. unfold lenN. split; [reflexivity|]. lia. }
      rewrite Rb. rewrite Etok at 1.
      assert (Rb2 : rd_bytes (N.of_nat (rexp v)) tag = Some (tag, [])).
      { apply rd_bytes_spec. unfold lenN. rewrite app_nil_r. split; [reflexivity|]. lia. }
      rewrite Rb2. rewrite <- H. unfold p. replace ((f :: be_bytes 4 (wire v) ++ vec1 dcid ++ vec1 scid ++ token) ++ tag) with ((f :: M) ++ token ++ tag).
      - rewrite offset_app. reflexivity.
      - unfold M. cbn [app]. rewrite <- !app_assoc. reflexivity. }
    rewrite DL. unfold offset. cbn [length]. rewrite Nat.sub_0_r, firstn_all, skipn_all. reflexivity.
  - intros ropen Ho. destruct (wire_facts v) as (_ & _ & _ & _ & W5).
    assert (V : forall od, valid_retry rexp ropen od (mkPub PRetry dcid (Some scid) token (1 + length M) (Some (wire v)) pkt None) = ropen v (vec1 od ++ p) tag).
    { intros od. unfold valid_retry. cbn [u_type u_ver u_data]. rewrite W5.
      replace (length pkt) with (length p + rexp v)%nat by (rewrite <- H, app_length, Lt; reflexivity).
      destruct (Nat.leb_spec (length p + rexp v) (rexp v)) as [B|B]; [unfold p in B; cbn [length] in B; lia|].
      replace (length p + rexp v - rexp v)%nat with (length p) by lia. rewrite <- H, firstn_app_exact, skipn_app_exact. reflexivity. }
    rewrite V. split; [apply Ho; reflexivity|]. intros od' Hv. rewrite V in Hv. apply Ho in Hv. exists p. symmetry. exact Hv.
Qed.
Print Assumptions retry_round_trip.

(** ** Version Negotiation *)
Lemma read_versions_all vs : Forall (fun w => w < 2 ^ 32) vs -> forall fuel, (length (flat_map (be_bytes 4) vs) <= fuel)%nat -> read_versions fuel (flat_map (be_bytes 4) vs) = Some vs.
Proof.
  induction vs as [|w vs IH]; intros Hf fuel Hl.
  - destruct fuel; reflexivity.
  - inv Hf. cbn [flat_map] in *. rewrite app_length, be_bytes_length in Hl. destruct fuel as [|fuel]; [lia|].
    cbn [read_versions]. destruct (be_bytes 4 w ++ flat_map (be_bytes 4) vs) as [|y l] eqn:E.
    { apply (f_equal (@length N)) in E. rewrite app_length, be_bytes_length in E. discriminate. }
    rewrite <- E. rewrite rd_be by assumption. rewrite IH by (auto; lia). reflexivity.
Qed.

Lemma grease_byte a : N.lor (N.land a 240) 10 < 256.
Proof.
  assert (E : N.lor (N.land a 240) 10 = N.land (N.lor (N.land a 240) 10) 255).
  { rewrite N.land_lor_distr_l, <- N.land_assoc. reflexivity. }
  rewrite E, land_255. apply N.mod_lt. discriminate.
Qed.

(** A Version Negotiation packet parses whatever the connection IDs (up to 255 bytes), and gives back the versions the
    server supports, followed by the greased one. *)
Theorem version_negotiation_round_trip : forall rexp cid other_ok g0 g1 g2 g3 dcid scid cv all,
  lenN dcid < 256 -> lenN scid < 256 ->
  exists u w, decode_pkt rexp cid other_ok (build_vn g0 g1 g2 g3 dcid scid cv all) = Some (POk u []) /\
    u_type u = PVn /\ u_dcid u = dcid /\ u_scid u = Some scid /\ supported_versions u = Some (map wire all ++ [w]) /\
    version_of_wire w = None.
Proof.
  intros rexp cid ok g0 g1 g2 g3 dcid scid cv all Hd Hs.
  set (vs := flat_map (be_bytes 4) (vn_versions g0 g1 g2 cv all)).
  set (f := N.lor BIT_LONG (N.land g3 127)).
  assert (Epkt : build_vn g0 g1 g2 g3 dcid scid cv all = f :: be_bytes 4 0 ++ vec1 dcid ++ vec1 scid ++ vs) by reflexivity.
  assert (Hf : (N.land f 128 =? 0) = false).
  { unfold f, BIT_LONG. apply N.eqb_neq. intros E. apply (f_equal (fun z => N.testbit z 7)) in E.
    rewrite N.land_spec, N.lor_spec in E. cbn in E. discriminate. }
  assert (Hg : vn_grease g0 g1 g2 cv < 2 ^ 32).
  { unfold vn_grease. match goal with |- be_val ?l < _ => assert (B : bytes_ok l) end.
    { unfold bytes_ok. apply Forall_forall. intros z Hz. unfold byte_ok. cbn [In] in Hz.
      destruct Hz as [<-|[<-|[<-|[<-|[]]]]]; apply grease_byte. }
    apply be_val_bound in B. exact B. }
  rewrite Epkt. set (pkt := f :: _).
  exists (mkPub PVn dcid (Some scid) [] (7 + length dcid + length scid) None pkt None), (vn_grease g0 g1 g2 cv).
  assert (Edata : pkt = (f :: be_bytes 4 0 ++ vec1 dcid ++ vec1 scid) ++ vs) by (unfold pkt; cbn [app]; rewrite <- !app_assoc; reflexivity).
  assert (Lh : length (f :: be_bytes 4 0 ++ vec1 dcid ++ vec1 scid) = (7 + length dcid + length scid)%nat).
  { cbn [length]. rewrite !app_length, be_bytes_length, !vec1_len. lia. }
  cbn [u_type u_dcid u_scid]. splits; auto.
  - unfold decode_pkt, decode_turn.
    assert (R1 : rd_n 1 pkt = Some (f, be_bytes 4 0 ++ vec1 dcid ++ vec1 scid ++ vs)) by (apply rd_n_spec; exists [f]; splits; auto).
    rewrite R1, Hf. rewrite rd_be by reflexivity. rewrite rd_vec1 by exact Hd. rewrite rd_vec1 by exact Hs.
    change (0 =? 0) with true. cbv iota. rewrite Edata, offset_app, Lh. reflexivity.
  - unfold supported_versions. cbn [u_type u_data u_hlen]. rewrite Edata, <- Lh, skipn_app_exact.
    apply read_versions_all.
    + apply Forall_forall. intros w Hw. unfold vn_versions in Hw. apply in_app_or in Hw. destruct Hw as [Hw|[<-|[]]]; [|exact Hg].
      apply in_map_iff in Hw. destruct Hw as (v & <- & _). apply wire_facts.
    + rewrite app_length. unfold vs, vn_versions. lia.
  - assert (L10 : forall z, N.lor (N.land z 240) 10 mod 16 = 10).
    { intros z. change 16 with (2 ^ 4). rewrite <- N.land_ones, N.land_lor_distr_l, <- N.land_assoc. change (N.land 240 (N.ones 4)) with 0. rewrite N.land_0_r. reflexivity. }
    assert (G16 : vn_grease g0 g1 g2 cv mod 16 = 10).
    { unfold vn_grease. rewrite !be_val_cons.
      match goal with |- (?a * _ + (?b * _ + (?c * _ + (?d * _ + _)))) mod 16 = _ => set (a' := a); set (b' := b); set (c' := c); pose proof (L10 ((cv + 16) mod 2 ^ 32)) as Ld; set (d' := d) in * end.
      cbn [length lenN]. unfold lenN; cbn [length]. change (be_val []) with 0.
      change (256 ^ N.of_nat 3) with (1048576 * 16). change (256 ^ N.of_nat 2) with (4096 * 16). change (256 ^ N.of_nat 1) with (16 * 16). change (256 ^ N.of_nat 0) with 1.
      replace (a' * (1048576 * 16) + (b' * (4096 * 16) + (c' * (16 * 16) + (d' * 1 + 0)))) with (d' + (a' * 1048576 + b' * 4096 + c' * 16) * 16) by lia.
      rewrite N.mod_add by discriminate. exact Ld. }
    destruct (version_of_wire (vn_grease g0 g1 g2 cv)) as [v|] eqn:Ev; [|reflexivity].
    apply (proj1 (proj2 versions_on_the_wire)) in Ev. rewrite Ev in G16. destruct v; vm_compute in G16; discriminate.
Qed.
Print Assumptions version_negotiation_round_trip.

(** ** SCONE *)
Lemma turn_scone rexp cid ok sc first ver a b r :
  N.land first 128 <> 0 -> ver = SCONE1 \/ ver = SCONE2 -> lenN a < 256 -> lenN b < 256 ->
  decode_turn rexp cid ok sc (scone_packet first ver a b ++ r) =
  match sc with Some _ => Some (PErr InvalidPacket) | None => Some (PScone (bitrate first ver) r) end.
Proof.
  intros Hf Hv Ha Hb. unfold decode_turn, scone_packet.
  assert (R1 : rd_n 1 ((first :: be_bytes 4 ver ++ vec1 a ++ vec1 b) ++ r) = Some (first, be_bytes 4 ver ++ vec1 a ++ vec1 b ++ r)).
  { apply rd_n_spec. exists [first]. cbn [app]. rewrite <- !app_assoc. splits; auto. }
  rewrite R1. destruct (N.eqb_spec (N.land first 128) 0); [contradiction|].
  rewrite rd_be by (destruct Hv as [-> | ->]; reflexivity). rewrite rd_vec1 by exact Ha. rewrite rd_vec1 by exact Hb.
  destruct Hv as [-> | ->]; reflexivity.
Qed.
Definition set_scone (s : option N) (u : public) : public :=
  mkPub (u_type u) (u_dcid u) (u_scid u) (u_token u) (u_hlen u) (u_ver u) (u_data u) s.
Lemma turn_scone_indep rexp cid ok s data : 
  match decode_turn rexp cid ok None data with
  | Some (POk u r) => decode_turn rexp cid ok s data = Some (POk (set_scone s u) r)
  | Some (PErr e) => decode_turn rexp cid ok s data = Some (PErr e)
  | Some (PScone _ _) => True
  | None => decode_turn rexp cid ok s data = None
  end.
Proof.
  unfold decode_turn. destruct (rd_n 1 data) as [[f l0]|]; [|reflexivity].
  destruct (N.land f 128 =? 0).
  { destruct (cid l0) as [[d l1]|]; [|reflexivity]. destruct (Nat.ltb _ _); reflexivity. }
  destruct (rd_n 4 l0) as [[ver l1]|]; [|reflexivity]. destruct (rd_vec 1 l1) as [[d l2]|]; [|reflexivity].
  destruct (rd_vec 1 l2) as [[e l3]|]; [|reflexivity]. destruct (ver =? 0); [reflexivity|].
  destruct (_ || _)%bool; [exact Logic.I|]. destruct (version_of_wire ver) as [v|]; [|destruct ok; reflexivity].
  destruct (_ || _)%bool; [reflexivity|]. destruct (type_from_byte _ v) as [t|]; [|reflexivity].
  destruct (decode_long rexp data l3 t v) as [[[tk hl] l4]|]; reflexivity.
Qed.

Lemma turn_scone_field rexp cid ok s data u r : decode_turn rexp cid ok s data = Some (POk u r) -> u_scone u = s.
Proof.
  unfold decode_turn. destruct (rd_n 1 data) as [[f l0]|]; [|discriminate].
  destruct (N.land f 128 =? 0).
  { destruct (cid l0) as [[d l1]|]; [|discriminate]. destruct (Nat.ltb _ _); [discriminate|]. intros H. apply some_inj in H. injection H as <- _. reflexivity. }
  destruct (rd_n 4 l0) as [[ver l1]|]; [|discriminate]. destruct (rd_vec 1 l1) as [[d l2]|]; [|discriminate].
  destruct (rd_vec 1 l2) as [[e l3]|]; [|discriminate]. destruct (ver =? 0); [intros H; apply some_inj in H; injection H as <- _; reflexivity|].
  destruct (_ || _)%bool; [destruct s; discriminate|]. destruct (version_of_wire ver) as [v|].
  2: { destruct ok; [|discriminate]. intros H. apply some_inj in H. injection H as <- _. reflexivity. }
  destruct (_ || _)%bool; [discriminate|]. destruct (type_from_byte _ v) as [t|]; [|discriminate].
  destruct (decode_long rexp data l3 t v) as [[[tk hl] l4]|]; [|discriminate]. intros H. apply some_inj in H. injection H as <- _. reflexivity.
Qed.

(** One SCONE packet in front of a packet is skipped and changes nothing but the rate reported: the seven bits of rate
    it carries.  Two make the datagram invalid. *)
Theorem scone_prefix_is_transparent : forall rexp cid other_ok first ver a b data,
  N.land first 128 <> 0 -> ver = SCONE1 \/ ver = SCONE2 -> lenN a < 256 -> lenN b < 256 ->
  (forall u rest, decode_pkt rexp cid other_ok data = Some (POk u rest) -> u_scone u = None ->
     decode_pkt rexp cid other_ok (scone_packet first ver a b ++ data) = Some (POk (set_scone (Some (bitrate first ver)) u) rest)) /\
  (forall first' ver' a' b', N.land first' 128 <> 0 -> ver' = SCONE1 \/ ver' = SCONE2 -> lenN a' < 256 -> lenN b' < 256 ->
     decode_pkt rexp cid other_ok (scone_packet first ver a b ++ scone_packet first' ver' a' b' ++ data) = Some (PErr InvalidPacket)).
Proof.
  intros rexp cid ok first ver a b data Hf Hv Ha Hb. split.
  - intros u rest H Hs. unfold decode_pkt. rewrite turn_scone by assumption. cbv iota.
    unfold decode_pkt in H. pose proof (turn_scone_indep rexp cid ok (Some (bitrate first ver)) data) as I0.
    destruct (decode_turn rexp cid ok None data) as [[u0 r0|e|rate r0]|]; try discriminate.
    + apply some_inj in H. injection H as <- <-. exact I0.
    + apply turn_scone_field in H. congruence.
  - intros first' ver' a' b' Hf' Hv' Ha' Hb'. unfold decode_pkt. rewrite turn_scone by assumption. cbv iota.
    rewrite turn_scone by assumption. reflexivity.
Qed.
Print Assumptions scone_prefix_is_transparent.

(** ** Examples, and what fails at 2^14 bytes *)
(** A toy protection: the tag depends on the number and the header, the mask on the sample. *)
Definition toy_tag (pn : N) (aad : list N) : list N := be_bytes 8 pn ++ be_bytes 8 (fold_left (fun a b => (a * 3 + b) mod 2 ^ 64) aad 0).
Definition toy_keys : keys := mkKeys 16
  (fun pn aad body => Some (body ++ toy_tag pn aad))
  (fun pn aad t => let k := (length t - 16)%nat in
     if list_eq_dec N.eq_dec (skipn k t) (toy_tag pn aad) then Some (firstn k t) else None)
  (fun s => map (fun b => b mod 256) (firstn 16 (s ++ repeat 90 16))).
Lemma toy_good : good_keys toy_keys.
Proof.
  split.
  - intros s. cbn [x_mask toy_keys]. split.
    + rewrite map_length, firstn_length, app_length, repeat_length. lia.
    + unfold bytes_ok. apply Forall_forall. intros y Hy. apply in_map_iff in Hy. destruct Hy as (z & <- & _). apply N.mod_lt. discriminate.
  - intros pn aad body Hb. cbn [x_seal x_open x_exp toy_keys]. exists (body ++ toy_tag pn aad).
    assert (L : length (toy_tag pn aad) = 16%nat) by (unfold toy_tag; rewrite app_length, !be_bytes_length; reflexivity).
    splits; auto.
    + rewrite app_length. lia.
    + apply bytes_ok_app. split; [exact Hb|]. unfold toy_tag. apply bytes_ok_app. split; apply be_bytes_ok.
    + rewrite app_length, L. replace (length body + 16 - 16)%nat with (length body) by lia.
      rewrite skipn_app_exact, firstn_app_exact. destruct (list_eq_dec N.eq_dec _ _); [reflexivity|contradiction].
Qed.
(** An Initial with a token behind 3 bytes, then a Handshake, then a short packet, coalesced: all three come back. *)
Definition toy_cid (l : list N) : option (list N * list N) := rd_bytes 3 l.
Definition toy_packet (pt : pkt_type) (v : version) (kp : bool) (pn : N) (la : option N) (payload : list N) : option (list N) :=
  match build_header [] pt v kp [7; 8; 9] [1; 2] [50; 51] 1200 true 213 pn la with
  | Some b => match b_build toy_keys (b_write payload b) with Some r => r | None => None end
  | None => None
  end.
Example three_coalesced :
  match toy_packet PInitial Version1 false 0 None [1; 2; 3], toy_packet PHandshake Version2 false 300 (Some 5) (repeat 6 30), toy_packet PShort Version1 true 70000 (Some 10) [1] with
  | Some a, Some b, Some c =>
      match parse_all (fun _ => 16%nat) toy_cid 1000 (a ++ b ++ c) with
      | Some [x; y; z] =>
          u_type x = PInitial /\ u_token x = [50; 51] /\ unprotect toy_keys 0 x = Some (DOk false 0 [1; 2; 3]) /\
          u_type y = PHandshake /\ u_ver y = Some (wire Version2) /\ unprotect toy_keys 290 y = Some (DOk false 300 (repeat 6 30)) /\
          u_type z = PShort /\ u_dcid z = [7; 8; 9] /\ unprotect toy_keys 69000 z = Some (DOk true 70000 [1])
      | _ => False
      end
  | _, _, _ => False
  end.
Proof. vm_compute. repeat split; reflexivity. Qed.
(** A packet of 2^14 bytes or more is built, but its length field is cut to 14 bits: the parser finds a shorter
    packet with bytes behind it.  The builder does not refuse the limit. *)
Theorem long_packet_round_trip_refuted : exists b pkt payload,
  good_keys toy_keys /\ bytes_ok payload /\
  build_header [] PHandshake Version1 false [] [] [] (N.to_nat 20000) false 0 0 None = Some b /\ b_limit b <> 0%nat /\
  (length (b_enc b ++ payload) <= N.to_nat 20000)%nat /\
  b_build toy_keys (b_write payload b) = Some (Some pkt) /\
  match decode_pkt (fun _ => 16%nat) toy_cid false pkt with
  | Some (POk u rest) => rest <> [] /\ unprotect toy_keys 0 u = Some DErr
  | _ => False
  end.
Proof.
  exists (match build_header [] PHandshake Version1 false [] [] [] (N.to_nat 20000) false 0 0 None with Some b => b | None => mkB [] 0 0 0 0 0 0 0 0 end).
  exists (match build_header [] PHandshake Version1 false [] [] [] (N.to_nat 20000) false 0 0 None with
          | Some b => match b_build toy_keys (b_write (repeat 1 (N.to_nat 16500)) b) with Some (Some p) => p | _ => [] end | None => [] end).
  exists (repeat 1 (N.to_nat 16500)).
  split; [exact toy_good|]. split.
  { unfold bytes_ok. apply Forall_forall. intros y Hy. apply repeat_spec in Hy. subst y. reflexivity. }
  split; [vm_compute; reflexivity|]. split; [vm_compute; discriminate|].
  split; [apply Nat.leb_le; vm_compute; reflexivity|]. split; [vm_compute; reflexivity|].
  vm_compute. split; [discriminate|reflexivity].
Qed.
Print Assumptions long_packet_round_trip_refuted.

(** Contents that exceed the limit never become a packet. *)
Theorem built_within_limit : forall x pre pt v kp dcid scid token limit grease rnd pn la b payload r,
  build_header pre pt v kp dcid scid token limit grease rnd pn la = Some b -> b_build x (b_write payload b) = Some (Some r) ->
  (length (b_enc b ++ payload) <= b_limit b)%nat.
Proof.
  intros x pre pt v kp dcid scid token limit grease rnd pn la b payload r _ H. unfold b_build in H.
  destruct (Nat.ltb_spec (b_limit (b_write payload b)) (length (b_enc (b_write payload b)))) as [L|L]; [discriminate|]. exact L.
Qed.
Print Assumptions built_within_limit.
