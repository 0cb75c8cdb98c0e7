(** C49: the server name search stays in bounds and finds the name; C76: CRYPTO frames
    carry the right bytes, sliced or not. *)
From Coq Require Import Lia.
From Verif Require Import Base Lib CodecModel CodecSpec CodecProofs SniModel.

(** ** Specification: a ClientHello, as TLS lays it out (RFC 8446, 4.1.2; RFC 6066, 3) *)
Definition vec_of (k : nat) (b : list N) : list N := be_bytes k (lenN b) ++ b.
Definition ext_of (ty : N) (body : list N) : list N := be_bytes 2 ty ++ vec_of 2 body.
Definition hello_head (fixed sid ciphers comp extlen : list N) : list N :=
  [1] ++ fixed ++ vec_of 1 sid ++ vec_of 2 ciphers ++ vec_of 1 comp ++ extlen.
(** The server_name extension up to the name: type 0, length, list length, name type,
    name length. *)
Definition sni_head (elen : N) (name : list N) (three : list N) : list N :=
  be_bytes 2 0 ++ be_bytes 2 elen ++ be_bytes 2 (3 + lenN name) ++ three.

(** ** Bounds *)

Lemma dec_uint_ok k d : dec_wf d ->
  (exists v, dec_uint k d = (Some v, dec_advance d k) /\ (k <= dec_remaining d)%nat) \/
  dec_uint k d = (None, d).
Proof.
  intros W. unfold dec_uint, dec_n. destruct (Nat.ltb_spec (dec_remaining d) k); [right; reflexivity|left].
  eexists. split; [reflexivity|lia].
Qed.

Lemma adv_wf2 d k : dec_wf d -> (k <= dec_remaining d)%nat -> dec_wf (dec_advance d k).
Proof. intros. apply dec_advance_wf; assumption. Qed.

Lemma adv_rem d k : dec_remaining (dec_advance d k) = (dec_remaining d - k)%nat.
Proof. unfold dec_remaining, dec_advance. cbn. lia. Qed.

Lemma sni_skip_ok n d : dec_wf d ->
  sni_skip n d = Some None \/
  (sni_skip n d = Some (Some (dec_advance d n)) /\ (n <= dec_remaining d)%nat).
Proof.
  intros W. unfold sni_skip, dec_skip. destruct (Nat.ltb_spec (dec_remaining d) n); [left; reflexivity|right].
  destruct (Nat.leb_spec n (dec_remaining d)); [auto|lia].
Qed.

Lemma sni_skip_vec_ok k d : dec_wf d ->
  sni_skip_vec k d = Some None \/
  exists n, sni_skip_vec k d = Some (Some (dec_advance (dec_advance d k) n)) /\
            (k <= dec_remaining d)%nat /\ (n <= dec_remaining (dec_advance d k))%nat.
Proof.
  intros W. unfold sni_skip_vec. destruct (dec_uint_ok k d W) as [(v & -> & H) | ->]; [|left; reflexivity].
  destruct (sni_skip_ok (N.to_nat v) (dec_advance d k)) as [-> | [-> H2]];
    [apply adv_wf2; assumption|left; reflexivity|right].
  exists (N.to_nat v). auto.
Qed.

Lemma sni_exts_ok fuel : forall d, dec_wf d -> (dec_remaining d < fuel)%nat ->
  sni_exts fuel (length (dbuf d)) d = Some None \/
  exists s e, sni_exts fuel (length (dbuf d)) d = Some (Some (s, e)) /\
              (doff d <= s <= e)%nat /\ (e <= length (dbuf d))%nat.
Proof.
  induction fuel as [|f IH]; intros d W Hf; [lia|]. cbn [sni_exts].
  destruct (Nat.ltb_spec (dec_remaining d) 4); [left; reflexivity|].
  destruct (dec_uint_ok 2 d W) as [(ty & -> & H1) | ->]; [|left; reflexivity].
  assert (W1 : dec_wf (dec_advance d 2)) by (apply adv_wf2; auto; lia).
  destruct (dec_uint_ok 2 _ W1) as [(el & -> & H2) | ->]; [|left; reflexivity].
  set (d2 := dec_advance (dec_advance d 2) 2).
  assert (W2 : dec_wf d2) by (apply adv_wf2; auto).
  assert (R2 : dec_remaining d2 = (dec_remaining d - 4)%nat).
  { unfold d2. rewrite !adv_rem. lia. }
  destruct (ty =? 0).
  - destruct (dec_uint_ok 2 d2 W2) as [(sl & -> & H3) | ->]; [|left; reflexivity].
    destruct (sl <? 3) eqn:SL; [left; reflexivity|]. apply N.ltb_ge in SL.
    assert (W3 : dec_wf (dec_advance d2 2)) by (apply adv_wf2; auto).
    destruct (sni_skip_ok 3 _ W3) as [-> | [-> H4]]; [left; reflexivity|].
    cbn [sbind]. set (d4 := dec_advance (dec_advance d2 2) 3).
    assert (W4 : dec_wf d4) by (apply adv_wf2; auto).
    assert (B4 : dbuf d4 = dbuf d) by reflexivity.
    assert (O4 : (doff d4 = doff d + 9)%nat) by (unfold d4, d2, dec_advance; cbn; lia).
    assert (T : (doff d4 + dec_remaining d4 = length (dbuf d))%nat).
    { unfold dec_remaining. rewrite B4. unfold dec_wf in W4. rewrite B4 in W4. lia. }
    destruct (Nat.ltb_spec (doff d4 + dec_remaining d4) (doff d4 + N.to_nat sl - 3)); [left; reflexivity|].
    right. exists (doff d4), (doff d4 + N.to_nat sl - 3)%nat.
    destruct (Nat.leb_spec (doff d4) (doff d4 + N.to_nat sl - 3)); [|lia].
    destruct (Nat.leb_spec (doff d4 + N.to_nat sl - 3) (length (dbuf d))); [|lia].
    cbn [andb]. splits; auto; lia.
  - destruct (sni_skip_ok (N.to_nat el) d2 W2) as [-> | [-> H3]]; [left; reflexivity|].
    cbn [sbind]. set (d3 := dec_advance d2 (N.to_nat el)).
    assert (W3 : dec_wf d3) by (apply adv_wf2; auto).
    assert (B3 : dbuf d3 = dbuf d) by reflexivity.
    destruct (IH d3 W3) as [E | (s & e & E & Hs & He)].
    + unfold d3. rewrite adv_rem. lia.
    + rewrite B3 in E. left. exact E.
    + rewrite B3 in *. right. exists s, e. splits; auto; try lia.
      assert (doff d3 = doff d + 4 + N.to_nat el)%nat by (unfold d3, d2, dec_advance; cbn; lia). lia.
Qed.

(** C49: the search ends without failing on every byte string, and a range it returns is
    inside the string. *)
Theorem find_sni_in_bounds : forall buf,
  find_sni buf = Some None \/
  exists s e, find_sni buf = Some (Some (s, e)) /\ (s <= e)%nat /\ (e <= length buf)%nat.
Proof.
  intros buf. unfold find_sni. destruct (Nat.eqb (length buf) 0); [left; reflexivity|].
  set (d := dec_new buf). assert (W : dec_wf d) by (unfold dec_wf; cbn; lia).
  destruct (dec_uint_ok 1 d W) as [(t & -> & H1) | ->]; [|left; reflexivity].
  destruct (negb (t =? 1)); [left; reflexivity|].
  assert (W1 : dec_wf (dec_advance d 1)) by (apply adv_wf2; auto).
  destruct (sni_skip_ok (3 + 2 + 32) _ W1) as [-> | [-> H2]]; [left; reflexivity|]. cbn [sbind].
  set (d2 := dec_advance (dec_advance d 1) (3 + 2 + 32)).
  assert (W2 : dec_wf d2) by (apply adv_wf2; auto).
  assert (SV : forall k d0, dec_wf d0 -> dbuf d0 = buf ->
     sni_skip_vec k d0 = Some None \/ exists d1, sni_skip_vec k d0 = Some (Some d1) /\ dec_wf d1 /\ dbuf d1 = buf).
  { intros k d0 W0 B0. destruct (sni_skip_vec_ok k d0 W0) as [-> | (n & -> & Ha & Hb)]; [left; reflexivity|right].
    eexists. splits; [reflexivity| |exact B0]. apply adv_wf2; [apply adv_wf2|]; auto. }
  destruct (SV 1%nat d2 W2 eq_refl) as [-> | (d3 & -> & W3 & B3)]; [left; reflexivity|]. cbn [sbind].
  destruct (SV 2%nat d3 W3 B3) as [-> | (d4 & -> & W4 & B4)]; [left; reflexivity|]. cbn [sbind].
  destruct (SV 1%nat d4 W4 B4) as [-> | (d5 & -> & W5 & B5)]; [left; reflexivity|]. cbn [sbind].
  destruct (sni_skip_ok 2 _ W5) as [-> | [-> H6]]; [left; reflexivity|]. cbn [sbind].
  set (d6 := dec_advance d5 2). assert (W6 : dec_wf d6) by (apply adv_wf2; auto).
  assert (B6 : dbuf d6 = buf) by exact B5.
  destruct (sni_exts_ok (S (length buf)) d6 W6) as [E | (s & e & E & Hs & He)].
  - unfold dec_remaining. rewrite B6. lia.
  - left. rewrite B6 in E. exact E.
  - right. rewrite B6 in *. exists s, e. splits; auto; lia.
Qed.
Print Assumptions find_sni_in_bounds.

(** ** The name is found *)

Lemma dec_uint_at k pre v post : v < 256 ^ N.of_nat k ->
  dec_uint k (mkDec (pre ++ be_bytes k v ++ post) (length pre)) =
  (Some v, mkDec (pre ++ be_bytes k v ++ post) (length pre + k)).
Proof.
  intros Hv. unfold dec_uint, dec_n, dec_remaining, dec_advance. cbn [dbuf doff].
  assert (L : length (be_bytes k v) = k) by apply be_bytes_length.
  rewrite !app_length, L.
  destruct (Nat.ltb_spec (length pre + (k + length post) - length pre) k); [lia|].
  rewrite skipn_app, skipn_all, Nat.sub_diag. cbn [skipn app].
  rewrite firstn_app, L, Nat.sub_diag. cbn [firstn]. rewrite app_nil_r.
  rewrite <- L at 1. rewrite firstn_all. rewrite be_val_be_bytes_small by exact Hv. reflexivity.
Qed.

Lemma sni_skip_at pre x post : sni_skip (length x) (mkDec (pre ++ x ++ post) (length pre)) =
  Some (Some (mkDec (pre ++ x ++ post) (length pre + length x))).
Proof.
  unfold sni_skip, dec_skip, dec_remaining, dec_advance. cbn [dbuf doff].
  rewrite !app_length.
  destruct (Nat.ltb_spec (length pre + (length x + length post) - length pre) (length x)); [lia|].
  destruct (Nat.leb_spec (length x) (length pre + (length x + length post) - length pre)); [reflexivity|lia].
Qed.

Lemma sni_skip_vec_at k pre x post : lenN x < 256 ^ N.of_nat k ->
  sni_skip_vec k (mkDec (pre ++ vec_of k x ++ post) (length pre)) =
  Some (Some (mkDec (pre ++ vec_of k x ++ post) (length pre + length (vec_of k x)))).
Proof.
  intros H. unfold sni_skip_vec, vec_of. rewrite <- app_assoc.
  rewrite dec_uint_at by exact H.
  replace (N.to_nat (lenN x)) with (length x) by (unfold lenN; lia).
  replace (pre ++ be_bytes k (lenN x) ++ x ++ post)
    with ((pre ++ be_bytes k (lenN x)) ++ x ++ post) by (rewrite <- app_assoc; reflexivity).
  replace (length pre + k)%nat with (length (pre ++ be_bytes k (lenN x)))
    by (rewrite app_length, be_bytes_length; lia).
  rewrite sni_skip_at. rewrite !app_length, be_bytes_length. do 2 f_equal. f_equal. lia.
Qed.

Definition ext_ok (x : N * list N) : Prop := 0 < fst x < 65536 /\ lenN (snd x) < 65536.

Lemma sni_exts_find exts : Forall ext_ok exts -> forall fuel pre elen name three post,
  length three = 3%nat -> elen < 65536 -> 3 + lenN name < 65536 ->
  (length exts < fuel)%nat ->
  let tail := concat (map (fun x => ext_of (fst x) (snd x)) exts) ++ sni_head elen name three ++ name ++ post in
  let buf := pre ++ tail in
  sni_exts fuel (length buf) (mkDec buf (length pre)) =
  Some (Some ((length pre + length (concat (map (fun x => ext_of (fst x) (snd x)) exts)) + 9)%nat,
              (length pre + length (concat (map (fun x => ext_of (fst x) (snd x)) exts)) + 9 + length name)%nat)).
Proof.
  induction 1 as [|[ty body] exts [Hty Hb] _ IH]; intros fuel pre elen name three post H3 He Hn Hf tail buf;
    (destruct fuel as [|f]; [lia|]).
  - cbn [map concat app length] in *. rewrite Nat.add_0_r. subst tail buf.
    cbn [sni_exts]. unfold sni_head.
    assert (RM : (9 + length name + length post = length ((be_bytes 2 0 ++ be_bytes 2 elen ++ be_bytes 2 (3 + lenN name) ++ three) ++ name ++ post))%nat).
    { rewrite !app_length, !be_bytes_length, H3. lia. }
    match goal with |- context[Nat.ltb (dec_remaining ?d) 4] =>
      destruct (Nat.ltb_spec (dec_remaining d) 4) as [C|_] end.
    { exfalso. unfold dec_remaining in C. cbn [dbuf doff] in C. rewrite app_length, <- RM in C. lia. }
    rewrite <- !app_assoc. rewrite (dec_uint_at 2 pre 0) by reflexivity.
    replace (pre ++ be_bytes 2 0 ++ be_bytes 2 elen ++ be_bytes 2 (3 + lenN name) ++ three ++ name ++ post)
      with ((pre ++ be_bytes 2 0) ++ be_bytes 2 elen ++ be_bytes 2 (3 + lenN name) ++ three ++ name ++ post)
      by (rewrite <- app_assoc; reflexivity).
    replace (length pre + 2)%nat with (length (pre ++ be_bytes 2 0)) by (rewrite app_length, be_bytes_length; reflexivity).
    rewrite dec_uint_at by exact He. change (0 =? 0) with true. cbv iota.
    set (p2 := pre ++ be_bytes 2 0).
    replace (p2 ++ be_bytes 2 elen ++ be_bytes 2 (3 + lenN name) ++ three ++ name ++ post)
      with ((p2 ++ be_bytes 2 elen) ++ be_bytes 2 (3 + lenN name) ++ three ++ name ++ post)
      by (rewrite <- app_assoc; reflexivity).
    replace (length p2 + 2)%nat with (length (p2 ++ be_bytes 2 elen)) by (rewrite app_length, be_bytes_length; reflexivity).
    rewrite dec_uint_at by exact Hn.
    destruct (3 + lenN name <? 3) eqn:L3; [apply N.ltb_lt in L3; lia|].
    set (p3 := p2 ++ be_bytes 2 elen).
    replace (p3 ++ be_bytes 2 (3 + lenN name) ++ three ++ name ++ post)
      with ((p3 ++ be_bytes 2 (3 + lenN name)) ++ three ++ name ++ post)
      by (rewrite <- app_assoc; reflexivity).
    replace (length p3 + 2)%nat with (length (p3 ++ be_bytes 2 (3 + lenN name))) by (rewrite app_length, be_bytes_length; reflexivity).
    rewrite <- H3 at 1. rewrite sni_skip_at. cbn [sbind doff].
    set (p4 := p3 ++ be_bytes 2 (3 + lenN name)).
    assert (L4 : (length p4 = length pre + 6)%nat).
    { unfold p4, p3, p2. rewrite !app_length, !be_bytes_length. lia. }
    assert (Nn : N.to_nat (3 + lenN name) = (3 + length name)%nat) by (unfold lenN; lia).
    rewrite Nn, L4, H3.
    match goal with |- context[Nat.ltb (?a + dec_remaining ?d) ?e] =>
      destruct (Nat.ltb_spec (a + dec_remaining d) e) as [C|_] end.
    { exfalso. unfold dec_remaining in C. cbn [dbuf doff] in C. rewrite !app_length in C. lia. }
    replace (length pre + 6 + 3 + (3 + length name) - 3)%nat with (length pre + 9 + length name)%nat by lia.
    replace (length pre + 6 + 3)%nat with (length pre + 9)%nat by lia.
    destruct (Nat.leb_spec (length pre + 9) (length pre + 9 + length name)); [|lia].
    match goal with |- context[Nat.leb ?a ?b] => destruct (Nat.leb_spec a b) as [_|C] end.
    { cbn [andb]. reflexivity. }
    exfalso. rewrite !app_length in C. lia.
  - cbn [map concat fst snd] in *. cbn [length] in Hf. subst tail buf.
    set (rest := concat (map (fun x => ext_of (fst x) (snd x)) exts)) in *.
    cbn [sni_exts].
    assert (EL : (length (ext_of ty body) = 4 + length body)%nat).
    { unfold ext_of, vec_of. rewrite !app_length, !be_bytes_length. lia. }
    match goal with |- context[Nat.ltb (dec_remaining ?d) 4] =>
      destruct (Nat.ltb_spec (dec_remaining d) 4) as [C|_] end.
    { exfalso. unfold dec_remaining in C. cbn [dbuf doff] in C. rewrite !app_length, EL in C. lia. }
    rewrite <- !app_assoc. unfold ext_of at 1 2 3 4 5, vec_of at 1 2 3 4 5.
    set (after := rest ++ sni_head elen name three ++ name ++ post).
    rewrite <- !app_assoc.
    rewrite (dec_uint_at 2 pre ty) by (cbn in Hty; change (256 ^ N.of_nat 2) with 65536; lia).
    replace (pre ++ be_bytes 2 ty ++ be_bytes 2 (lenN body) ++ body ++ after)
      with ((pre ++ be_bytes 2 ty) ++ be_bytes 2 (lenN body) ++ body ++ after)
      by (rewrite <- app_assoc; reflexivity).
    replace (length pre + 2)%nat with (length (pre ++ be_bytes 2 ty)) by (rewrite app_length, be_bytes_length; reflexivity).
    rewrite dec_uint_at by exact Hb.
    destruct (ty =? 0) eqn:T0; [apply N.eqb_eq in T0; cbn in Hty; lia|].
    set (p2 := pre ++ be_bytes 2 ty).
    replace (p2 ++ be_bytes 2 (lenN body) ++ body ++ after)
      with ((p2 ++ be_bytes 2 (lenN body)) ++ body ++ after)
      by (rewrite <- app_assoc; reflexivity).
    replace (length p2 + 2)%nat with (length (p2 ++ be_bytes 2 (lenN body))) by (rewrite app_length, be_bytes_length; reflexivity).
    replace (N.to_nat (lenN body)) with (length body) by (unfold lenN; lia). rewrite sni_skip_at. cbn [sbind].
    set (p3 := p2 ++ be_bytes 2 (lenN body)).
    replace (p3 ++ body ++ after) with ((p3 ++ body) ++ after) by (rewrite <- app_assoc; reflexivity).
    replace (length p3 + length body)%nat with (length (p3 ++ body)) by (rewrite app_length; reflexivity).
    unfold after. rewrite (IH f (p3 ++ body) elen name three post H3 He Hn) by lia.
    assert (L : (length (p3 ++ body) = length pre + (4 + length body))%nat).
    { unfold p3, p2. rewrite !app_length, !be_bytes_length. lia. }
    rewrite L. rewrite !app_length, !be_bytes_length. do 3 f_equal; lia.
Qed.

(** In a ClientHello whose extensions include a server name, the range returned is
    exactly the name, whatever comes before and after. *)
Theorem find_sni_finds_name : forall fixed sid ciphers comp extlen exts elen name three post,
  length fixed = 37%nat -> lenN sid < 256 -> lenN ciphers < 65536 -> lenN comp < 256 ->
  length extlen = 2%nat -> Forall ext_ok exts -> elen < 65536 -> length three = 3%nat ->
  3 + lenN name < 65536 ->
  let pre := hello_head fixed sid ciphers comp extlen ++
             concat (map (fun x => ext_of (fst x) (snd x)) exts) ++ sni_head elen name three in
  find_sni (pre ++ name ++ post) = Some (Some (length pre, (length pre + length name)%nat)).
Proof.
  intros fixed sid ciphers comp extlen exts elen name three post Hf Hs Hc Hm Hx HE He H3 Hn pre.
  unfold find_sni. destruct (Nat.eqb_spec (length (pre ++ name ++ post)) 0) as [C|_].
  { exfalso. unfold pre, hello_head in C. rewrite !app_length in C. cbn in C. lia. }
  unfold pre, hello_head. rewrite <- !app_assoc.
  set (tail := concat (map (fun x => ext_of (fst x) (snd x)) exts) ++ sni_head elen name three ++ name ++ post).
  unfold dec_new.
  set (whole := [1] ++ fixed ++ vec_of 1 sid ++ vec_of 2 ciphers ++ vec_of 1 comp ++ extlen ++ tail).
  assert (E1 : dec_uint 1 (mkDec whole 0) = (Some 1, mkDec whole 1)).
  { exact (dec_uint_at 1 [] 1 (fixed ++ vec_of 1 sid ++ vec_of 2 ciphers ++ vec_of 1 comp ++ extlen ++ tail) eq_refl). }
  rewrite E1. change (negb (1 =? 1)) with false. cbv iota.
  assert (E2 : sni_skip (3 + 2 + 32) (mkDec whole 1) = Some (Some (mkDec whole 38))).
  { change (3 + 2 + 32)%nat with 37%nat. rewrite <- Hf at 1.
    unfold whole. rewrite (sni_skip_at [1] fixed). cbn [length]. rewrite Hf. reflexivity. }
  rewrite E2. cbn [sbind].
  set (p1 := [1] ++ fixed).
  assert (LP1 : length p1 = 38%nat) by (unfold p1; rewrite app_length, Hf; reflexivity).
  assert (W1 : whole = p1 ++ vec_of 1 sid ++ vec_of 2 ciphers ++ vec_of 1 comp ++ extlen ++ tail).
  { unfold whole, p1. rewrite <- !app_assoc. reflexivity. }
  rewrite <- LP1. rewrite W1 at 1. rewrite sni_skip_vec_at by exact Hs. cbn [sbind].
  set (p2 := p1 ++ vec_of 1 sid).
  assert (W2 : whole = p2 ++ vec_of 2 ciphers ++ vec_of 1 comp ++ extlen ++ tail).
  { rewrite W1. unfold p2. rewrite <- !app_assoc. reflexivity. }
  replace (length p1 + length (vec_of 1 sid))%nat with (length p2) by (unfold p2; rewrite app_length; reflexivity).
  rewrite <- W1, W2 at 1. rewrite sni_skip_vec_at by exact Hc. cbn [sbind].
  set (p3 := p2 ++ vec_of 2 ciphers).
  assert (W3 : whole = p3 ++ vec_of 1 comp ++ extlen ++ tail).
  { rewrite W2. unfold p3. rewrite <- !app_assoc. reflexivity. }
  replace (length p2 + length (vec_of 2 ciphers))%nat with (length p3) by (unfold p3; rewrite app_length; reflexivity).
  rewrite <- W2, W3 at 1. rewrite sni_skip_vec_at by exact Hm. cbn [sbind].
  set (p4 := p3 ++ vec_of 1 comp).
  assert (W4 : whole = p4 ++ extlen ++ tail).
  { rewrite W3. unfold p4. rewrite <- !app_assoc. reflexivity. }
  replace (length p3 + length (vec_of 1 comp))%nat with (length p4) by (unfold p4; rewrite app_length; reflexivity).
  rewrite <- W3, W4 at 1. rewrite <- Hx at 1. rewrite sni_skip_at. cbn [sbind].
  set (p5 := p4 ++ extlen).
  assert (W5 : whole = p5 ++ tail).
  { rewrite W4. unfold p5. rewrite <- !app_assoc. reflexivity. }
  replace (length p4 + length extlen)%nat with (length p5) by (unfold p5; rewrite app_length; reflexivity).
  rewrite <- W4, W5. unfold tail.
  rewrite sni_exts_find; auto.
  - assert (LP : length p5 = length ([1] ++ fixed ++ vec_of 1 sid ++ vec_of 2 ciphers ++ vec_of 1 comp ++ extlen)).
    { unfold p5, p4, p3, p2, p1. rewrite <- !app_assoc. reflexivity. }
    assert (LS : length (sni_head elen name three) = 9%nat).
    { unfold sni_head. rewrite !app_length, !be_bytes_length, H3. reflexivity. }
    set (X := concat (map (fun x => ext_of (fst x) (snd x)) exts)).
    replace (([1] ++ fixed ++ vec_of 1 sid ++ vec_of 2 ciphers ++ vec_of 1 comp ++ extlen ++ X ++ sni_head elen name three))
      with (([1] ++ fixed ++ vec_of 1 sid ++ vec_of 2 ciphers ++ vec_of 1 comp ++ extlen) ++ X ++ sni_head elen name three)
      by (rewrite <- !app_assoc; reflexivity).
    rewrite (app_length _ (X ++ _)), (app_length X), <- LP, LS. do 3 f_equal; lia.
  - rewrite !app_length.
    assert (length exts <= length (concat (map (fun x => ext_of (fst x) (snd x)) exts)))%nat; [|lia].
    clear. induction exts as [|[ty b] r IH]; cbn [map concat length]; [lia|].
    rewrite app_length. unfold ext_of at 1. rewrite app_length, be_bytes_length. lia.
Qed.
Print Assumptions find_sni_finds_name.

Example find_sni_finds_name_ex :
  let buf := hello_head (repeat 0 37) [9;9] [19;1] [0] [0;22] ++ ext_of 43 [2;3;4] ++
             sni_head 8 [97;98;99] [0;0;3] ++ [97;98;99] ++ [7;7] in
  find_sni buf = Some (Some (65%nat, 68%nat)) /\ firstn 3 (skipn 65 buf) = [97;98;99].
Proof. vm_compute. auto. Qed.

(** ** C76 *)

(** What a frame must be: the bytes of the data at that offset. *)
Definition frame_right (offset : N) (data : list N) (f : N * list N * N) : Prop :=
  let '(o, b, n) := f in
  offset <= o /\ o + lenN b <= offset + lenN data /\
  b = firstn (length b) (skipn (N.to_nat (o - offset)) data).

Lemma varint_len_small v n : varint_len v = Some n -> 1 <= n <= 8 /\ (v < 64 -> n = 1) /\ (64 <= v -> 2 <= n)
   /\ (v < 16384 -> n <= 2).
Proof.
  unfold varint_len.
  destruct (v <? 2 ^ 6) eqn:E1; [intros H; apply some_inj in H; apply N.ltb_lt in E1; change (2 ^ 6) with 64 in E1; lia|].
  apply N.ltb_ge in E1. change (2 ^ 6) with 64 in E1.
  destruct (v <? 2 ^ 14) eqn:E2; [intros H; apply some_inj in H; lia|].
  apply N.ltb_ge in E2. change (2 ^ 14) with 16384 in E2.
  destruct (v <? 2 ^ 30); [intros H; apply some_inj in H; lia|].
  destruct (v <? 2 ^ 62); [intros H; apply some_inj in H; lia|discriminate].
Qed.

Lemma varint_len_mono a b x y : a <= b -> varint_len a = Some x -> varint_len b = Some y -> x <= y.
Proof.
  unfold varint_len. intros L.
  destruct (a <? 2 ^ 6) eqn:A1.
  { intros H. apply some_inj in H. subst x. intros H. apply varint_len_small in H. lia. }
  apply N.ltb_ge in A1. assert (B1 : b <? 2 ^ 6 = false) by (apply N.ltb_ge; lia). rewrite B1.
  destruct (a <? 2 ^ 14) eqn:A2.
  { intros H. apply some_inj in H. subst x. destruct (b <? 2 ^ 14); [intros H; apply some_inj in H; lia|].
    destruct (b <? 2 ^ 30); [intros H; apply some_inj in H; lia|].
    destruct (b <? 2 ^ 62); [intros H; apply some_inj in H; lia|discriminate]. }
  apply N.ltb_ge in A2. assert (B2 : b <? 2 ^ 14 = false) by (apply N.ltb_ge; lia). rewrite B2.
  destruct (a <? 2 ^ 30) eqn:A3.
  { intros H. apply some_inj in H. subst x. destruct (b <? 2 ^ 30); [intros H; apply some_inj in H; lia|].
    destruct (b <? 2 ^ 62); [intros H; apply some_inj in H; lia|discriminate]. }
  apply N.ltb_ge in A3. assert (B3 : b <? 2 ^ 30 = false) by (apply N.ltb_ge; lia). rewrite B3.
  destruct (a <? 2 ^ 62); [|discriminate]. intros H; apply some_inj in H.
  destruct (b <? 2 ^ 62); [|discriminate]. intros H2; apply some_inj in H2. lia.
Qed.

Lemma varint_len_some v : v < 2 ^ 62 -> exists n, varint_len v = Some n.
Proof.
  intros H. unfold varint_len. destruct (v <? 2 ^ 6); [eauto|]. destruct (v <? 2 ^ 14); [eauto|].
  destruct (v <? 2 ^ 30); [eauto|]. destruct (v <? 2 ^ 62) eqn:E; [eauto|]. apply N.ltb_ge in E. lia.
Qed.

Lemma write_chunk_spec room o data : o < 2 ^ 62 -> room < 2 ^ 62 ->
  exists w, write_chunk room (o, data) = Some w /\
    match w with
    | None => True
    | Some (o', b, n) => o' = o /\ b = firstn (length b) data /\ n <= room /\
                         lenN b <= lenN data /\ (data <> [] -> b <> [])
    end.
Proof.
  intros Ho Hr. unfold write_chunk.
  destruct (varint_len_some o Ho) as (vo & Evo). rewrite Evo.
  destruct (room <? 1 + vo + 1 + 1) eqn:R; [eexists; split; [reflexivity|exact Logic.I]|].
  apply N.ltb_ge in R.
  set (l0 := N.min (lenN data) (room - (1 + vo + 1))).
  assert (L0 : l0 <= room - (1 + vo + 1)) by (unfold l0; lia).
  destruct (varint_len_some l0) as (vl & Evl); [lia|]. rewrite Evl.
  assert (V := varint_len_small _ _ Evl).
  destruct (room <? 1 + vo + 1 + (vl - 1)) eqn:R2.
  { apply N.ltb_lt in R2. exfalso.
    assert (64 <= l0 \/ l0 < 64) as [C|C] by lia; [|assert (vl = 1) by (apply V; exact C); lia].
    destruct (N.ltb_spec l0 16384); [assert (vl <= 2) by (apply V; assumption); lia|lia]. }
  apply N.ltb_ge in R2.
  set (l1 := N.min (lenN data) (room - (1 + vo + 1 + (vl - 1)))).
  assert (L1 : l1 <= l0) by (unfold l1, l0; lia).
  destruct (varint_len_some l1) as (vl1 & Evl1); [lia|]. rewrite Evl1.
  assert (M := varint_len_mono _ _ _ _ L1 Evl1 Evl).
  assert (B : length (firstnN l1 data) = N.to_nat l1).
  { unfold firstnN. rewrite firstn_length. unfold l1, lenN. lia. }
  eexists. split; [reflexivity|]. cbn. splits.
  - reflexivity.
  - rewrite B. reflexivity.
  - unfold l1 in *. lia.
  - unfold lenN at 1. rewrite B. unfold l1. lia.
  - intros Hd Hn. assert (length (firstnN l1 data) = 0)%nat by (rewrite Hn; reflexivity).
    assert (l1 = 0) by lia.
    assert (1 <= lenN data) by (destruct data; [congruence|rewrite lenN_cons; lia]).
    assert (room = 1 + vo + 1 + (vl - 1)) by (unfold l1 in *; lia).
    assert (l0 < 64 \/ 64 <= l0) as [C|C] by lia.
    + assert (vl = 1) by (apply V; exact C). lia.
    + assert (l0 <= vl - 1) by lia. lia.
Qed.

Lemma firstn_of_slice (b d : list N) k (x : list N) :
  b = firstn (length b) x -> x = firstn k (skipn 0 d) -> b = firstn (length b) d.
Proof.
  intros Hb ->. cbn [skipn] in Hb. rewrite firstn_firstn in Hb. rewrite Hb at 1.
  assert (length b <= k \/ k < length b)%nat as [H|H] by lia.
  - rewrite Nat.min_l by exact H. reflexivity.
  - rewrite Nat.min_r in Hb by lia.
    assert (length b <= k)%nat; [|lia].
    rewrite Hb. rewrite firstn_length. lia.
Qed.

Lemma skipn_firstn_len (x : list N) n m : firstn (length (firstn n (skipn m x))) (skipn m x) = firstn n (skipn m x).
Proof.
  rewrite firstn_length. destruct (Nat.min_spec n (length (skipn m x))) as [[H ->]|[H ->]]; [reflexivity|].
  rewrite firstn_all, firstn_all2 by exact H. reflexivity.
Qed.

Lemma prefix_trans (a b c : list N) : a = firstn (length a) b -> b = firstn (length b) c ->
  a = firstn (length a) c.
Proof.
  intros Ha Hb. assert (L : (length a <= length b)%nat) by (rewrite Ha, firstn_length; lia).
  rewrite Ha at 1. rewrite Hb at 1. rewrite firstn_firstn. rewrite Nat.min_l by exact L. reflexivity.
Qed.

Lemma skipn_plus (x : list N) : forall m k, skipn k (skipn m x) = skipn (k + m) x.
Proof.
  induction x as [|a x IH]; intros m k; [rewrite !skipn_nil; reflexivity|].
  destruct m; cbn [skipn]; [rewrite Nat.add_0_r; reflexivity|].
  rewrite IH. rewrite Nat.add_succ_r. reflexivity.
Qed.

(** Where the two chunks of a cut start and end. *)
Lemma limit_chunks_spec offset data mid lim l r : (mid <= length data)%nat ->
  limit_chunks (offset, firstn mid data) (offset + N.of_nat mid, skipn mid data) lim = (l, r) ->
  fst l = offset /\ snd l = firstn (length (snd l)) data /\ lenN (snd l) <= N.of_nat mid /\
  offset + N.of_nat mid <= fst r /\ fst r + lenN (snd r) <= offset + lenN data /\
  snd r = firstn (length (snd r)) (skipn (N.to_nat (fst r - offset)) data).
Proof.
  intros Hm. unfold limit_chunks.
  assert (Nl : length (firstn mid data) = mid) by (rewrite firstn_length; lia).
  assert (Nr : length (skipn mid data) = (length data - mid)%nat) by apply skipn_length.
  assert (SM : N.to_nat (offset + N.of_nat mid - offset) = mid) by lia.
  rewrite Nl, Nr.
  destruct (Nat.leb_spec (mid + (length data - mid)) lim) as [H1|H1].
  { intros E. apply pair_equal_spec in E. destruct E as [<- <-]. cbn [fst snd].
    rewrite Nl, Nr, SM. unfold lenN. rewrite Nl, Nr. splits; try reflexivity; try lia.
    rewrite firstn_all2; [reflexivity|lia]. }
  destruct (Nat.leb_spec mid lim) as [H2|H2].
  { intros E. apply pair_equal_spec in E. destruct E as [<- <-]. cbn [fst snd].
    set (k := (length data - mid + mid - lim)%nat).
    unfold lenN. rewrite Nl, skipn_length, Nr.
    replace (N.to_nat (offset + N.of_nat mid + N.of_nat k - offset)) with (k + mid)%nat by lia.
    splits; try reflexivity; try (unfold k; lia).
    rewrite skipn_plus. rewrite firstn_all2; [reflexivity|].
    rewrite skipn_length. lia. }
  destruct (Nat.leb_spec (length data - mid) lim) as [H3|H3].
  { intros E. apply pair_equal_spec in E. destruct E as [<- <-]. cbn [fst snd].
    unfold lenN. rewrite Nr, SM. rewrite firstn_firstn.
    splits; try reflexivity; try lia.
    - rewrite firstn_length. destruct (Nat.min_spec (Nat.min (lim - (length data - mid)) mid) (length data)) as [[_ ->]|[H ->]]; [reflexivity|].
      rewrite firstn_all, firstn_all2 by exact H. reflexivity.
    - rewrite firstn_length. lia.
    - rewrite firstn_all2; [reflexivity|lia]. }
  intros E. apply pair_equal_spec in E. destruct E as [<- <-]. cbn [fst snd].
  rewrite SM, firstn_firstn. unfold lenN. rewrite !firstn_length, Nr.
  splits; try reflexivity; try lia.
  - destruct (Nat.min_spec (Nat.min (lim / 2) mid) (length data)) as [[_ ->]|[H ->]]; [reflexivity|].
    rewrite firstn_all, firstn_all2 by exact H. reflexivity.
  - destruct (Nat.min_spec (lim / 2) (length data - mid)) as [[_ ->]|[H ->]]; [reflexivity|].
    rewrite firstn_all2 by lia. rewrite firstn_all2; [reflexivity|lia].
Qed.

Definition frames_size (fs : list (N * list N * N)) : N :=
  fold_right (fun f acc => snd f + acc) 0 fs.

Definition frames_disjoint (fs : list (N * list N * N)) : Prop :=
  ForallOrdPairs (fun f g => fst (fst f) + lenN (snd (fst f)) <= fst (fst g) \/
                             fst (fst g) + lenN (snd (fst g)) <= fst (fst f)) fs.

(** Whatever handshake data waits, whether or not slicing is on, each CRYPTO frame written
    carries exactly the stream's bytes at its offset, two frames never overlap, together
    they fit in the packet, and nothing panics. *)
Theorem crypto_frames_right : forall slicing limit room offset data,
  0 < limit -> data <> [] -> offset + lenN data < 2 ^ 62 -> room < 2 ^ 62 ->
  exists fs, crypto_turn slicing limit room offset data = Some fs /\
    Forall (frame_right offset data) fs /\ frames_disjoint fs /\ frames_size fs <= room.
Proof.
  intros slicing limit room offset data Hl Hd Ho Hr. unfold crypto_turn.
  assert (WH : exists fs, match write_chunk room (offset, data) with
      | None => None | Some None => Some [] | Some (Some w) => Some [w] end = Some fs /\
      Forall (frame_right offset data) fs /\ frames_disjoint fs /\ frames_size fs <= room).
  { destruct (write_chunk_spec room offset data) as (w & -> & Hw); [lia|exact Hr|].
    destruct w as [[[o b] n]|].
    - destruct Hw as (-> & Hb & Hn & Hlen & _). exists [(offset, b, n)]. splits; try reflexivity.
      + constructor; [|constructor]. cbn. rewrite N.sub_diag. change (N.to_nat 0) with 0%nat. cbn [skipn].
        splits; auto; lia.
      + constructor; constructor.
      + cbn. lia.
    - exists []. splits; try reflexivity; [constructor|constructor|cbn; lia]. }
  destruct (slicing && (offset =? 0)); [|exact WH].
  destruct (find_sni_in_bounds data) as [-> | (s & e & -> & Hse & He)]; [exact WH|].
  clear WH. set (mid := (s + (e - s) / 2)%nat).
  assert (Hmid : (mid <= length data)%nat).
  { unfold mid. assert ((e - s) / 2 <= e - s)%nat by (apply Nat.div_le_upper_bound; lia). lia. }
  destruct (Nat.ltb_spec (length data) mid); [lia|].
  destruct (limit =? 0) eqn:L0; [apply N.eqb_eq in L0; lia|].
  set (needed := ((length data + N.to_nat limit - 1) / N.to_nat limit)%nat).
  destruct (Nat.eqb_spec needed 0) as [C|_].
  { exfalso. unfold needed in C. destruct data; [congruence|]. cbn [length] in C.
    assert (1 <= (S (length data) + N.to_nat limit - 1) / N.to_nat limit)%nat; [|lia].
    apply Nat.div_le_lower_bound; lia. }
  set (lim := (length data / needed)%nat). clearbody lim needed.
  destruct (limit_chunks _ _ lim) as [lc rc] eqn:LC.
  apply limit_chunks_spec in LC; [|exact Hmid].
  destruct lc as [lo lb], rc as [ro rb]. cbn [fst snd] in LC.
  destruct LC as (-> & Hlb & Hlm & Hro & Hre & Hrb).
  destruct (write_chunk_spec room ro rb) as (wr & -> & Hwr); [lia|exact Hr|].
  assert (RIGHT : forall o b n, o = ro /\ b = firstn (length b) rb /\ n <= room /\ lenN b <= lenN rb /\ (rb <> [] -> b <> []) ->
      frame_right offset data (o, b, n)).
  { intros o b n (-> & Hb & _ & Hlen & _). cbn. splits; try lia. exact (prefix_trans _ _ _ Hb Hrb). }
  assert (LEFT : forall o b n m, o = offset /\ b = firstn (length b) lb /\ n <= m /\ lenN b <= lenN lb /\ (lb <> [] -> b <> []) ->
      frame_right offset data (o, b, n)).
  { intros o b n m (-> & Hb & _ & Hlen & _). cbn. rewrite N.sub_diag. change (N.to_nat 0) with 0%nat. cbn [skipn].
    assert (lenN lb <= lenN data).
    { unfold lenN. assert (length lb <= length data)%nat; [|lia]. rewrite Hlb, firstn_length. lia. }
    splits; try lia. exact (prefix_trans _ _ _ Hb Hlb). }
  destruct wr as [[[o1 b1] n1]|].
  - destruct (write_chunk_spec (room - n1) offset lb) as (wl & -> & Hwl); [lia|lia|].
    destruct wl as [[[o2 b2] n2]|].
    + eexists. splits; [reflexivity| | |].
      * constructor; [apply RIGHT; exact Hwr|]. constructor; [apply (LEFT _ _ _ _ Hwl)|constructor].
      * constructor; [|constructor; constructor]. constructor; [|constructor]. cbn [fst snd]. right.
        destruct Hwr as (-> & _ & _ & _ & _). destruct Hwl as (-> & _ & _ & Hlen & _). lia.
      * cbn. destruct Hwr as (_ & _ & Hn1 & _). destruct Hwl as (_ & _ & Hn2 & _). lia.
    + eexists. splits; [reflexivity| | |].
      * constructor; [apply RIGHT; exact Hwr|constructor].
      * constructor; constructor.
      * cbn. destruct Hwr as (_ & _ & Hn1 & _). lia.
  - destruct (write_chunk_spec room offset lb) as (wl & -> & Hwl); [lia|exact Hr|].
    destruct wl as [[[o2 b2] n2]|].
    + eexists. splits; [reflexivity| | |].
      * constructor; [apply (LEFT _ _ _ _ Hwl)|constructor].
      * constructor; constructor.
      * cbn. destruct Hwl as (_ & _ & Hn2 & _). lia.
    + exists []. splits; try reflexivity; [constructor|constructor|cbn; lia].
Qed.
Print Assumptions crypto_frames_right.

(** Slicing does cut through the name. *)
Example crypto_frames_right_ex :
  let buf := hello_head (repeat 0 37) [9;9] [19;1] [0] [0;22] ++ ext_of 43 [2;3;4] ++
             sni_head 8 [97;98;99;100] [0;0;4] ++ [97;98;99;100] ++ [7;7] in
  match crypto_turn true 1200 1200 0 buf with
  | Some [(o1, b1, _); (o2, b2, _)] => o1 = 67 /\ b1 = [99;100;7;7] /\ o2 = 0 /\ length b2 = 67%nat
  | _ => False
  end.
Proof. vm_compute. auto. Qed.
