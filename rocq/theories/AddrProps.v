(** C31: address validation tokens; C73: tokens kept by a client. *)
From Verif Require Import Base Lib AddrModel.

(** ** Specification *)
Definition bytes (l : list N) : Prop := Forall (fun b => b < 256) l.
Definition addr_ok (a : addr) : Prop := a_port a < 65536 /\ match a_ip a with V4 o => length o = 4%nat | V6 o => length o = 16%nat end.
(** A token this server made: for a connection ID (of a Retry) or not, an address and a time; and what sealing gave. *)
Record issue := mkIss { s_dcid : option (list N); s_addr : addr; s_time : N; s_sealed : list N }.
(** Authenticated encryption: only what was sealed here opens, with the associated data it was sealed with. *)
Definition authentic (start : N) (hist : list issue) (open : list N -> list N -> option (list N)) : Prop :=
  forall aad ct d, open aad ct = Some d ->
    exists s, In s hist /\ s_sealed s = ct /\ encode_aad (s_addr s) (match s_dcid s with Some _ => true | None => false end) = aad /\ token_data start (s_dcid s) (s_time s) = Some d.
(** What was issued opens. *)
Definition opens (start : N) (s : issue) (open : list N -> list N -> option (list N)) : Prop :=
  open (encode_aad (s_addr s) (match s_dcid s with Some _ => true | None => false end)) (s_sealed s) = token_data start (s_dcid s) (s_time s).
Definition hist_ok (start : N) (hist : list issue) : Prop :=
  Forall (fun s => addr_ok (s_addr s) /\ start <= s_time s /\ match s_dcid s with Some c => 8 <= lenN c | None => True end) hist.

(** ** Proofs *)
Lemma un4_be4 : forall n, n < 4294967296 -> exists a b c d, be4 n = [a; b; c; d] /\ un4 a b c d = n.
Proof.
  intros n L. unfold be4, un4. do 4 eexists. split; [reflexivity|].
  assert (H1 := N.div_mod n 256 ltac:(lia)). assert (H2 := N.div_mod (n / 256) 256 ltac:(lia)). assert (H3 := N.div_mod (n / 65536) 256 ltac:(lia)).
  assert (E1 : n / 256 / 256 = n / 65536) by (rewrite N.div_div by lia; reflexivity). assert (E2 : n / 65536 / 256 = n / 16777216) by (rewrite N.div_div by lia; reflexivity). rewrite E1 in H2. rewrite E2 in H3. lia.
Qed.
Lemma aad_inj : forall a b r q, addr_ok a -> addr_ok b -> encode_aad a r = encode_aad b q -> r = q /\ a_ip a = a_ip b /\ (r = true -> a_port a = a_port b).
Proof.
  intros [ia pa] [ib pb] r q [A1 A2] [B1 B2] H. cbn [a_ip a_port] in *. unfold encode_aad in H. cbn [a_ip a_port] in H.
  assert (r = q) by (destruct r, q; try reflexivity; discriminate). subst q. apply app_inv_head in H. split; [reflexivity|].
  assert (X : ia = ib /\ (if r then [pa / 256; pa mod 256] else []) = (if r then [pb / 256; pb mod 256] else [])).
  { destruct ia as [o|o], ib as [o'|o']; try discriminate; cbn in H; injection H as H.
    - do 4 (destruct o as [|? o]; [discriminate|]). destruct o; [|discriminate]. do 4 (destruct o' as [|? o']; [discriminate|]). destruct o'; [|discriminate]. cbn in H. injection H as -> -> -> -> H. auto.
    - do 16 (destruct o as [|? o]; [discriminate|]). destruct o; [|discriminate]. do 16 (destruct o' as [|? o']; [discriminate|]). destruct o'; [|discriminate]. cbn in H. injection H as -> -> -> -> -> -> -> -> -> -> -> -> -> -> -> -> H. auto. }
  destruct X as [-> X]. split; [reflexivity|]. intros ->. injection X as X1 X2. assert (H1 := N.div_mod pa 256 ltac:(lia)). assert (H2 := N.div_mod pb 256 ltac:(lia)). rewrite X1, X2 in H1. lia.
Qed.
(** What opens was issued for this address, is not past its time, and carries the connection ID it was issued for. *)
Lemma decrypt_sound : forall start hist open enc a retry now cid, authentic start hist open -> hist_ok start hist -> addr_ok a ->
  decrypt open start enc a retry now = Some cid ->
  exists s, In s hist /\ s_sealed s = enc /\ (match s_dcid s with Some c => retry = true /\ c = cid | None => retry = false /\ cid = [] end) /\ a_ip (s_addr s) = a_ip a /\ (retry = true -> a_port (s_addr s) = a_port a) /\
    now <= s_time s + (if retry then EXP_RETRY else EXP_NEW) /\ 8 <= match s_dcid s with Some c => lenN c | None => 8 end.
Proof.
  intros start hist open enc a retry now cid Au Ho Ao H. unfold decrypt in H. destruct (open (encode_aad a retry) enc) as [d|] eqn:O; [|discriminate].
  apply Au in O. destruct O as (s & I & E1 & E2 & E3). unfold hist_ok in Ho. rewrite Forall_forall in Ho. destruct (Ho s I) as (H1 & H2 & H3). apply aad_inj in E2; auto. destruct E2 as (E2 & E4 & E5). exists s. splits; auto.
  - unfold token_data in E3. destruct (N.ltb_spec ((s_time s + match s_dcid s with Some _ => EXP_RETRY | None => EXP_NEW end - start) / MS) 4294967296) as [L|]; [|discriminate].
    destruct (un4_be4 _ L) as (b0 & b1 & b2 & b3 & Eb & Eu). rewrite Eb in E3. apply some_inj in E3. subst d. cbn [app] in H. destruct (_ <? now); [discriminate|]. injection H as <-. destruct (s_dcid s); auto.
  - intros ->. apply E5. destruct (s_dcid s); [reflexivity|discriminate].
  - unfold token_data in E3. set (fin := s_time s + _) in *. destruct (N.ltb_spec ((fin - start) / MS) 4294967296) as [L|]; [|discriminate].
    destruct (un4_be4 _ L) as (b0 & b1 & b2 & b3 & Eb & Eu). rewrite Eb in E3. apply some_inj in E3. subst d. cbn [app] in H. rewrite Eu in H. destruct (N.ltb_spec (start + (fin - start) / MS * MS) now) as [|Lt]; [discriminate|].
    assert ((fin - start) / MS * MS <= fin - start) by (rewrite N.mul_comm; apply N.mul_div_le; unfold MS; lia). assert (start <= fin) by (unfold fin; lia). assert (fin = s_time s + (if retry then EXP_RETRY else EXP_NEW)).
    { unfold fin. destruct (s_dcid s); subst retry; reflexivity. } lia.
  - destruct (s_dcid s); lia.
Qed.

(** C31: a Retry token is accepted only if this server issued it, for this very address and port and connection ID, at most five seconds ago. *)
Theorem retry_accepted_only_if_issued : forall open p start hist token a now cid, authentic start hist open -> hist_ok start hist -> addr_ok a ->
  validate open p start token a now = ValidRetry cid ->
  exists s, In s hist /\ skipn 5 token = s_sealed s /\ s_dcid s = Some cid /\ s_addr s = a /\ now <= s_time s + 5000 * MS.
Proof.
  intros open p start hist token a now cid Au Ho Ao H. unfold validate in H. destruct token as [|b token]; [destruct p; discriminate|]. set (t := b :: token) in *. destruct (_ <=? _); [discriminate|].
  destruct (decrypt open start (skipn 5 t) a (likely_retry t) now) as [c|] eqn:D; [|destruct (likely_retry t); [discriminate|destruct p; discriminate]].
  destruct (likely_retry t) eqn:R; [|destruct c; [destruct p; discriminate|discriminate]]. destruct (_ <=? _); [|discriminate]. injection H as ->.
  destruct (decrypt_sound _ _ _ _ _ _ _ _ Au Ho Ao D) as (s & I & E1 & E2 & E3 & E4 & E5 & _). exists s. specialize (E4 eq_refl). destruct (s_dcid s); [|destruct E2; discriminate]. destruct E2 as [_ ->]. splits; auto. destruct (s_addr s), a. cbn in *. congruence.
Qed.
Print Assumptions retry_accepted_only_if_issued.
(** C31: where addresses are to be validated, no other token passes than one this server issued for this IP address, at most a day ago;
    with a policy to always validate none does. *)
Theorem new_token_accepted_only_if_issued : forall open p start hist token a now, authentic start hist open -> hist_ok start hist -> addr_ok a -> p <> Never ->
  validate open p start token a now = Pass ->
  p = NoToken /\ exists s, In s hist /\ skipn 5 token = s_sealed s /\ s_dcid s = None /\ a_ip (s_addr s) = a_ip a /\ now <= s_time s + 86400000 * MS.
Proof.
  intros open p start hist token a now Au Ho Ao Np H. unfold validate in H. destruct token as [|b token]; [destruct p; congruence|]. set (t := b :: token) in *. destruct (_ <=? _); [discriminate|].
  destruct (decrypt open start (skipn 5 t) a (likely_retry t) now) as [c|] eqn:D; [|destruct (likely_retry t); [discriminate|destruct p; congruence]].
  destruct (likely_retry t) eqn:R; [destruct (_ <=? _); discriminate|]. destruct c; [|discriminate]. split; [destruct p; congruence|].
  destruct (decrypt_sound _ _ _ _ _ _ _ _ Au Ho Ao D) as (s & I & E1 & E2 & E3 & E4 & E5 & _). exists s. destruct (s_dcid s); [destruct E2; discriminate|]. splits; auto.
Qed.
Print Assumptions new_token_accepted_only_if_issued.
(** C31: no token of any content makes the server panic. *)
Theorem validate_never_panics : forall open p start hist token a now, authentic start hist open -> hist_ok start hist -> addr_ok a ->
  validate open p start token a now <> VPanic.
Proof.
  intros open p start hist token a now Au Ho Ao H. unfold validate in H. destruct token as [|b token]; [destruct p; discriminate|]. set (t := b :: token) in *. destruct (_ <=? _); [discriminate|].
  destruct (decrypt open start (skipn 5 t) a (likely_retry t) now) as [c|] eqn:D; [|destruct (likely_retry t); [discriminate|destruct p; discriminate]].
  destruct (decrypt_sound _ _ _ _ _ _ _ _ Au Ho Ao D) as (s & I & E1 & E2 & E3 & E4 & E5 & E6). destruct (likely_retry t); destruct (s_dcid s); destruct E2 as [E2 ->]; try discriminate.
  - destruct (N.leb_spec 8 (lenN c)); [discriminate|lia].
  - destruct p; discriminate.
Qed.
Print Assumptions validate_never_panics.
Lemma retry_known : forall x, likely_retry (ID_RETRY ++ x) = true.
Proof. intros x. unfold likely_retry, ID_RETRY. cbn [app distance]. change (ones 8 (N.lxor 82 82)) with 0. change (ones 8 (N.lxor 101 101)) with 0. change (ones 8 (N.lxor 116 116)) with 0. change (ones 8 (N.lxor 114 114)) with 0. change (ones 8 (N.lxor 121 121)) with 0. destruct x; reflexivity. Qed.
Lemma new_known : forall x, likely_retry (ID_NEW ++ x) = false.
Proof. intros x. unfold likely_retry, ID_NEW, ID_RETRY. cbn [app distance]. destruct x; vm_compute; reflexivity. Qed.
Lemma len_token : forall d x, x <> [] -> (lenN (token_of d x) <=? 5) = false.
Proof. intros d x Nx. apply N.leb_gt. unfold token_of. rewrite lenN_app. destruct x; [congruence|]. rewrite lenN_cons. destruct d; [change (lenN ID_RETRY) with 5|change (lenN ID_NEW) with 5]; lia. Qed.
Lemma decrypt_complete : forall open start s data now, hist_ok start [s] -> opens start s open -> token_data start (s_dcid s) (s_time s) = Some data ->
  now + MS <= s_time s + (match s_dcid s with Some _ => EXP_RETRY | None => EXP_NEW end) ->
  decrypt open start (s_sealed s) (s_addr s) (match s_dcid s with Some _ => true | None => false end) now = Some (match s_dcid s with Some c => c | None => [] end).
Proof.
  intros open start s data now Ho Op Td L. unfold hist_ok in Ho. inv Ho. destruct H1 as (H1 & H3 & H4). unfold decrypt. rewrite Op. clear Op H2 H1 H4. unfold token_data in *. set (fin := s_time s + _) in *.
  destruct (N.ltb_spec ((fin - start) / MS) 4294967296) as [Lt|]; [|discriminate]. destruct (un4_be4 _ Lt) as (b0 & b1 & b2 & b3 & Eb & Eu). rewrite Eb. cbn [app]. rewrite Eu.
  assert (H1 := N.div_mod (fin - start) MS ltac:(unfold MS; lia)). assert (H2 := N.mod_lt (fin - start) MS ltac:(unfold MS; lia)). assert (start <= fin) by (unfold fin; lia).
  destruct (N.ltb_spec (start + (fin - start) / MS * MS) now); [|reflexivity]. rewrite (N.mul_comm _ MS) in H0. lia.
Qed.
(** C31: every token issued is accepted, from its address, until a millisecond before its time is up: a Retry token with the connection ID
    it was issued for. *)
Theorem issued_is_accepted : forall open p start s data now, hist_ok start [s] -> opens start s open -> s_sealed s <> [] -> token_data start (s_dcid s) (s_time s) = Some data ->
  let token := token_of (s_dcid s) (s_sealed s) in
  match s_dcid s with
  | Some c => now + MS <= s_time s + 5000 * MS -> validate open p start token (s_addr s) now = ValidRetry c
  | None => now + MS <= s_time s + 86400000 * MS -> validate open p start token (s_addr s) now = match p with Always => Validate | _ => Pass end
  end.
Proof.
  intros open p start s data now Ho Op Ns Td token. pose proof (decrypt_complete open start s data now Ho Op Td) as D. unfold validate. pose proof (len_token (s_dcid s) (s_sealed s) Ns) as Lt. fold token in Lt.
  assert (Sk : skipn 5 token = s_sealed s) by (unfold token, token_of; destruct (s_dcid s); reflexivity). destruct token as [|b t] eqn:Et; [unfold token, token_of in Et; destruct (s_dcid s); discriminate|]. rewrite <- Et in *.
  rewrite Lt, Sk. unfold hist_ok in Ho. inv Ho. destruct H1 as (_ & _ & H4). unfold token, token_of in *. destruct (s_dcid s) as [c|]; intros L; specialize (D L); [rewrite retry_known, D|rewrite new_known, D].
  - destruct (N.leb_spec 8 (lenN c)); [reflexivity|lia].
  - reflexivity.
Qed.
Print Assumptions issued_is_accepted.
(** C31: a server that has run for fifty days issues no more tokens: it cannot ask clients to validate their address. *)
Theorem old_server_issues_none_refuted : exists start now, start <= now /\ now - start <= 50 * 86400000 * MS /\ forall d, token_data start d now = None.
Proof.
  exists 0, (50 * 86400000 * MS). splits; [lia|lia|]. intros d. unfold token_data. destruct (N.ltb_spec ((50 * 86400000 * MS + match d with Some _ => EXP_RETRY | None => EXP_NEW end - 0) / MS) 4294967296) as [L|]; [|reflexivity].
  assert (50 * 86400000 * MS / MS <= (50 * 86400000 * MS + match d with Some _ => EXP_RETRY | None => EXP_NEW end - 0) / MS) by (apply N.div_le_mono; [unfold MS|]; lia). change (50 * 86400000 * MS / MS) with 4320000000 in H. lia.
Qed.
Print Assumptions old_server_issues_none_refuted.
(** A server issues one Retry token; it is accepted, and not from another port. *)
Example token_story : let a := mkAddr (V4 [192; 0; 2; 1]) 443 in let c := [1; 2; 3; 4; 5; 6; 7; 8] in let s := mkIss (Some c) a 1000 [9; 9; 9] in
  let open := fun aad ct => if list_eq_dec N.eq_dec aad (encode_aad a true) then if list_eq_dec N.eq_dec ct [9; 9; 9] then token_data 0 (Some c) 1000 else None else None in
  authentic 0 [s] open /\ hist_ok 0 [s] /\ validate open NoToken 0 (token_of (Some c) [9; 9; 9]) a 2000000000 = ValidRetry c /\
  validate open NoToken 0 (token_of (Some c) [9; 9; 9]) (mkAddr (V4 [192; 0; 2; 1]) 444) 2000000000 = Invalid.
Proof.
  cbv zeta. splits.
  - intros aad ct d H. destruct (list_eq_dec N.eq_dec aad _) as [->|]; [|discriminate]. destruct (list_eq_dec N.eq_dec ct [9; 9; 9]) as [->|]; [|discriminate]. eexists. split; [now left|]. splits; auto.
  - repeat constructor; cbn; lia.
  - vm_compute. reflexivity.
  - vm_compute. reflexivity.
Qed.

(** ** Tokens kept by a client *)
Lemma tok_eqb_eq : forall a b, tok_eqb a b = true <-> a = b.
Proof. intros a b. unfold tok_eqb. destruct (list_eq_dec N.eq_dec a b); split; congruence. Qed.
Lemma tok_in : forall t l, existsb (tok_eqb t) l = false <-> ~ In t l.
Proof.
  intros t l. rewrite <- Bool.not_true_iff_false, existsb_exists. split; intros H X; apply H.
  - exists t. split; [exact X|now apply tok_eqb_eq].
  - destruct X as (x & I & E). apply tok_eqb_eq in E. now subst.
Qed.
(** The last [k] of a list. *)
Definition last_n (k : nat) {A} (l : list A) : list A := skipn (length l - k) l.
Lemma last_n_snoc : forall (l : list (list N)) t, last_n 8 (l ++ [t]) = (if 8 <=? lenN (last_n 8 l) then tl (last_n 8 l) else last_n 8 l) ++ [t].
Proof.
  intros l t. unfold last_n. rewrite app_length. cbn [length]. set (n := length l).
  assert (Hl : length (skipn (n - 8) l) = Nat.min n 8) by (rewrite skipn_length; fold n; lia). unfold lenN. rewrite Hl.
  destruct (N.leb_spec 8 (N.of_nat (Nat.min n 8))).
  - replace (n + 1 - 8)%nat with (S (n - 8)) by lia. assert (E : forall k (m : list (list N)), skipn (S k) m = tl (skipn k m)) by (induction k as [|k IHk]; intros [|x m]; [reflexivity|reflexivity|reflexivity|exact (IHk m)]).
    rewrite <- E. rewrite skipn_app. f_equal. fold n. replace (S (n - 8) - n)%nat with 0%nat by lia. reflexivity.
  - replace (n + 1 - 8)%nat with 0%nat by lia. replace (n - 8)%nat with 0%nat by lia. reflexivity.
Qed.
Definition cl_inv (c : client) (used : list (list N)) : Prop := c_old c = last_n 8 used /\ NoDup (c_pending c) /\ (forall t, In t (c_pending c) -> ~ In t (c_old c)) /\ lenN (c_pending c) <= 4.
Lemma nodup_tl : forall (l : list (list N)), NoDup l -> NoDup (tl l).
Proof. intros [|x l] H; [constructor|now inv H]. Qed.
Lemma cl_step_inv : forall c o used, cl_inv c used -> let '(c', l) := cl_step c o in cl_inv c' (used ++ l) /\ (forall t, In t l -> ~ In t (last_n 8 used)).
Proof.
  intros c o used (J1 & J2 & J3 & J4). destruct o as [t|]; cbn [cl_step].
  - rewrite app_nil_r. split; [|intros ? []]. unfold cl_save. destruct (_ || _) eqn:E; [unfold cl_inv; auto|]. apply orb_false_iff in E. destruct E as [E1 E2]. apply tok_in in E1. apply tok_in in E2.
    set (b := if MAX_NEW_TOKEN <=? lenN (c_pending c) then tl (c_pending c) else c_pending c).
    assert (B : NoDup b /\ (forall x, In x b -> In x (c_pending c)) /\ lenN b <= 3).
    { unfold b, MAX_NEW_TOKEN. destruct (N.leb_spec 4 (lenN (c_pending c))); [|splits; auto; lia]. splits; [now apply nodup_tl| |].
      - intros x. destruct (c_pending c); cbn; auto.
      - destruct (c_pending c); cbn [tl]; rewrite ?lenN_cons, ?lenN_nil in *; lia. }
    clearbody b. destruct B as (B1 & B2 & B3). unfold cl_inv. cbn [c_pending c_old]. splits; auto.
    + apply nodup_snoc; auto.
    + intros x X. apply in_app_or in X. destruct X as [X|[<-|[]]]; auto.
    + rewrite lenN_app, lenN_cons, lenN_nil. lia.
  - unfold cl_take. destruct (rev (c_pending c)) as [|t r] eqn:E; [rewrite app_nil_r; split; [unfold cl_inv; auto|intros ? []]|].
    assert (P : c_pending c = rev r ++ [t]) by (rewrite <- (rev_involutive (c_pending c)), E; reflexivity). rewrite P in *. apply NoDup_remove in J2. rewrite app_nil_r in J2. destruct J2 as [J2 J5].
    assert (Ht : ~ In t (c_old c)) by (apply J3, in_or_app; right; now left). split; [|intros x [<-|[]]; now rewrite <- J1]. unfold cl_inv. cbn [c_pending c_old]. splits; auto.
    + rewrite last_n_snoc, <- J1. reflexivity.
    + intros x X I. apply in_app_or in I. destruct I as [I|[<-|[]]]; [|auto]. apply (J3 x); [apply in_or_app; now left|]. unfold MAX_SAVED_TOKENS in I. destruct (_ <=? _); [destruct (c_old c); [destruct I|now right]|exact I].
    + rewrite lenN_app in J4. lia.
Qed.
(** C73: a client never uses a token that is among the last eight it used, and keeps at most four. *)
Theorem token_not_reused : forall ops c used, cl_run cl_new ops = (c, used) ->
  lenN (c_pending c) <= 4 /\ forall a t b, used = a ++ t :: b -> ~ In t (last_n 8 a).
Proof.
  intros ops c used H. assert (G : forall ops c0 used0 c l, cl_inv c0 used0 -> (forall a t b, used0 = a ++ t :: b -> ~ In t (last_n 8 a)) -> cl_run c0 ops = (c, l) -> cl_inv c (used0 ++ l) /\ forall a t b, used0 ++ l = a ++ t :: b -> ~ In t (last_n 8 a)).
  { clear. induction ops as [|o ops IH]; intros c0 used0 c l J U H; cbn in H; [inv H; now rewrite app_nil_r|]. pose proof (cl_step_inv c0 o used0 J) as St. destruct (cl_step c0 o) as [c1 l1] eqn:S. destruct (cl_run c1 ops) as [c2 l2] eqn:R. inv H. destruct St as [J1 N1]. rewrite app_assoc. eapply IH; eauto.
    intros a t b E. assert (L1 : l1 = [] \/ exists x, l1 = [x]). { destruct o; cbn in S; [inv S; auto|]. unfold cl_take in S. destruct (rev (c_pending c0)); inv S; eauto. }
    destruct L1 as [->|[x ->]]; [rewrite app_nil_r in E; eauto|]. destruct b as [|y b] using rev_ind; [apply app_inj_tail in E; destruct E as [<- <-]; apply N1; now left|]. clear IHb. rewrite app_comm_cons, app_assoc in E. apply app_inj_tail in E. destruct E as [E _]. eauto. }
  destruct (G ops cl_new [] c used) as [J U]; auto.
  - unfold cl_inv. cbn. splits; auto; try lia. constructor.
  - intros [|] t b E; discriminate.
  - split; [apply J|exact U].
Qed.
Print Assumptions token_not_reused.
(** C73: the token used next is the one saved last. *)
Theorem newest_token_first : forall t c, ~ In t (c_old c) -> ~ In t (c_pending c) -> snd (cl_take (cl_save t c)) = Some t.
Proof.
  intros t c A B. apply tok_in in A. apply tok_in in B. unfold cl_save. rewrite A, B. cbn [orb]. unfold cl_take. cbn [c_pending]. rewrite rev_app_distr. reflexivity.
Qed.
Print Assumptions newest_token_first.
Example client_story : snd (cl_run cl_new [CSave [1]; CSave [2]; CTake; CSave [2]; CTake; CTake]) = [[2]; [1]].
Proof. reflexivity. Qed.

(** The bits in which the first five bytes differ from a Retry token's identifier. *)
Definition damaged (token : list N) : nat :=
  length (filter (fun p : N * N => N.testbit (N.lxor (nth (N.to_nat (fst p)) token 0) (nth (N.to_nat (fst p)) [82; 101; 116; 114; 121] 0)) (snd p)) (list_prod [0; 1; 2; 3; 4] [0; 1; 2; 3; 4; 5; 6; 7])).
Lemma ones_bits : forall n, ones 8 n = N.of_nat (length (filter (N.testbit n) [0; 1; 2; 3; 4; 5; 6; 7])).
Proof.
  assert (G : forall k n j, ones k (n / 2 ^ j) = N.of_nat (length (filter (N.testbit n) (map (fun i => j + N.of_nat i) (seq 0 k))))).
  { induction k as [|k IH]; intros n j; [reflexivity|]. cbn [ones seq map filter]. rewrite N.div_div by (try discriminate; apply N.pow_nonzero; discriminate).
    replace (2 ^ j * 2) with (2 ^ (j + 1)) by (rewrite N.add_1_r, N.pow_succ_r'; lia). rewrite IH. rewrite <- seq_shift, map_map.
    rewrite (map_ext (fun i => j + N.of_nat (S i)) (fun i => j + 1 + N.of_nat i)) by (intros; lia).
    replace (j + N.of_nat 0) with j by lia. pose proof (N.mod_lt (n / 2 ^ j) 2 ltac:(discriminate)). pose proof (N.testbit_eqb n j) as T. set (q := (n / 2 ^ j) mod 2) in *. clearbody q. destruct (N.testbit n j); symmetry in T; [apply N.eqb_eq in T|apply N.eqb_neq in T]; cbn [length]; lia. }
  intros n. specialize (G 8%nat n 0). rewrite N.pow_0_r, N.div_1_r in G. rewrite G. reflexivity.
Qed.
(** C31: a token that does not open is treated as if there were none, unless at most four bits of its start differ from a
    Retry token's; then the connection is refused. *)
Theorem unopened_token : forall open p start token a now, 5 < lenN token -> (forall aad ct, open aad ct = None) ->
  validate open p start token a now = if (Nat.leb (damaged token) 4) then Invalid else validate open p start [] a now.
Proof.
  intros open p start token a now L O. unfold validate. destruct token as [|t0 token]; [cbn in L; lia|]. destruct (N.leb_spec (lenN (t0 :: token)) 5); [lia|].
  unfold decrypt. rewrite O.
  assert (E : likely_retry (t0 :: token) = Nat.leb (damaged (t0 :: token)) 4).
  { unfold likely_retry. destruct token as [|t1 [|t2 [|t3 [|t4 token]]]]; try (cbn in L; lia).
    assert (D : distance (t0 :: t1 :: t2 :: t3 :: t4 :: token) ID_RETRY = N.of_nat (damaged (t0 :: t1 :: t2 :: t3 :: t4 :: token))).
    { unfold ID_RETRY. cbn [distance]. rewrite !ones_bits. replace (distance token []) with 0 by (destruct token; reflexivity). unfold damaged.
      replace (list_prod [0; 1; 2; 3; 4] [0; 1; 2; 3; 4; 5; 6; 7]) with (map (pair 0) [0; 1; 2; 3; 4; 5; 6; 7] ++ map (pair 1) [0; 1; 2; 3; 4; 5; 6; 7] ++ map (pair 2) [0; 1; 2; 3; 4; 5; 6; 7] ++ map (pair 3) [0; 1; 2; 3; 4; 5; 6; 7] ++ map (pair 4) [0; 1; 2; 3; 4; 5; 6; 7]) by reflexivity.
      rewrite !filter_app, !app_length.
      assert (F : forall (j : N) (f : N * N -> bool) l, length (filter f (map (pair j) l)) = length (filter (fun b => f (j, b)) l)).
      { intros j f l. induction l as [|x l IH]; [reflexivity|]. cbn [map filter]. destruct (f (j, x)); cbn [length]; rewrite IH; reflexivity. }
      rewrite !F. cbn [fst snd]. change (N.to_nat 0) with 0%nat. change (N.to_nat 1) with 1%nat. change (N.to_nat 2) with 2%nat. change (N.to_nat 3) with 3%nat. change (N.to_nat 4) with 4%nat. cbn [nth].
      repeat match goal with |- context [filter (fun b => N.testbit ?z b) ?l] => change (filter (fun b => N.testbit z b) l) with (filter (N.testbit z) l) end. lia. }
    rewrite D. destruct (Nat.leb_spec (damaged (t0 :: t1 :: t2 :: t3 :: t4 :: token)) 4); [apply N.ltb_lt|apply N.ltb_ge]; lia. }
  rewrite E. destruct (Nat.leb _ 4); reflexivity.
Qed.
Print Assumptions unopened_token.
Example unopened_token_example : damaged ([83; 101; 116; 114; 121] ++ [1; 2]) = 1%nat /\ damaged (ID_NEW ++ [1; 2]) = 40%nat.
Proof. vm_compute. auto. Qed.
