(** The frame reader against the specification. *)
From Verif Require Import Base Lib CodecModel Reader CodecSpec CodecProofs IncrProofs HfModel HfSpec.
Open Scope N_scope.
Open Scope list_scope.
Import ListNotations.

(** The decoder says what the table says. *)
Definition agrees {F} (C : fdec F) (g : N -> kind F) : Prop := forall t,
  match g t with
  | Refused => fd_allowed C t = false
  | AtOnce f => fd_allowed C t = true /\ forall len d, fd_decode C t len d = HOk (Some (f len))
  | Whole lim p => fd_allowed C t = true /\ fd_known C t = true /\ fd_max C t = lim /\ (forall len, fd_decode C t len None = HOk None) /\
      forall data, lenN data <= lim -> fd_decode C t (lenN data) (Some data) = match p data with inl f => HOk (Some f) | inr e => HErr e end
  | Ignored => fd_allowed C t = true /\ fd_known C t = false /\ forall len d, fd_decode C t len d = HOk None
  end.
Definition hdr (h : list N) (t len : N) : Prop := forall x, exists y, rd_varint (h ++ x) = Some (t, y) /\ rd_varint y = Some (len, x).

Lemma iu_consume_used s d o s' d' : iu_consume s d = Some (o, s', d') -> (dec_remaining d <= iu_min_remaining s)%nat -> dec_wf d ->
  dec_remaining d' = 0%nat.
Proof.
  unfold iu_consume, iu_min_remaining, dec_wf. intros E L W. destruct (iu_remaining s) as [r|].
  - destruct (Nat.eqb_spec (Nat.min r (dec_remaining d)) 0); [discriminate|].
    unfold dec_n in E. destruct (Nat.ltb_spec (dec_remaining d) (Nat.min r (dec_remaining d))); [lia|].
    injection E as _ _ <-. unfold dec_remaining, dec_advance in *. cbn [doff dbuf]. lia.
  - unfold dec_uint, dec_n in E. destruct (Nat.ltb_spec (dec_remaining d) 1); [discriminate|].
    injection E as _ _ <-. unfold dec_remaining, dec_advance in *. cbn [doff dbuf]. lia.
Qed.

Section Main.
  Context {F : Type} (C : fdec F) (g : N -> kind F) (A : agrees C g).
  Definition rel (r : reader) (p : list N) : Prop :=
    match r_state r with
    | GetType u => iu_rel p u
    | GetLength u => exists h q, p = h ++ q /\ h <> [] /\ (forall x, rd_varint (h ++ x) = Some (r_type r, x)) /\ g (r_type r) <> Refused /\ iu_rel q u
    | GetData b => exists h, p = h ++ ib_v b /\ h <> [] /\ hdr h (r_type r) (r_len r) /\ (exists lim parse, g (r_type r) = Whole lim parse /\ r_len r <= lim) /\
        ib_remaining b = (N.to_nat (r_len r) - length (ib_v b))%nat /\ lenN (ib_v b) < r_len r
    | Discharge n => exists h q, p = h ++ q /\ h <> [] /\ hdr h (r_type r) (r_len r) /\ g (r_type r) = Ignored /\ lenN q < r_len r /\
        n = (N.to_nat (r_len r) - length q)%nat
    end.
  Lemma rel_pos r p : rel r p -> (1 <= r_min r)%nat.
  Proof.
    unfold rel, r_min. destruct (r_state r); intros H.
    - exact (iu_rel_pos _ _ H).
    - destruct H as (h & q & _ & _ & _ & _ & H). exact (iu_rel_pos _ _ H).
    - destruct H as (h & _ & _ & _ & _ & H & L). unfold lenN in L. lia.
    - destruct H as (h & q & _ & _ & _ & _ & L & H). unfold lenN in L. lia.
  Qed.
  Lemma rel_progress r p : rel r p -> r_in_progress r = negb (is_nil p).
  Proof.
    unfold rel, r_in_progress. destruct (r_state r) as [u|u|b|n]; intros H.
    - destruct p as [|c t]; cbn [iu_rel] in H; [subst u; reflexivity|]. destruct H as (_ & _ & ->). reflexivity.
    - destruct H as (h & q & -> & Hn & _). destruct h; [congruence|reflexivity].
    - destruct H as (h & -> & Hn & _). destruct h; [congruence|reflexivity].
    - destruct H as (h & q & -> & Hn & _). destruct h; [congruence|reflexivity].
  Qed.
  Lemma rel_next r p : rel r p -> next g p (if is_nil p then Nothing else Partial).
  Proof.
    unfold rel. destruct (r_state r) as [u|u|b|n]; intros H.
    - destruct p as [|c t]; cbn [is_nil]; [constructor|]. apply n_type; [discriminate|]. exact (iu_rel_none _ _ H).
    - destruct H as (h & q & -> & Hn & Ht & Hr & Hq). destruct h; [congruence|]. cbn [app is_nil].
      eapply n_length; [exact (Ht q)|exact Hr|exact (iu_rel_none _ _ Hq)].
    - destruct H as (h & -> & Hn & Hh & (lim & parse & G & Hl) & _ & L). destruct h; [congruence|]. cbn [app is_nil].
      destruct (Hh (ib_v b)) as (y & E1 & E2). eapply n_part; eauto.
    - destruct H as (h & q & -> & Hn & Hh & G & L & _). destruct h; [congruence|]. cbn [app is_nil].
      destruct (Hh q) as (y & E1 & E2). eapply n_skipping; eauto.
  Qed.
  Lemma consume_ok r p b : rel r p -> b <> [] -> (length b <= r_min r)%nat -> bytes_ok p -> bytes_ok b ->
    match consume C r b with
    | HOk (Some f, r') => rel r' [] /\ forall x, next g (p ++ b ++ x) (Frame f x)
    | HOk (None, r') => rel r' (p ++ b) \/ (rel r' [] /\ forall x s, next g x s -> next g (p ++ b ++ x) s)
    | HErr e => forall x, next g (p ++ b ++ x) (Fail e)
    | HPanic => False
    end.
  Proof.
    intros R Nb Lb Op Ob. unfold consume.
    assert (Wd := dec_wf_new b). assert (Er := dec_rest_new b).
    assert (Rm : dec_remaining (dec_new b) = length b) by (rewrite <- dec_rest_length by exact Wd; rewrite Er; reflexivity).
    assert (Pb : (0 < length b)%nat) by (destruct b; [congruence|cbn; lia]).
    unfold rel in R. unfold r_min in Lb. destruct (r_state r) as [u|u|ib|n].
    - destruct (iu_consume_rel p u (dec_new b) R Wd Op ltac:(rewrite Er; exact Ob) ltac:(lia)) as (k & o & u' & Hk & E & Ho).
      assert (K : k = length b).
      { pose proof (iu_consume_used _ _ _ _ _ E ltac:(lia) Wd) as U. rewrite <- dec_rest_length in U by (apply dec_advance_wf; [exact Wd|lia]).
        rewrite dec_advance_rest, Er, skipn_length in U. lia. }
      subst k. rewrite Er, firstn_all in Ho. rewrite E. destruct o as [v|].
      + unfold type_decoded. pose proof (A v) as Av. destruct (g v) eqn:G; [|destruct Av as [-> _]..].
        * rewrite Av. intros x. eapply n_refused; [|exact G]. rewrite app_assoc. apply rd_varint_extend. exact Ho.
        * left. unfold rel. cbn. exists (p ++ b), []. rewrite app_nil_r. splits; auto; try congruence.
          -- destruct p; destruct b; cbn; congruence.
          -- intros x. apply rd_varint_extend. exact Ho.
        * left. unfold rel. cbn. exists (p ++ b), []. rewrite app_nil_r. splits; auto; try congruence.
          -- destruct p; destruct b; cbn; congruence.
          -- intros x. apply rd_varint_extend. exact Ho.
        * left. unfold rel. cbn. exists (p ++ b), []. rewrite app_nil_r. splits; auto; try congruence.
          -- destruct p; destruct b; cbn; congruence.
          -- intros x. apply rd_varint_extend. exact Ho.
      + left. unfold rel. cbn. exact Ho.
    - destruct R as (h & q & -> & Hn & Ht & Hr & Hq). apply bytes_ok_app in Op as [Oh Oq].
      destruct (iu_consume_rel q u (dec_new b) Hq Wd Oq ltac:(rewrite Er; exact Ob) ltac:(lia)) as (k & o & u' & Hk & E & Ho).
      assert (K : k = length b).
      { pose proof (iu_consume_used _ _ _ _ _ E ltac:(lia) Wd) as U. rewrite <- dec_rest_length in U by (apply dec_advance_wf; [exact Wd|lia]).
        rewrite dec_advance_rest, Er, skipn_length in U. lia. }
      subst k. rewrite Er, firstn_all in Ho. rewrite E. destruct o as [v|].
      + assert (Hx : forall x, rd_varint ((h ++ q) ++ b ++ x) = Some (r_type r, q ++ b ++ x) /\ rd_varint (q ++ b ++ x) = Some (v, x)).
        { intros x. split; [rewrite <- app_assoc; apply Ht|]. rewrite app_assoc. apply rd_varint_extend. exact Ho. }
        assert (Hh : hdr ((h ++ q) ++ b) (r_type r) v).
        { intros x. exists (q ++ b ++ x). rewrite <- !app_assoc. destruct (Hx x) as [X1 X2]. rewrite <- app_assoc in X1. auto. }
        assert (Hne : (h ++ q) ++ b <> []) by (destruct h; [congruence|discriminate]).
        unfold length_decoded. pose proof (A (r_type r)) as Av. destruct (g (r_type r)) as [|f|lim parse|] eqn:G; [congruence| | |].
        * destruct Av as [_ ->]. split; [reflexivity|]. intros x. destruct (Hx x). eapply n_once; eauto.
        * destruct Av as (_ & -> & -> & Dn & Dd). destruct (N.ltb_spec 0 v) as [V|V].
          -- rewrite Dn. destruct (N.ltb_spec lim v) as [L|L].
             ++ intros x. destruct (Hx x). eapply n_long; eauto.
             ++ left. unfold rel. cbn. exists ((h ++ q) ++ b). rewrite app_nil_r. splits; auto; try lia. eauto.
          -- assert (v = 0) by lia. subst v. specialize (Dd [] ltac:(unfold lenN; cbn; lia)). change (lenN (@nil N)) with 0 in Dd. rewrite Dd. destruct (parse []) as [f|e] eqn:Ep.
             ++ split; [reflexivity|]. intros x. destruct (Hx x) as [X1 X2]. refine (n_whole g _ _ _ lim parse 0 [] x f X1 G X2 _ _ Ep); [lia|reflexivity].
             ++ intros x. destruct (Hx x) as [X1 X2]. refine (n_bad g _ _ _ lim parse 0 [] x e X1 G X2 _ _ Ep); [lia|reflexivity].
        * destruct Av as (_ & -> & D). rewrite D. destruct (N.eqb_spec v 0) as [->|V].
          -- right. split; [reflexivity|]. intros x s Hs. destruct (Hx x) as [X1 X2]. refine (n_skip g _ _ _ 0 [] x s X1 G X2 _ Hs); reflexivity.
          -- left. unfold rel. cbn. exists ((h ++ q) ++ b), []. rewrite app_nil_r. splits; auto; unfold lenN; cbn; lia.
      + left. unfold rel. cbn. exists h, (q ++ b). rewrite app_assoc. auto.
    - destruct R as (h & -> & Hn & Hh & (lim & parse & G & Hl) & Ir & L).
      destruct (ib_consume_step (N.to_nat (r_len r)) ltac:(lia) (ib_v ib) ib (dec_new b) Wd eq_refl Ir ltac:(unfold lenN in L; lia) ltac:(lia)) as (k & Hk & Ek & E).
      assert (K : k = length b) by lia. clear Ek. rewrite K, Er, firstn_all in E. rewrite E. clear K Hk k.
      destruct (Nat.eqb_spec (length (ib_v ib) + length b) (N.to_nat (r_len r))) as [Eq|Ne].
      + unfold data_decoded. cbn [r_type r_len]. pose proof (A (r_type r)) as Av. rewrite G in Av. destruct Av as (_ & _ & _ & _ & Dd).
        assert (Le : lenN (ib_v ib ++ b) = r_len r) by (unfold lenN; rewrite app_length; lia).
        pose proof (Dd (ib_v ib ++ b) ltac:(lia)) as D1. rewrite Le in D1. rewrite D1.
        assert (Hx : forall x, exists y, rd_varint ((h ++ ib_v ib) ++ b ++ x) = Some (r_type r, y) /\ rd_varint y = Some (r_len r, (ib_v ib ++ b) ++ x)).
        { intros x. rewrite <- !app_assoc. apply Hh. }
        destruct (parse (ib_v ib ++ b)) as [f|e] eqn:Ep.
        * split; [reflexivity|]. intros x. destruct (Hx x) as (y & X1 & X2). exact (n_whole g _ _ _ lim parse _ _ x f X1 G X2 Hl Le Ep).
        * intros x. destruct (Hx x) as (y & X1 & X2). exact (n_bad g _ _ _ lim parse _ _ x e X1 G X2 Hl Le Ep).
      + left. unfold rel. cbn. exists h. rewrite app_length, <- app_assoc. splits; auto; eauto. unfold lenN in *. rewrite app_length. lia.
    - destruct R as (h & q & -> & Hn & Hh & G & L & En). unfold lenN in L.
      assert (Em : ii_consume n (dec_new b) = (Nat.eqb (n - length b) 0, (n - length b)%nat, snd (dec_bytes (length b) (dec_new b)))).
      { unfold ii_consume. rewrite Rm, Nat.min_r by lia. destruct (dec_bytes (length b) (dec_new b)). reflexivity. }
      rewrite Em. destruct (Nat.eqb_spec (n - length b) 0) as [Z|Z].
      + right. split; [reflexivity|]. intros x s Hs. destruct (Hh (q ++ b ++ x)) as (y & X1 & X2). rewrite app_assoc in X2.
        rewrite <- app_assoc. refine (n_skip g _ _ _ _ (q ++ b) x s X1 G X2 _ Hs). unfold lenN. rewrite app_length. lia.
      + left. unfold rel. cbn. exists h, (q ++ b). rewrite app_length, <- app_assoc. splits; auto; unfold lenN in *; rewrite ?app_length; lia.
  Qed.
  (** *** The loop *)
  Definition src_ok (s : source) : Prop := Forall (fun c => c <> []) (s_chunks s) /\ bytes_ok (concat (s_chunks s)) /\ (s_over s = true -> s_fin s = true /\ s_chunks s = []).
  Lemma read_ok s n : src_ok s -> (1 <= n)%nat -> s_over s = false ->
    match read_data s n with
    | (None, _) => False
    | (Some (b, fin), s') => src_ok s' /\ concat (s_chunks s) = b ++ concat (s_chunks s') /\ (length b <= n)%nat /\ s_fin s' = s_fin s /\
        fin = s_over s' /\ (fin = true -> s_fin s = true /\ concat (s_chunks s') = []) /\ (b = [] -> concat (s_chunks s') = [] /\ fin = s_fin s) /\
        (concat (s_chunks s') = [] -> fin = s_fin s)
    end.
  Proof.
    intros (K & O & V) Hn Hv. unfold read_data. rewrite Hv. destruct s as [cs fin over]. cbn [s_chunks s_fin s_over] in *. subst over. destruct cs as [|c cs].
    - cbn. unfold src_ok. cbn. splits; auto; try lia.
    - inversion K as [|? ? Nc Kc]; subst. cbn [concat] in O. apply bytes_ok_app in O as [Oc Ocs].
      assert (Lb : (length (firstn n c) <= n)%nat) by (rewrite firstn_length; lia).
      assert (Nb : firstn n c <> []) by (destruct c; [congruence|]; destruct n; [lia|discriminate]).
      destruct (skipn n c) as [|y ys] eqn:Es; cbn [is_nil s_chunks s_fin s_over].
      + assert (Ec : c = firstn n c) by (rewrite <- (firstn_skipn n c) at 1; rewrite Es, app_nil_r; reflexivity).
        assert (cs = [] \/ is_nil cs = false) as [->|H] by (destruct cs; auto).
        * cbn. rewrite <- Ec, Bool.andb_true_r. unfold src_ok. cbn. splits; auto; try (rewrite <- Ec in Lb; exact Lb); try congruence; intros; splits; auto.
        * rewrite H, Bool.andb_false_r. unfold src_ok. cbn. rewrite <- Ec. splits; auto; try (rewrite <- Ec in Lb; exact Lb); try congruence.
          intros Z. destruct cs as [|c2 cs2]; [discriminate|]. inversion Kc as [|? ? N2 _]. destruct c2; [congruence|discriminate].
      + rewrite Bool.andb_false_r. unfold src_ok. cbn [s_chunks s_fin s_over concat].
        splits; auto; try congruence.
        * constructor; [discriminate|exact Kc].
        * apply bytes_ok_app. split; [rewrite <- Es; apply bytes_ok_skipn; exact Oc|exact Ocs].
        * rewrite app_assoc, <- Es, firstn_skipn. reflexivity.
        * intros Z. discriminate.
  Qed.
  Lemma receive_ok fuel : forall r s p, rel r p -> bytes_ok p -> src_ok s -> s_over s = false -> (length (concat (s_chunks s)) + 2 <= fuel)%nat ->
    let bs := p ++ concat (s_chunks s) in
    match receive C fuel r s with
    | HOk (Some f, fin, r', s') => rel r' [] /\ src_ok s' /\ s_fin s' = s_fin s /\ fin = s_over s' /\ (length (concat (s_chunks s')) < length (concat (s_chunks s)))%nat /\
        (forall x, next g (bs ++ x) (Frame f (concat (s_chunks s') ++ x)))
    | HOk (None, fin, r', s') => concat (s_chunks s') = [] /\ src_ok s' /\ s_fin s' = s_fin s /\ fin = s_over s' /\ fin = s_fin s /\ exists p', rel r' p' /\ bytes_ok p' /\
        (fin = true -> p' = []) /\ forall x st, next g (p' ++ x) st -> next g (bs ++ x) st
    | HErr e => (forall x, next g (bs ++ x) (Fail e)) \/ (e = HttpFrame /\ s_fin s = true /\ next g bs Partial)
    | HPanic => False
    end.
  Proof.
    induction fuel as [|fuel IH]; intros r s p R Op S V Hf bs; [lia|]. cbn [receive].
    assert (Hn : (1 <= Nat.min (r_min r) MAX_READ_SIZE)%nat).
    { pose proof (rel_pos r p R). change MAX_READ_SIZE with (N.to_nat 2048). lia. }
    pose proof (read_ok s _ S Hn V) as RD. destruct (read_data s (Nat.min (r_min r) MAX_READ_SIZE)) as [[[b fin]|] s']; [|contradiction].
    destruct RD as (S' & Ec & Lb & Ef & Eo & Fe & Be & Ne).
    assert (Ob : bytes_ok b) by (destruct S as (_ & O & _); rewrite Ec in O; apply bytes_ok_app in O; tauto).
    destruct b as [|b0 b1].
    - cbn [is_nil]. destruct (Be eq_refl) as [E0 E1]. cbn [app] in Ec. assert (Eb : bs = p) by (unfold bs; rewrite Ec, E0, app_nil_r; reflexivity).
      destruct fin.
      + rewrite (rel_progress r p R). pose proof (rel_next r p R) as Nx. destruct p as [|p0 p1]; cbn [is_nil negb] in *.
        * splits; auto. exists []. splits; auto. intros x st. rewrite Eb. auto.
        * right. rewrite Eb. splits; auto.
      + splits; auto. exists p. splits; auto; try discriminate. intros x st. rewrite Eb. auto.
    - set (b := b0 :: b1) in *. assert (Nb : b <> []) by (unfold b; discriminate). clearbody b. clear b0 b1.
      replace (is_nil b) with false by (destruct b; [congruence|reflexivity]).
      pose proof (consume_ok r p b R Nb ltac:(lia) Op Ob) as CO.
      assert (Ebs : forall x, bs ++ x = p ++ b ++ concat (s_chunks s') ++ x) by (intros x; unfold bs; rewrite Ec, <- !app_assoc; reflexivity).
      destruct (consume C r b) as [[[f|] r']|e|]; [| | |contradiction].
      + destruct CO as [R' N']. splits; auto.
        * rewrite Ec, app_length. destruct b; [congruence|cbn [length]; lia].
        * intros x. rewrite Ebs. apply N'.
      + assert (CO' : exists p', rel r' p' /\ bytes_ok p' /\ forall x st, next g (p' ++ x) st -> next g (p ++ b ++ x) st).
        { destruct CO as [R'|[R' N']].
          - exists (p ++ b). splits; auto; [apply bytes_ok_app; auto|]. intros x st. rewrite <- app_assoc. auto.
          - exists []. splits; auto. constructor. }
        destruct CO' as (p' & R' & Op' & N'). destruct fin.
        * destruct (Fe eq_refl) as [F1 F2]. rewrite (rel_progress r' p' R'). pose proof (rel_next r' p' R') as Nx. destruct p' as [|p0 p1]; cbn [is_nil negb] in *.
          -- splits; auto. exists []. splits; auto. intros x st H. rewrite Ebs, F2. apply N'. exact H.
          -- right. splits; auto. rewrite <- (app_nil_r bs), Ebs, F2. apply N'. rewrite app_nil_r. exact Nx.
        * assert (Lt : (length (concat (s_chunks s')) + 2 <= fuel)%nat) by (rewrite Ec, app_length in Hf; destruct b; [congruence|cbn in Hf; lia]).
          specialize (IH r' s' p' R' Op' S' ltac:(congruence) Lt). cbn zeta in IH.
          assert (Tr : forall x st, next g ((p' ++ concat (s_chunks s')) ++ x) st -> next g (bs ++ x) st).
          { intros x st H. rewrite Ebs. apply N'. rewrite app_assoc. exact H. }
          destruct (receive C fuel r' s') as [[[[[f|] fin2] r2] s2]|e|]; [| | |contradiction].
          -- destruct IH as (I1 & I2 & I3 & I4 & I5 & I6). splits; auto; try congruence; try (rewrite Ec, app_length; lia); intros x; apply Tr; apply I6.
          -- destruct IH as (I0 & I1 & I2 & I3 & I4 & p2 & I5 & I6 & I7 & I8). splits; auto; try congruence. exists p2. splits; auto.
          -- destruct IH as [I|(I1 & I2 & I3)]; [left; intros x; apply Tr; apply I|right]. splits; auto; try congruence.
             rewrite <- (app_nil_r bs). apply Tr. rewrite app_nil_r. exact I3.
      + left. intros x. rewrite Ebs. apply CO.
  Qed.
  (** *** A life *)
  Definition linv (l : life F) : Prop :=
    match l_status l with
    | Reading => exists p, rel (l_reader l) p /\ bytes_ok p /\ src_ok (l_source l) /\ s_over (l_source l) = false /\
        (forall x fs st, frames g (p ++ concat (s_chunks (l_source l)) ++ x) fs st -> frames g (l_all l ++ x) (l_out l ++ fs) st) /\
        (l_idle l = true -> concat (s_chunks (l_source l)) = [])
    | Failed e => (forall x, frames g (l_all l ++ x) (l_out l) (Fail e)) \/ (e = HttpFrame /\ s_fin (l_source l) = true /\ frames g (l_all l) (l_out l) Partial)
    | Ended => s_fin (l_source l) = true /\ frames g (l_all l) (l_out l) Nothing
    end.
  Lemma linv_init : linv l_init.
  Proof. exists []. cbn. unfold src_ok. cbn. splits; auto; try constructor; try discriminate. Qed.
  Lemma frames_nothing : frames g [] [] Nothing.
  Proof. apply f_end; [constructor|discriminate]. Qed.
  Lemma linv_step l e : (forall b, e = Arrive b -> bytes_ok b) -> linv l -> exists l', l_step C l e = Some l' /\ linv l'.
  Proof.
    intros Ob I. unfold l_step. unfold linv in I. destruct (l_status l) eqn:St.
    2,3: exists l; unfold linv; rewrite St; auto.
    destruct I as (p & R & Op & S & V & Fr & Id). destruct e as [b| |].
    - destruct (is_nil b || s_fin (l_source l)) eqn:E.
      + exists l. split; [reflexivity|]. unfold linv. rewrite St. exists p. splits; auto.
      + apply Bool.orb_false_iff in E as [E1 E2]. eexists; split; [reflexivity|]. exists p. cbn [l_reader l_source l_out l_all l_idle s_chunks s_over].
        destruct S as (S1 & S2 & S3).
        splits; auto; try discriminate.
        * unfold src_ok. cbn [s_chunks s_fin s_over]. rewrite concat_app. cbn [concat]. rewrite app_nil_r. splits; auto.
          -- apply Forall_app. split; [exact S1|]. constructor; [intros ->; discriminate|constructor].
          -- apply bytes_ok_app. split; [exact S2|]. apply Ob. reflexivity.
          -- congruence.
        * intros x fs st H. rewrite concat_app in H. cbn [concat] in H. rewrite app_nil_r, <- app_assoc in H. rewrite <- app_assoc. apply Fr. exact H.
    - eexists; split; [reflexivity|]. exists p. cbn [l_reader l_source l_out l_all l_idle s_chunks s_over]. splits; auto; try discriminate.
      destruct S as (S1 & S2 & S3). unfold src_ok. cbn. splits; auto. congruence.
    - pose proof (receive_ok (2 + length (concat (s_chunks (l_source l)))) _ _ _ R Op S V ltac:(lia)) as RC. cbn zeta in RC. unfold r_receive.
      destruct (receive C _ (l_reader l) (l_source l)) as [[[[[f|] fin] r'] s']|e|]; [| | |contradiction].
      + destruct RC as (R' & S' & Ef & Eo & _ & N'). eexists; split; [reflexivity|].
        assert (K : forall x fs st, frames g (concat (s_chunks s') ++ x) fs st -> frames g (l_all l ++ x) ((l_out l ++ [f]) ++ fs) st).
        { intros x fs st H. rewrite <- app_assoc. apply Fr. cbn [app]. eapply f_more; [|exact H]. rewrite app_assoc. apply N'. }
        unfold linv. cbn [l_status l_reader l_source l_out l_all l_idle]. destruct fin.
        * destruct S' as (_ & _ & S3). destruct (S3 (eq_sym Eo)) as [S4 S5]. split; [exact S4|].
          specialize (K [] [] Nothing). rewrite S5, !app_nil_r in K. apply K. apply frames_nothing.
        * exists []. splits; auto; try discriminate. constructor.
      + destruct RC as (E0 & S' & Ef & Eo & Es & p' & R' & Op' & Fe & N'). eexists; split; [reflexivity|].
        assert (K : forall x fs st, frames g (p' ++ x) fs st -> frames g (l_all l ++ x) (l_out l ++ fs) st).
        { intros x fs st H. apply Fr. rewrite app_assoc. inversion H; subst; [apply f_end; auto|eapply f_more; eauto]. }
        unfold linv. cbn [l_status l_reader l_source l_out l_all l_idle]. rewrite app_nil_r. destruct fin.
        * split; [congruence|]. rewrite (Fe eq_refl) in K. specialize (K [] [] Nothing). rewrite !app_nil_r in K. apply K. apply frames_nothing.
        * exists p'. splits; auto. intros x fs st H. rewrite E0 in H. apply K. exact H.
      + eexists; split; [reflexivity|]. unfold linv. cbn [l_status l_source l_out l_all].
        destruct RC as [N'|(-> & Sf & N')].
        * left. intros x. specialize (Fr x [] (Fail e)). rewrite app_nil_r in Fr. apply Fr. apply f_end; [|discriminate]. rewrite app_assoc. apply N'.
        * right. splits; auto. specialize (Fr [] [] Partial). rewrite !app_nil_r in Fr. apply Fr. apply f_end; [exact N'|discriminate].
  Qed.
  Lemma linv_run es : forall l, (forall b, In (Arrive b) es -> bytes_ok b) -> linv l -> exists l', l_run C l es = Some l' /\ linv l'.
  Proof.
    induction es as [|e es IH]; intros l Ob I; cbn [l_run]; [eauto|].
    destruct (linv_step l e ltac:(intros b ->; apply Ob; left; reflexivity) I) as (l' & -> & I'). apply IH; [intros b H; apply Ob; right; exact H|exact I'].
  Qed.
End Main.
