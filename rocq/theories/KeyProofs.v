(** Proofs about KeyModel. *)
From Coq Require Import Lia.
From Verif Require Import Base Lib FcModel KeyModel KeySpec.

Lemma run_app : forall dbg os cl s s' xs, k_run dbg cl os s = Some (s', xs) ->
  forall (P : bool -> list kout -> kst -> Prop) (ok : kop -> Prop) h,
  (forall cl h s o s' x, ok o -> P cl h s -> (cl = true -> exists b, o = KSend b) -> k_step dbg o s = Some (s', x) -> P (cl || fatal x) (h ++ [x]) s') ->
  Forall ok os -> P cl h s -> exists cl', P cl' (h ++ xs) s' /\ cl' = cl || existsb fatal xs.
Proof.
  induction os as [|o os IH]; intros cl s s' xs R P ok h ST OK I; cbn [k_run] in R.
  - apply some_inj, pair_equal_spec in R. destruct R as [<- <-]. exists cl. rewrite app_nil_r. cbn. rewrite orb_false_r. auto.
  - apply Forall_cons_iff in OK. destruct OK as [OO OK].
    destruct (cl && match o with KSend _ => false | _ => true end) eqn:C.
    + exact (IH _ _ _ _ R P ok h ST OK I).
    + destruct (k_step dbg o s) as [[s1 x]|] eqn:S1; [|discriminate].
      destruct (k_run dbg (cl || fatal x) os s1) as [[s2 ys]|] eqn:R2; [|discriminate].
      apply some_inj, pair_equal_spec in R. destruct R as [<- <-].
      assert (I1 : P (cl || fatal x) (h ++ [x]) s1).
      { apply (ST cl h s o s1 x OO I); [|exact S1]. intros ->. destruct o; cbn in C; try discriminate. eauto. }
      destruct (IH _ _ _ _ R2 P ok (h ++ [x]) ST OK I1) as [cl' [J E]].
      exists cl'. rewrite <- app_assoc in J. split; [exact J|]. rewrite E. cbn. rewrite <- orb_assoc. reflexivity.
Qed.

(** Write keys stay, or advance by one. *)
Definition advanced (w w' : app) (c : cipher) : Prop :=
  d_epoch (a_dx w) <> 2 ^ 64 - 1 /\ w' = mkApp (dx_next DWrite c (a_secret w) (a_dx w)) (a_secret w + 1).
Definition upd (s s' : kst) : Prop :=
  s' = s \/ exists w w' r, k_write s = Some w /\ k_read s = Some r /\ d_epoch (a_dx w) = d_epoch (a_dx r) /\
    advanced w w' (k_cipher s) /\ s' = with_write (Some w') s.

Lemma muw_spec : forall dbg s s' r, maybe_update_write dbg s = Some (s', r) ->
  upd s s' /\ (r = inl true -> s' <> s) /\ (forall b, r = inl b -> exists w' r', k_write s' = Some w' /\ k_read s' = Some r' /\
     d_epoch (a_dx w') <> d_epoch (a_dx r')) /\ (forall e, r = inr e -> e = EExhausted \/ e = EInternalK).
Proof.
  unfold maybe_update_write, app_next. intros dbg s s' r H.
  destruct (dbg && _); [discriminate|].
  destruct (k_write s) as [w|] eqn:W; [|apply some_inj, pair_equal_spec in H; destruct H as [<- <-]; splits; [left; reflexivity|discriminate|discriminate|intros e K; inv K; auto]].
  destruct (k_read s) as [rd|] eqn:R; [|apply some_inj, pair_equal_spec in H; destruct H as [<- <-]; splits; [left; reflexivity|discriminate|discriminate|intros e K; inv K; auto]].
  destruct (N.eqb_spec (d_epoch (a_dx w)) (d_epoch (a_dx rd))) as [E|E].
  - destruct (N.eqb_spec (d_epoch (a_dx w)) (2 ^ 64 - 1)) as [M|M]; apply some_inj, pair_equal_spec in H; destruct H as [<- <-].
    + splits; [left; reflexivity|discriminate|discriminate|intros e K; inv K; auto].
    + splits.
      * right. exists w. eexists. exists rd. splits; eauto. unfold advanced. split; [exact M|reflexivity].
      * intros _ C. apply (f_equal k_write) in C. cbn in C. rewrite W in C. apply some_inj in C.
        apply (f_equal (fun a => d_epoch (a_dx a))) in C. cbn in C. lia.
      * intros b _. eexists. eexists. cbn. splits; eauto. cbn. lia.
      * discriminate.
  - apply some_inj, pair_equal_spec in H. destruct H as [<- <-]. splits; [left; reflexivity|discriminate| |discriminate].
    intros b _. eauto.
Qed.
Lemma auto_spec : forall dbg s s' r, auto_update dbg s = Some (s', r) -> upd s s' /\ (forall e, r = Some e -> e = EExhausted \/ e = EInternalK).
Proof.
  unfold auto_update. intros dbg s s' r H. destruct (k_write s) as [w|]; [|inv H; split; [left; reflexivity|discriminate]].
  destruct (dx_should_update (a_dx w)); [|inv H; split; [left; reflexivity|discriminate]].
  destruct (maybe_update_write dbg s) as [[s1 [b|e]]|] eqn:M; [| |discriminate]; apply muw_spec in M; destruct M as [M [_ [_ M4]]]; inv H; (split; [exact M|]).
  - intros e K. destruct b; inv K. auto.
  - intros e' K. inv K. auto.
Qed.
Lemma initiate_spec : forall dbg la s s' r, initiate dbg la s = Some (s', r) ->
  upd s s' /\ (r = None -> exists w, k_write s = Some w /\ dx_can_update la (a_dx w) = true /\ s' <> s).
Proof.
  unfold initiate. intros dbg la s s' r H. destruct (k_write s) as [w|] eqn:W; [|inv H; split; [left; reflexivity|discriminate]].
  destruct (dx_can_update la (a_dx w) && _) eqn:C; [|inv H; split; [left; reflexivity|discriminate]].
  apply andb_prop in C. destruct C as [C _].
  destruct (maybe_update_write dbg s) as [[s1 [b|e]]|] eqn:M; [| |discriminate]; apply muw_spec in M; destruct M as [M [M2 _]]; inv H; (split; [exact M|]).
  - destruct b; [|discriminate]. intros _. exists w. splits; auto.
  - discriminate.
Qed.
Lemma received_spec : forall dbg ep t s s' r, update_received dbg ep t s = Some (s', r) ->
  (s' = s /\ r = None /\ exists e, k_upd s = Some e /\ ep <= e) \/
  ((k_upd s = None \/ exists e, k_upd s = Some e /\ e < ep) /\
   exists s2, upd (with_upd (Some ep) s) s2 /\
     ((exists e, r = Some e /\ s' = s2 /\ (e = EExhausted \/ e = EInternalK)) \/
      (r = None /\ s' = with_time (Some t) (if has_0rtt_read s2 then with_zero None s2 else s2) /\
       exists w' r', k_write s2 = Some w' /\ k_read s2 = Some r' /\ d_epoch (a_dx w') <> d_epoch (a_dx r')))).
Proof.
  unfold update_received. intros dbg ep t s s' r H.
  destruct (match k_upd s with Some e => ep <=? e | None => false end) eqn:U.
  - inv H. left. splits; auto. destruct (k_upd s') as [e|]; [|discriminate]. exists e. split; [reflexivity|dlia].
  - right. split. { destruct (k_upd s) as [e|]; [right; exists e; split; [reflexivity|dlia]|left; reflexivity]. }
    destruct (maybe_update_write dbg (with_upd (Some ep) s)) as [[s1 [b|e]]|] eqn:M; [| |discriminate]; apply muw_spec in M; destruct M as [M [_ [M3 M4]]].
    + destruct (dbg && _); [discriminate|]. inv H. exists s1. split; [exact M|]. right. splits; auto. exact (M3 b eq_refl).
    + inv H. exists s'. split; [exact M|]. left. exists e. splits; auto.
Qed.

(** ** The write side *)
Definition enc_out (b : N) (d : dx) (r : N + kerr) (x : kout) : Prop :=
  match r with
  | inr e => x = OErrK e
  | inl p => x = OSent (d_epoch d) (d_gen d) p b \/ exists e, x = OErrK e /\ fatal x = true
  end.
Lemma send_spec : forall dbg b s s' x, k_send dbg b s = Some (s', x) ->
  (s' = s /\ x = ODoneK) \/ (s' = s /\ x = OErrK EInternalK) \/
  (exists w d r, k_write s = Some w /\ dx_encrypt b (a_dx w) = Some (d, r) /\
     upd (with_write (Some (with_dx d w)) s) s' /\ enc_out b d r x) \/
  (k_write s = None /\ exists z d r, k_zero s = Some (DWrite, z) /\ dx_encrypt b z = Some (d, r) /\
     s' = with_zero (Some (DWrite, d)) s /\ enc_out b d r x).
Proof.
  unfold k_send. intros dbg b s s' x H. destruct (k_write s) as [w|] eqn:W.
  - destruct (dx_encrypt b (a_dx w)) as [[d r]|] eqn:E; [|discriminate]. right. right. left. exists w, d, r. splits; auto.
    + destruct r as [p|e]; [|inv H; left; reflexivity].
      destruct (auto_update dbg _) as [[s2 [e|]]|] eqn:A; [| |discriminate]; apply auto_spec in A; destruct A as [A _]; inv H; exact A.
    + destruct r as [p|e]; [|inv H; reflexivity].
      destruct (auto_update dbg _) as [[s2 [e|]]|] eqn:A; [| |discriminate]; apply auto_spec in A; destruct A as [_ A]; inv H; cbn; eauto. right. exists e. split; [reflexivity|]. destruct (A e eq_refl) as [->| ->]; reflexivity.
  - destruct (k_zero s) as [[[|] z]|] eqn:Z.
    + inv H. right. left. auto.
    + destruct (dx_encrypt b z) as [[d r]|] eqn:E; [|discriminate]. right. right. right. split; [reflexivity|]. exists z, d, r.
      destruct r as [p|e]; [|inv H; splits; auto; reflexivity].
      unfold auto_update in H. cbn [k_write with_zero] in H. rewrite W in H. inv H. splits; auto. cbn. auto.
    + inv H. left. auto.
Qed.

Definition zsub (s s' : kst) : Prop := forall z, k_zero s' = Some (DWrite, z) <-> k_zero s = Some (DWrite, z).
Ltac zs := let z := fresh in intros z; cbn in *; split; intros; congruence.
Definition adv (s s' : kst) : Prop := exists w w' r, k_write s = Some w /\ k_read s = Some r /\ d_epoch (a_dx w) = d_epoch (a_dx r) /\ advanced w w' (k_cipher s) /\ k_write s' = Some w'.
Definition no_send (x : kout) : Prop := match x with OSent _ _ _ _ => False | _ => True end.

Lemma upd_cipher : forall s s', upd s s' -> k_cipher s' = k_cipher s /\ k_zero s' = k_zero s /\ k_read s' = k_read s /\ k_next s' = k_next s /\ k_time s' = k_time s /\ k_upd s' = k_upd s.
Proof. intros s s' [->|[w [w' [r [_ [_ [_ [_ ->]]]]]]]]; cbn; splits; reflexivity. Qed.
Lemma upd_adv : forall s s', upd s s' -> k_write s' = k_write s \/ adv s s'.
Proof. intros s s' [->|[w [w' [r [A [B [C [D ->]]]]]]]]; [left; reflexivity|right]. exists w, w', r. splits; auto. Qed.

Lemma overlap_keeps : forall s s' r, check_overlap s = (s', r) -> k_cipher s' = k_cipher s /\ k_zero s' = k_zero s /\ k_write s' = k_write s /\ k_read s' = k_read s /\ k_time s' = k_time s /\ k_upd s' = k_upd s.
Proof.
  unfold check_overlap. intros s s' r H.
  destruct (k_time s) as [t0|] eqn:T; [|inv H; splits; congruence].
  destruct (k_next s) as [n|] eqn:Nx; [|inv H; splits; congruence].
  destruct (k_read s) as [rd|] eqn:R; [|inv H; splits; congruence].
  destruct (dx_continue (a_dx n) (a_dx rd)) as [x ok]. inv H. cbn. splits; congruence.
Qed.
Lemma recv_write : forall dbg ok t x pn s s' y, finish_recv dbg ok t x pn s = Some (s', y) ->
  k_cipher s' = k_cipher s /\ zsub s s' /\ no_send y /\ (k_write s' = k_write s \/ adv s s').
Proof.
  unfold finish_recv. intros dbg ok t x pn s s' y H. destruct ok; cbn [negb] in H; [|inv H; splits; auto; [zs|exact Logic.I]].
  assert (K : forall s1 r, (if dx_needs_update x then update_received dbg (d_epoch x) t s else Some (s, None)) = Some (s1, r) ->
     k_cipher s1 = k_cipher s /\ zsub s s1 /\ (k_write s1 = k_write s \/ adv s s1)).
  { intros s1 r E. destruct (dx_needs_update x).
    - apply received_spec in E. destruct E as [[-> _]|[_ [s2 [U E]]]]; [splits; auto; zs|].
      pose proof (upd_cipher _ _ U) as [C [Zr _]]. apply upd_adv in U. cbn [k_cipher k_zero with_upd] in C, Zr.
      assert (U' : k_write s2 = k_write s \/ adv s s2).
      { destruct U as [U|[w [w' [rd [A [B [F [G K]]]]]]]]; [left; exact U|right; exists w, w', rd; splits; auto]. }
      destruct E as [[e [_ [-> _]]]|[_ [-> _]]].
      + splits; auto. zs.
      + unfold has_0rtt_read. destruct (k_zero s2) as [[[|] zz]|] eqn:Hz; cbn; splits; auto; zs.
    - inv E. splits; auto. zs. }
  destruct (if dx_needs_update x then update_received dbg (d_epoch x) t s else Some (s, None)) as [[s1 [e|]]|] eqn:E; [| |discriminate].
  - destruct (K _ _ eq_refl) as [C [Z W]]. inv H. splits; auto. exact Logic.I.
  - destruct (K _ _ eq_refl) as [C [Z W]]. destruct (check_overlap s1) as [s2 [e|]] eqn:O; apply overlap_keeps in O; destruct O as [O1 [O2 [O3 [O4 _]]]]; inv H.
    + splits; [congruence| |exact Logic.I|]. * intros z. rewrite O2. apply Z.
      * destruct W as [W|[w [w' [rd [A [B [F [G I]]]]]]]]; [left; congruence|right; exists w, w', rd; splits; auto; congruence].
    + splits; [congruence| |exact Logic.I|]. * intros z. rewrite O2. apply Z.
      * destruct W as [W|[w [w' [rd [A [B [F [G I]]]]]]]]; [left; congruence|right; exists w, w', rd; splits; auto; congruence].
Qed.

Lemma decrypt_spec : forall pn g x y r, dx_decrypt pn g x = Some (y, r) ->
  d_epoch y = d_epoch x /\ d_gen y = d_gen x /\ d_min y = d_min x /\
  ((r = Some EExhausted /\ y = x) \/ (0 < d_inv x /\ d_inv y = d_inv x - 1 /\
    ((r = None /\ g = Some (d_gen x) /\ d_min x <= pn /\ d_e y = N.max (pn + 1) (d_e x) /\ d_s y = (if d_s x =? d_e x then pn else d_s x)) \/
     ((r = Some EDecrypt \/ r = Some EOverlap) /\ d_s y = d_s x /\ d_e y = d_e x)))).
Proof.
  unfold dx_decrypt, dx_invoked, dx_used, chk. intros pn g x y r H.
  destruct (N.eqb_spec (d_inv x) 0) as [E|E]; [inv H; splits; auto|].
  cbn [d_gen d_min d_e d_s] in H.
  destruct (match g with Some g0 => g0 =? d_gen x | None => false end) eqn:G.
  - assert (g = Some (d_gen x)) as -> by (destruct g as [g|]; [f_equal; dlia|discriminate]).
    destruct (N.ltb_spec pn (d_min x)) as [M|M].
    + inv H. cbn. splits; auto. right. splits; auto. lia.
    + destruct (N.ltb_spec (pn + 1) (2 ^ 64)) as [O|O]; [|discriminate]. inv H. cbn. splits; auto. right. splits; [lia|reflexivity|]. left. splits; auto.
  - inv H. cbn. splits; auto. right. splits; auto. lia.
Qed.

(** What any other step does to the write side. *)
Lemma other_spec : forall dbg o s s' x, k_step dbg o s = Some (s', x) -> (forall b, o <> KSend b) ->
  k_cipher s' = k_cipher s /\ no_send x /\
  (  (zsub s s' /\ (k_write s' = k_write s \/ adv s s'))
  \/ (o = KZero DWrite /\ k_zero s = None /\ k_write s = None /\ k_read s = None /\ k_write s' = None /\ k_read s' = None /\
       k_zero s' = Some (DWrite, dx_new DWrite (k_cipher s) 1))
  \/ (exists rej, o = KSetWrite rej /\ k_write s = None /\ k_zero s' = None /\ k_read s' = k_read s /\
       k_write s' = Some (mkApp (match k_zero s with
                                 | Some (DWrite, z) => if rej then dx_new DWrite (k_cipher s) 3 else mkDx 3 0 (d_e z) (d_e z) (d_e z) (limit DWrite (k_cipher s)) INITIAL_LARGEST
                                 | _ => dx_new DWrite (k_cipher s) 3 end) 1))).
Proof.
  intros dbg o s s' x H NS. destruct o as [d|rej|ex|b|ph pn g ok t|pn g ok t|la| |now]; cbn [k_step] in H.
  - destruct d; destruct (k_zero s) eqn:Z; try discriminate; destruct (k_write s) eqn:W; try discriminate; destruct (k_read s) eqn:R; try discriminate;
      inv H; cbn; splits; auto.
    + left. split; [zs|left; auto].
    + left. split; [zs|left; auto].
    + right. left. splits; auto.
  - unfold set_write in H. destruct rej; cbn [k_write k_zero with_zero] in H; destruct (k_write s) eqn:W; try discriminate.
    + inv H. cbn. splits; auto. right. right. exists true. splits; auto. destruct (k_zero s) as [[[|] z]|]; reflexivity.
    + destruct (k_zero s) as [[[|] z]|] eqn:Z; cbn in H; inv H; cbn; splits; auto; right; right; exists false; splits; auto.
  - unfold set_read in H. destruct (k_write s) eqn:W; [|discriminate]. destruct (k_read s) eqn:R; [discriminate|].
    destruct (match k_zero s with Some (DRead, z) => dx_continue (a_dx (app_new DRead (k_cipher s))) z | _ => (a_dx (app_new DRead (k_cipher s)), true) end) as [xx ok].
    destruct ok; cbn [negb res_out] in H.
    + destruct (app_next DRead (k_cipher s) _) as [n|]; cbn in H; inv H; destruct (k_zero s) eqn:Z; cbn; splits; auto; left; (split; [zs|left; auto]).
    + inv H. cbn. splits; auto. left. split; [zs|left; auto].
  - exfalso. exact (NS b eq_refl).
  - unfold k_recv in H. destruct (k_read s) as [r|] eqn:R; [|inv H; cbn; splits; auto; left; split; [zs|left; auto]].
    destruct (rx_app ph s) as [[|]|] eqn:X; [| |inv H; cbn; splits; auto; left; split; [zs|left; auto]].
    + destruct (dx_decrypt pn g (a_dx r)) as [[y [e|]]|] eqn:DD; [| |discriminate].
      * inv H. cbn. splits; auto; [destruct e; exact Logic.I|]. left. split; [zs|left; auto].
      * apply recv_write in H. destruct H as [A [B [C D]]]. cbn [k_cipher k_write with_read] in *. splits; auto. left. split; [exact B|].
        destruct D as [D|[w [w' [rd [E1 [E2 [E3 [E4 E5]]]]]]]]; [left; exact D|right]. cbn in E2. apply some_inj in E2. exists w, w', r.
        splits; auto. rewrite E3, <- E2. cbn. apply decrypt_spec in DD. exact (proj1 DD).
    + destruct (k_next s) as [n|] eqn:Nx; [|discriminate].
      destruct (dx_decrypt pn g (a_dx n)) as [[y [e|]]|]; [| |discriminate].
      * inv H. cbn. splits; auto; [destruct e; exact Logic.I|]. left. split; [zs|left; auto].
      * apply recv_write in H. destruct H as [A [B [C D]]]. splits; auto. 
  - unfold k_recv0 in H. destruct (k_zero s) as [[[|] z]|] eqn:Z; [| |]; try (inv H; cbn; splits; auto; left; split; [zs|left; auto]; fail).
    destruct (dx_decrypt pn g z) as [[y [e|]]|]; [| |discriminate].
    + inv H. cbn. splits; auto; [destruct e; exact Logic.I|]. left. split; [zs|left; auto].
    + apply recv_write in H. destruct H as [A [B [C D]]]. splits; auto. left. split; [|exact D]. intros z'. specialize (B z'). cbn in B. rewrite B. split; congruence.
  - destruct (initiate dbg la s) as [[s1 r]|] eqn:I; [|discriminate]. apply initiate_spec in I. destruct I as [U _].
    pose proof (upd_cipher _ _ U) as [C1 [C2 _]]. apply upd_adv in U. cbn in H.
    destruct r; inv H; splits; auto; try exact Logic.I; left; (split; [zs|exact U]).
  - destruct (auto_update dbg s) as [[s1 r]|] eqn:I; [|discriminate]. apply auto_spec in I. destruct I as [I _].
    pose proof (upd_cipher _ _ I) as [C1 [C2 _]]. apply upd_adv in I. cbn in H.
    destruct r; inv H; splits; auto; try exact Logic.I; left; (split; [zs|exact I]).
  - unfold check_update in H. destruct (k_time s) as [t|]; [|inv H; cbn; splits; auto; left; split; [zs|left; auto]].
    destruct (t <=? now); [|inv H; cbn; splits; auto; left; split; [zs|left; auto]].
    destruct (has_0rtt_read s) eqn:HZ; [unfold has_0rtt_read in HZ; destruct (k_zero s) as [[[|] zz]|] eqn:Hz; try discriminate; inv H; cbn; splits; auto; left; split; [zs|left; auto]|].
    cbn [k_read with_next with_read] in H. destruct (k_next s) as [n|]; [|inv H; cbn; splits; auto; left; split; [zs|left; auto]].
    destruct (app_next DRead (k_cipher s) n); inv H; cbn; splits; auto; left; (split; [zs|left; auto]).
Qed.

Lemma encrypt_spec : forall b x y r, dx_encrypt b x = Some (y, r) -> d_min x <= d_s x <= d_e x -> 0 < d_len x ->
  d_epoch y = d_epoch x /\ d_gen y = d_gen x /\ d_min y = d_min x /\ d_len y = N.max b (d_len x) /\
  ((r = inr EExhausted /\ d_s y = d_s x /\ d_e y = d_e x) \/
   (r = inl (d_e x) /\ d_e y = d_e x + 1 /\ d_s y = d_s x)).
Proof.
  unfold dx_encrypt, dx_invoked, dx_used, chk. intros b x y r H M L.
  set (x1 := if d_len x <? b then _ else _) in H.
  assert (X : d_epoch x1 = d_epoch x /\ d_gen x1 = d_gen x /\ d_s x1 = d_s x /\ d_e x1 = d_e x /\ d_min x1 = d_min x /\ d_len x1 = N.max b (d_len x)) by (subst x1; destruct (N.ltb_spec (d_len x) b); cbn; splits; auto; lia).
  clearbody x1. destruct X as [X1 [X2 [X3 [X4 [X5 X6]]]]].
  destruct (N.eqb_spec (d_inv x1) 0) as [E|E]; [inv H; splits; auto|].
  cbn [d_gen d_min d_e d_s d_epoch] in H. rewrite X5 in H.
  destruct (N.ltb_spec (d_e x) (d_min x)) as [Q|Q]; [lia|].
  destruct (N.ltb_spec (d_e x + 1) (2 ^ 64)) as [O|O]; [|discriminate]. inv H. cbn. splits; auto. right. rewrite X4, X3. splits; auto; [lia|].
  destruct (N.eqb_spec (d_s x) (d_e x)); lia.
Qed.

Definition app_ok (a : app) : Prop := 3 <= d_epoch (a_dx a) /\ d_gen (a_dx a) + 3 = d_epoch (a_dx a) /\ a_secret a = d_gen (a_dx a) + 1.
Definition dxw (x : dx) : Prop := d_min x <= d_s x <= d_e x /\ 0 < d_len x.

(** [nr]: 0-RTT is not rejected in the run. *)
Record WA (nr cl : bool) (h : list kout) (s : kst) : Prop := {
  wa_zero : forall z, k_zero s = Some (DWrite, z) -> k_write s = None /\ d_epoch z = 1 /\ d_gen z = 0 /\ dxw z;
  wa_write : forall w, k_write s = Some w -> app_ok w /\ dxw (a_dx w);
  wa_kind : forall e g p, In (e, g, p) (sent h) -> (e = 1 /\ g = 0) \/ (3 <= e /\ g + 3 = e);
  wa_app : forall e g p, In (e, g, p) (sent h) -> 3 <= e -> exists w, k_write s = Some w /\ e <= d_epoch (a_dx w) /\ p < d_e (a_dx w);
  wa_early : forall e g p, In (e, g, p) (sent h) -> e < 3 -> k_write s = None -> exists z, k_zero s = Some (DWrite, z) /\ p < d_e z;
  wa_nr : nr = true -> forall e g p w, In (e, g, p) (sent h) -> k_write s = Some w -> p < d_e (a_dx w);
  wa_all : cl = false -> forall w n, k_write s = Some w -> d_s (a_dx w) <= n < d_e (a_dx w) -> In (d_epoch (a_dx w), d_gen (a_dx w), n) (sent h);
  wa_order : forall h1 e g p h2 e' g' p' h3, sent h = h1 ++ (e, g, p) :: h2 ++ (e', g', p') :: h3 ->
     e <= e' /\ (e = e' -> p < p') /\ (nr = true -> p < p') }.

Lemma sent_app : forall a b, sent (a ++ b) = sent a ++ sent b.
Proof. intros. apply flat_map_app. Qed.
Lemma sent_none : forall x, no_send x -> sent [x] = [].
Proof. intros [| | | |] H; cbn in *; tauto. Qed.
Lemma split_last : forall {A} (l : list A) x h1 a h2 b h3, l ++ [x] = h1 ++ a :: h2 ++ b :: h3 ->
  (h3 = [] /\ b = x /\ l = h1 ++ a :: h2) \/ (exists h3', h3 = h3' ++ [x] /\ l = h1 ++ a :: h2 ++ b :: h3').
Proof.
  intros A l x h1 a h2 b h3 H. destruct (@exists_last _ (b :: h3)) as [u [v E]]; [discriminate|].
  rewrite E in H. rewrite app_comm_cons, !app_assoc in H. apply app_inj_tail in H. destruct H as [H ->].
  destruct u as [|b' u].
  - cbn in E. inv E. left. splits; auto. rewrite ?app_nil_r in *. auto.
  - cbn in E. inv E. right. exists u. split; [reflexivity|]. rewrite <- app_assoc, <- app_comm_cons. cbn. reflexivity.
Qed.

Lemma wa_init : forall nr c, WA nr false [] (k_new c).
Proof. intros nr c. split; cbn; try discriminate; try tauto; try (intros; contradiction). intros h1 e g p h2 e' g' p' h3 H. destruct h1; discriminate. Qed.

(** Write keys stay as they are or advance. *)
Lemma wa_upd : forall nr cl cl' h s s', WA nr cl h s -> (cl' = false -> cl = false) -> zsub s s' ->
  (k_write s' = k_write s \/ adv s s') -> WA nr cl' h s'.
Proof.
  intros nr cl cl' h s s' I CL Z W.
  destruct I as [I1 I2 I3 I4 I5 I6 I7 I8]. destruct W as [W|W].
  - split; rewrite ?W; auto.
    + intros z Hz. apply Z in Hz. auto.
    + intros e g p HI L Wn. destruct (I5 _ _ _ HI L Wn) as [z [Hz Lz]]. exists z. split; [apply Z; exact Hz|exact Lz].
  - destruct W as [w [w' [r [W1 [W2 [W3 [[W4 W5] W6]]]]]]]. destruct (I2 _ W1) as [[A1 [A2 A3]] [D1 D2]]. subst w'.
    split; rewrite ?W6; auto.
    + intros z Hz. apply Z in Hz. destruct (I1 _ Hz) as [Q _]. congruence.
    + intros w0 E. apply some_inj in E. subst w0. unfold app_ok, dxw. cbn [a_dx a_secret d_epoch d_gen d_min d_s d_e d_len dx_next]. unfold INITIAL_LARGEST. splits; lia.
    + intros e g p HI L. destruct (I4 _ _ _ HI L) as [w0 [E0 [E1 E2]]]. rewrite W1 in E0. apply some_inj in E0. subst w0. eexists. split; [reflexivity|].
      cbn [a_dx d_epoch d_e dx_next]. split; lia.
    + intros e g p HI L Q. discriminate.
    + intros NR e g p w0 HI E. apply some_inj in E. subst w0. cbn [a_dx d_e dx_next]. exact (I6 NR _ _ _ _ HI W1).
    + intros C w0 n E. apply some_inj in E. subst w0. cbn [a_dx d_e d_s dx_next]. lia.
Qed.

Lemma wa_quiet : forall nr cl cl' h s s' x, WA nr cl h s -> no_send x -> (cl' = false -> cl = false) -> zsub s s' ->
  (k_write s' = k_write s \/ adv s s') -> WA nr cl' (h ++ [x]) s'.
Proof.
  intros nr cl cl' h s s' x I NS CL Z W.
  assert (SE : sent (h ++ [x]) = sent h) by (rewrite sent_app, (sent_none _ NS), app_nil_r; reflexivity).
  pose proof (wa_upd _ _ _ _ _ _ I CL Z W) as [I1 I2 I3 I4 I5 I6 I7 I8]. split; rewrite ?SE; auto.
Qed.

Lemma wa_other : forall nr cl h s o s' x dbg, WA nr cl h s -> (forall b, o <> KSend b) -> (nr = true -> not_rejected o) ->
  k_step dbg o s = Some (s', x) -> WA nr (cl || fatal x) (h ++ [x]) s'.
Proof.
  intros nr cl h s o s' x dbg I NS NR H. apply other_spec in H; [|exact NS]. destruct H as [C [NSx H]].
  assert (CL : cl || fatal x = false -> cl = false) by (intro K; apply orb_false_elim in K; tauto).
  destruct H as [[Z W]|[H|H]].
  - exact (wa_quiet _ _ _ _ _ _ _ I NSx CL Z W).
  - destruct H as [-> [Z0 [W0 [R0 [W1 [R1 Z1]]]]]].
    assert (SE : sent (h ++ [x]) = sent h) by (rewrite sent_app, (sent_none _ NSx), app_nil_r; reflexivity).
    destruct I as [I1 I2 I3 I4 I5 I6 I7 I8]. split; rewrite ?SE, ?W1; auto; try discriminate.
    + intros z E. rewrite Z1 in E. apply some_inj, pair_equal_spec in E. destruct E as [_ <-]. unfold dxw. cbn. unfold INITIAL_LARGEST. splits; auto; lia.
    + intros e g p HI L. destruct (I4 _ _ _ HI L) as [w [E _]]. congruence.
    + intros e g p HI L _. destruct (I5 _ _ _ HI L W0) as [z [E _]]. congruence.
  - destruct H as [rej [-> [W0 [Z1 [R1 W1]]]]].
    assert (SE : sent (h ++ [x]) = sent h) by (rewrite sent_app, (sent_none _ NSx), app_nil_r; reflexivity).
    destruct I as [I1 I2 I3 I4 I5 I6 I7 I8].
    set (d0 := match k_zero s with Some _ => _ | None => _ end) in W1.
    assert (D0 : d_epoch d0 = 3 /\ d_gen d0 = 0 /\ d_min d0 = d_s d0 /\ d_s d0 = d_e d0 /\ d_len d0 = 2048).
    { subst d0. destruct (k_zero s) as [[[|] z]|]; [|destruct rej|]; cbn; auto. }
    destruct D0 as [D1 [D2 [D3 [D4 D5]]]].
    split; rewrite ?SE, ?W1; auto; try discriminate.
    + intros z E. congruence.
    + intros w E. apply some_inj in E. subst w. unfold app_ok, dxw. cbn [a_dx a_secret]. splits; lia.
    + intros e g p HI L. destruct (I4 _ _ _ HI L) as [w [E _]]. congruence.
    + intros NRt e g p w HI E. apply some_inj in E. subst w. cbn [a_dx]. specialize (NR NRt). cbn in NR. subst rej.
      destruct (N.lt_ge_cases e 3) as [L|L].
      * destruct (I5 _ _ _ HI L W0) as [z [E Lz]]. subst d0. rewrite E. cbn. exact Lz.
      * destruct (I4 _ _ _ HI L) as [w [E _]]. congruence.
    + intros Cf w n E. apply some_inj in E. subst w. cbn [a_dx]. lia.
Qed.

Lemma wa_send : forall nr cl h s b s' x dbg, WA nr cl h s -> k_send dbg b s = Some (s', x) -> WA nr (cl || fatal x) (h ++ [x]) s'.
Proof.
  intros nr cl h s b s' x dbg I H.
  assert (CL : forall y, cl || fatal y = false -> cl = false) by (intros y K; apply orb_false_elim in K; tauto).
  apply send_spec in H. destruct H as [[-> ->]|[[-> ->]|[H|H]]].
  - apply (wa_quiet nr cl _ h s s ODoneK I); [exact Logic.I|apply CL|zs|left; reflexivity].
  - apply (wa_quiet nr cl _ h s s _ I); [exact Logic.I|apply CL|zs|left; reflexivity].
  - destruct H as [w [d [r [W [E [U X]]]]]]. pose proof I as I0. destruct I as [I1 I2 I3 I4 I5 I6 I7 I8].
    destruct (I2 _ W) as [[A1 [A2 A3]] [D1 D2]]. pose proof (encrypt_spec _ _ _ _ E D1 D2) as [E1 [E2 [E3 [E4 EE]]]].
    set (s1 := with_write (Some (with_dx d w)) s) in *.
    assert (W1 : k_write s1 = Some (with_dx d w)) by reflexivity.
    assert (KEY : forall n, d_e (a_dx w) <= d_e d ->
       (sent [n] = [] \/ (sent [n] = [(d_epoch d, d_gen d, d_e (a_dx w))] /\ d_e d = d_e (a_dx w) + 1)) ->
       (cl || fatal n = false -> cl = false /\ (d_e d = d_e (a_dx w) \/ sent [n] = [(d_epoch d, d_gen d, d_e (a_dx w))]) /\ d_s d = d_s (a_dx w)) ->
       (d_min d <= d_s d <= d_e d) ->
       WA nr (cl || fatal n) (h ++ [n]) s1).
    { intros n LE SN CN DW. split; rewrite ?sent_app, ?W1.
      - intros z Ez. destruct (I1 z Ez) as [Q _]. congruence.
      - intros w0 Ew. apply some_inj in Ew. subst w0. unfold app_ok, dxw. cbn [a_dx a_secret with_dx]. splits; lia.
      - intros e g p HI. apply in_app_iff in HI. destruct HI as [HI|HI]; [exact (I3 _ _ _ HI)|].
        destruct SN as [SN|[SN _]]; rewrite SN in HI; [contradiction|]. destruct HI as [HI|[]]. inv HI. right. lia.
      - intros e g p HI L. exists (with_dx d w). split; [reflexivity|]. cbn [a_dx with_dx]. apply in_app_iff in HI. destruct HI as [HI|HI].
        + destruct (I4 _ _ _ HI L) as [w0 [Ew [F1 F2]]]. rewrite W in Ew. apply some_inj in Ew. subst w0. split; lia.
        + destruct SN as [SN|[SN S2]]; rewrite SN in HI; [contradiction|]. destruct HI as [HI|[]]. inv HI. split; lia.
      - discriminate.
      - intros NR e g p w0 HI Ew. apply some_inj in Ew. subst w0. cbn [a_dx with_dx]. apply in_app_iff in HI. destruct HI as [HI|HI].
        + pose proof (I6 NR _ _ _ _ HI W). lia.
        + destruct SN as [SN|[SN S2]]; rewrite SN in HI; [contradiction|]. destruct HI as [HI|[]]. inv HI. lia.
      - intros Cn w0 m Ew. apply some_inj in Ew. subst w0. cbn [a_dx with_dx]. intros Lm. apply in_app_iff.
        destruct (CN Cn) as [C1 [C2 C3]].
        destruct (N.lt_ge_cases m (d_e (a_dx w))) as [G|G].
        + left. rewrite E1, E2. apply (I7 C1 w m W). lia.
        + right. destruct C2 as [C2|C2]; [lia|]. destruct SN as [SN|[SN S2]]; [rewrite SN in C2; discriminate|].
          rewrite C2. left. f_equal. lia.
      - intros h1 e g p h2 e' g' p' h3 Q. destruct SN as [SN|[SN S2]]; rewrite SN in Q; [rewrite app_nil_r in Q; exact (I8 _ _ _ _ _ _ _ _ _ Q)|].
        apply split_last in Q. destruct Q as [[_ [Q1 Q2]]|[h3' [_ Q]]]; [|exact (I8 _ _ _ _ _ _ _ _ _ Q)]. inv Q1.
        assert (HI : In (e, g, p) (sent h)) by (rewrite Q2; apply in_app_iff; right; left; reflexivity).
        splits.
        + destruct (I3 _ _ _ HI) as [[-> _]|[L3 _]]; [lia|]. destruct (I4 _ _ _ HI L3) as [w0 [Ew [F1 F2]]]. rewrite W in Ew. apply some_inj in Ew. subst w0. lia.
        + intros ->. assert (L3 : 3 <= d_epoch d) by lia. destruct (I4 _ _ _ HI L3) as [w0 [Ew [F1 F2]]]. rewrite W in Ew. apply some_inj in Ew. subst w0. lia.
        + intros NR. exact (I6 NR _ _ _ _ HI W). }
    assert (WA1 : WA nr (cl || fatal x) (h ++ [x]) s1).
    { unfold enc_out in X. destruct EE as [[-> [S1 S2]]|[-> [S1 S2]]].
      - subst x. apply KEY; [lia|left; reflexivity| |lia]. cbn. rewrite orb_true_r. discriminate.
      - destruct X as [->|[e [-> F]]].
        + apply KEY; [lia|right; split; [reflexivity|exact S1]| |lia]. intros K. apply CL in K. splits; auto.
        + apply KEY; [lia|left; reflexivity| |lia]. rewrite F, orb_true_r. discriminate. }
    apply (wa_upd nr (cl || fatal x) _ _ s1 s' WA1); [auto| |apply upd_adv; exact U].
    intros z. destruct (upd_cipher _ _ U) as [_ [-> _]]. reflexivity.
  - destruct H as [W [z [d [r [Z [E [-> X]]]]]]]. destruct I as [I1 I2 I3 I4 I5 I6 I7 I8].
    destruct (I1 _ Z) as [_ [A1 [A2 [D1 D2]]]]. pose proof (encrypt_spec _ _ _ _ E D1 D2) as [E1 [E2 [E3 [E4 EE]]]].
    assert (SN : sent [x] = [] \/ (sent [x] = [(1, 0, d_e z)] /\ d_e d = d_e z + 1)).
    { unfold enc_out in X. destruct EE as [[-> [S1 S2]]|[-> [S1 S2]]].
      - subst x. left. reflexivity.
      - destruct X as [->|[e [-> F]]]; [right|left; reflexivity]. cbn. rewrite E1, E2, A1, A2. auto. }
    assert (LE : d_e z <= d_e d) by (destruct EE as [[_ [_ S2]]|[_ [S2 _]]]; lia).
    assert (DW : d_min d <= d_s d <= d_e d) by (destruct EE as [[_ [S1 S2]]|[_ [S1 S2]]]; lia).
    split; rewrite ?sent_app; cbn [k_write k_zero with_zero]; rewrite ?W; try discriminate.
    + intros z0 Ez. apply some_inj, pair_equal_spec in Ez. destruct Ez as [_ <-]. unfold dxw. splits; auto; lia.
    + intros e g p HI. apply in_app_iff in HI. destruct HI as [HI|HI]; [exact (I3 _ _ _ HI)|].
      destruct SN as [SN|[SN _]]; rewrite SN in HI; [contradiction|]. destruct HI as [HI|[]]. inv HI. left. auto.
    + intros e g p HI L. apply in_app_iff in HI. destruct HI as [HI|HI].
      * destruct (I4 _ _ _ HI L) as [w0 [Ew _]]. congruence.
      * destruct SN as [SN|[SN _]]; rewrite SN in HI; [contradiction|]. destruct HI as [HI|[]]. inv HI. lia.
    + intros e g p HI L _. exists d. split; [reflexivity|]. apply in_app_iff in HI. destruct HI as [HI|HI].
      * destruct (I5 _ _ _ HI L W) as [z0 [Ez Lz]]. rewrite Z in Ez. apply some_inj, pair_equal_spec in Ez. destruct Ez as [_ <-]. lia.
      * destruct SN as [SN|[SN S2]]; rewrite SN in HI; [contradiction|]. destruct HI as [HI|[]]. inv HI. lia.
    + intros h1 e g p h2 e' g' p' h3 Q. destruct SN as [SN|[SN S2]]; rewrite SN in Q; [rewrite app_nil_r in Q; exact (I8 _ _ _ _ _ _ _ _ _ Q)|].
      apply split_last in Q. destruct Q as [[_ [Q1 Q2]]|[h3' [_ Q]]]; [|exact (I8 _ _ _ _ _ _ _ _ _ Q)]. inv Q1.
      assert (HI : In (e, g, p) (sent h)) by (rewrite Q2; apply in_app_iff; right; left; reflexivity).
      assert (L : e < 3) by (destruct (N.lt_ge_cases e 3) as [G|G]; [exact G|destruct (I4 _ _ _ HI G) as [w0 [Ew _]]; congruence]).
      destruct (I5 _ _ _ HI L W) as [z0 [Ez Lz]]. rewrite Z in Ez. apply some_inj, pair_equal_spec in Ez. destruct Ez as [_ <-].
      destruct (I3 _ _ _ HI) as [[-> _]|[G _]]; [|lia]. splits; auto; lia.
Qed.

Lemma wa_step : forall nr cl h s o s' x dbg, (nr = true -> not_rejected o) -> WA nr cl h s -> k_step dbg o s = Some (s', x) -> WA nr (cl || fatal x) (h ++ [x]) s'.
Proof.
  intros nr cl h s o s' x dbg NR I H.
  assert (D : (exists b, o = KSend b) \/ forall b, o <> KSend b) by (destruct o; eauto; right; discriminate).
  destruct D as [[b ->]|D]; [exact (wa_send _ _ _ _ _ _ _ _ I H)|exact (wa_other _ _ _ _ _ _ _ _ I D NR H)].
Qed.
Theorem wa_run : forall nr dbg c os s xs, (nr = true -> Forall not_rejected os) -> k_run dbg false os (k_new c) = Some (s, xs) ->
  WA nr (existsb fatal xs) xs s.
Proof.
  intros nr dbg c os s xs NR R.
  destruct (run_app _ _ _ _ _ _ R (WA nr) (fun o => nr = true -> not_rejected o) []) as [cl' [I ->]].
  - intros cl h s0 o s' x OK I _ H. exact (wa_step _ _ _ _ _ _ _ _ OK I H).
  - apply Forall_forall. intros o HI K. specialize (NR K). rewrite Forall_forall in NR. auto.
  - apply wa_init.
  - exact I.
Qed.
