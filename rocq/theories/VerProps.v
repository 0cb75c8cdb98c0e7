(** C44: version selection; C75: version negotiation cannot be used to downgrade. *)
From Coq Require Import Lia.
From Verif Require Import Base Lib VerModel.

(** ** Specification *)
(** [v] is the most preferred version of [prefs] that [ok] admits and that is in the
    offered list. *)
Definition first_choice (prefs : list version) (ok : version -> bool) (offered : list N)
    (v : version) : Prop :=
  exists pre post, prefs = pre ++ v :: post /\ ok v = true /\ In (wire v) offered /\
    (forall u, In u pre -> ok u = true -> ~ In (wire u) offered).

Lemma version_eqb_eq a b : version_eqb a b = true <-> a = b.
Proof. destruct a, b; cbn; split; congruence. Qed.

Lemma memv_in v l : memv v l = true <-> In v l.
Proof.
  unfold memv. rewrite existsb_exists. split.
  - intros (x & Hi & E). apply version_eqb_eq in E. subst. exact Hi.
  - intros H. exists v. split; [exact H|]. apply version_eqb_eq. reflexivity.
Qed.
Lemma memw_in v l : memw v l = true <-> In v l.
Proof.
  unfold memw. rewrite existsb_exists. split.
  - intros (x & Hi & E). apply N.eqb_eq in E. subst. exact Hi.
  - intros H. exists v. split; [exact H|]. apply N.eqb_eq. reflexivity.
Qed.

Lemma find_preferred_some prefs vn v : find_preferred prefs vn = Some v <->
  first_choice prefs (fun _ => true) vn v.
Proof.
  unfold first_choice. induction prefs as [|a r IH]; cbn.
  - split; [discriminate|]. intros (pre & post & E & _). destruct pre; discriminate.
  - destruct (memw (wire a) vn) eqn:M.
    + split.
      * intros E. apply some_inj in E. subst a. exists [], r. apply memw_in in M.
        splits; auto; intros u [].
      * intros (pre & post & E & _ & Hi & Hn). destruct pre as [|p pre]; cbn in E.
        -- congruence.
        -- injection E as Ea Er. subst p. exfalso. apply memw_in in M. eapply (Hn a); eauto.
           left. reflexivity.
    + rewrite IH. split.
      * intros (pre & post & E & Ho & Hi & Hn). exists (a :: pre), post. subst r.
        splits; auto. intros u [<-|Hu] _; [|apply Hn; auto].
        intros Hi'. apply memw_in in Hi'. congruence.
      * intros (pre & post & E & Ho & Hi & Hn). destruct pre as [|p pre]; cbn in E.
        -- injection E as Ea Er. subst a. apply memw_in in Hi. congruence.
        -- injection E as Ea Er. subst p r. exists pre, post. splits; auto.
           intros u Hu. apply Hn. right. exact Hu.
Qed.

Lemma find_preferred_none prefs vn : find_preferred prefs vn = None <->
  (forall v, In v prefs -> ~ In (wire v) vn).
Proof.
  induction prefs as [|a r IH]; cbn.
  - split; auto; intros _ v [].
  - destruct (memw (wire a) vn) eqn:M.
    + split; [discriminate|]. intros H. exfalso. eapply (H a); [left; reflexivity|].
      apply memw_in. exact M.
    + rewrite IH. split.
      * intros H v [<-|Hv]; [|apply H; exact Hv]. intros Hi. apply memw_in in Hi. congruence.
      * intros H v Hv. apply H. right. exact Hv.
Qed.

Lemma find_preferred_filter f prefs vn v : find_preferred (filter f prefs) vn = Some v <->
  first_choice prefs f vn v.
Proof.
  induction prefs as [|a r IH]; cbn [filter].
  - cbn. split; [discriminate|]. intros (pre & post & E & _). destruct pre; discriminate.
  - destruct (f a) eqn:F.
    + cbn [find_preferred]. destruct (memw (wire a) vn) eqn:M.
      * split.
        -- intros E. apply some_inj in E. subst a. exists [], r. apply memw_in in M.
           splits; auto; intros u [].
        -- intros (pre & post & E & _ & Hi & Hn). destruct pre as [|p pre]; cbn in E.
           ++ congruence.
           ++ injection E as Ea Er. subst p. exfalso. apply memw_in in M. eapply (Hn a); eauto.
              left. reflexivity.
      * rewrite IH. split.
        -- intros (pre & post & E & Ho & Hi & Hn). exists (a :: pre), post. subst r.
           splits; auto. intros u [<-|Hu]; [|apply Hn; auto].
           intros _ Hi'. apply memw_in in Hi'. congruence.
        -- intros (pre & post & E & Ho & Hi & Hn). destruct pre as [|p pre]; cbn in E.
           ++ injection E as Ea Er. subst a. apply memw_in in Hi. congruence.
           ++ injection E as Ea Er. subst p r. exists pre, post. splits; auto.
              intros u Hu. apply Hn. right. exact Hu.
    + rewrite IH. split.
      * intros (pre & post & E & Ho & Hi & Hn). exists (a :: pre), post. subst r.
        splits; auto. intros u [<-|Hu]; [congruence|apply Hn; auto].
      * intros (pre & post & E & Ho & Hi & Hn). destruct pre as [|p pre]; cbn in E.
        -- injection E as Ea Er. subst a. congruence.
        -- injection E as Ea Er. subst p r. exists pre, post. splits; auto.
           intros u Hu. apply Hn. right. exact Hu.
Qed.

(** ** C44 *)

(** The version chosen from a Version Negotiation packet is the first in the local
    preference order that the packet offers; none is chosen exactly when none is
    offered. *)
Theorem version_negotiation_choice : forall c offered,
  (forall v, preferred c offered = Some v <-> first_choice (vc_all c) (fun _ => true) offered v) /\
  (preferred c offered = None <-> (forall v, In v (vc_all c) -> ~ In (wire v) offered)).
Proof. intros c offered. split; [intros v; apply find_preferred_some|apply find_preferred_none]. Qed.
Print Assumptions version_negotiation_choice.

(** A compatible upgrade picks the first version in the local preference order that is
    offered and compatible with the one in use. *)
Theorem compatible_upgrade_choice : forall c offered,
  (forall v, preferred_compatible c offered = Some v <->
     first_choice (vc_all c) (is_compatible (vc_initial c)) offered v) /\
  (preferred_compatible c offered = None <->
     (forall v, In v (vc_all c) -> is_compatible (vc_initial c) v = true -> ~ In (wire v) offered)).
Proof.
  intros c offered. split.
  - intros v. apply find_preferred_filter.
  - unfold preferred_compatible. rewrite find_preferred_none. unfold vcfg_compatible. split.
    + intros H v Hi Hc. apply H. apply filter_In. auto.
    + intros H v Hi. apply filter_In in Hi. destruct Hi. auto.
Qed.
Print Assumptions compatible_upgrade_choice.

Example first_choice_ex : first_choice [Version2; Draft29; Version1] (fun _ => true)
  [wire Version1; 99; wire Draft29] Draft29.
Proof.
  exists [Version2], [Version1]. splits; auto; cbn; auto. intros u [<-|[]] _ [H|[H|[H|[]]]]; discriminate.
Qed.

(** The two compatible versions are exactly 1 and 2; versions on the wire are
    recognised as themselves and nothing else is recognised. *)
Theorem versions_on_the_wire :
  (forall v, version_of_wire (wire v) = Some v) /\
  (forall w v, version_of_wire w = Some v -> w = wire v) /\
  (forall a b, is_compatible a b = true <-> (a = b \/ (a <> Draft29 /\ b <> Draft29))).
Proof.
  splits.
  - intros []; reflexivity.
  - intros w v. unfold version_of_wire.
    destruct (w =? 1) eqn:E1; [intros H; apply some_inj in H; subst v; apply N.eqb_eq in E1; exact E1|].
    destruct (w =? 1798521807) eqn:E2; [intros H; apply some_inj in H; subst v; apply N.eqb_eq in E2; exact E2|].
    destruct (w =? 4278190109) eqn:E3; [intros H; apply some_inj in H; subst v; apply N.eqb_eq in E3; exact E3|].
    discriminate.
  - intros a b. destruct a, b; cbn; split; auto; try discriminate; try (intros [H|[H1 H2]]; congruence).
    all: intros _; right; split; discriminate.
Qed.
Print Assumptions versions_on_the_wire.

(** The type bits of a long header map back to the same type in every version, and
    every two-bit value is a type. *)
Theorem packet_type_round_trip : forall v,
  (forall t, is_long_type t = true ->
     exists b, type_to_byte t v = Some b /\ b < 4 /\ type_from_byte b v = Some t) /\
  (forall b, b < 4 -> exists t, type_from_byte b v = Some t /\ is_long_type t = true /\
     type_to_byte t v = Some b).
Proof.
  intros v. split.
  - intros t H. destruct t, v; cbn in H; try discriminate;
      (eexists; splits; [vm_compute; reflexivity| |vm_compute; reflexivity]; lia).
  - intros b Hb. assert (E : b = 0 \/ b = 1 \/ b = 2 \/ b = 3) by lia.
    destruct E as [-> | [-> | [-> | ->]]]; destruct v;
      (eexists; splits; vm_compute; reflexivity).
Qed.
Print Assumptions packet_type_round_trip.

(** Versions 1 and 2 number the types differently (RFC 9369, 3.2), so mixing them up is
    visible. *)
Theorem packet_types_by_version :
  map (fun t => type_to_byte t Version1) [PInitial; PZeroRtt; PHandshake; PRetry]
    = [Some 0; Some 1; Some 2; Some 3] /\
  map (fun t => type_to_byte t Version2) [PInitial; PZeroRtt; PHandshake; PRetry]
    = [Some 1; Some 2; Some 3; Some 0].
Proof. split; vm_compute; reflexivity. Qed.
Print Assumptions packet_types_by_version.

(** A server's Version Negotiation packet lists its versions and one more value that is
    neither a real version nor the one the client used: so a client that used a version
    the server does not have never sees its own version in the packet. *)
Lemma wire_odd v : N.testbit (wire v) 0 = true.
Proof. destruct v; reflexivity. Qed.

Lemma be_val4 a b c d : be_val [a; b; c; d] = ((a * 256 + b) * 256 + c) * 256 + d.
Proof. unfold be_val. cbn. lia. Qed.

Lemma nib x : N.lor (N.land x 240) 10 mod 2 = 0.
Proof.
  rewrite <- N.bit0_mod. rewrite N.lor_spec, N.land_spec.
  replace (N.testbit 240 0) with false by reflexivity.
  rewrite Bool.andb_false_r. reflexivity.
Qed.

Lemma nib_lt x : N.lor (N.land x 240) 10 < 256.
Proof.
  assert (N.lor (N.land x 240) 10 = N.lor (N.land x 240) 10 mod 2 ^ 8) as ->.
  2:{ apply N.mod_lt. discriminate. }
  rewrite <- N.land_ones. apply N.bits_inj. intros n. rewrite !N.land_spec, !N.lor_spec, !N.land_spec.
  destruct (N.ltb_spec n 8).
  - rewrite N.ones_spec_low by lia. rewrite Bool.andb_true_r. reflexivity.
  - rewrite N.ones_spec_high by lia. rewrite Bool.andb_false_r.
    assert (T240 : N.testbit 240 n = false) by (apply N.bits_above_log2; apply N.log2_lt_pow2; [lia|]; apply N.lt_le_trans with (2 ^ 8); [reflexivity|apply N.pow_le_mono_r; lia]).
    assert (T10 : N.testbit 10 n = false) by (apply N.bits_above_log2; apply N.log2_lt_pow2; [lia|]; apply N.lt_le_trans with (2 ^ 8); [reflexivity|apply N.pow_le_mono_r; lia]).
    rewrite T240, T10, Bool.andb_false_r. reflexivity.
Qed.

Theorem vn_packet_versions : forall g0 g1 g2 cv all,
  (forall v, In v all -> In (wire v) (vn_versions g0 g1 g2 cv all)) /\
  (forall w, In w (vn_versions g0 g1 g2 cv all) ->
     (exists v, In v all /\ w = wire v) \/ (version_of_wire w = None /\ w <> cv)).
Proof.
  intros g0 g1 g2 cv all. unfold vn_versions. split.
  - intros v Hi. apply in_or_app. left. apply in_map. exact Hi.
  - intros w Hi. apply in_app_or in Hi. destruct Hi as [Hi|[<-|[]]].
    + left. apply in_map_iff in Hi. destruct Hi as (v & <- & Hi). eauto.
    + right. unfold vn_grease. rewrite be_val4.
      set (d := N.lor (N.land ((cv + 16) mod 2 ^ 32) 240) 10).
      set (a := N.lor (N.land g0 240) 10). set (b := N.lor (N.land g1 240) 10).
      set (c := N.lor (N.land g2 240) 10).
      assert (Hd : d mod 2 = 0) by apply nib.
      assert (Hd2 : d < 256) by apply nib_lt.
      split.
      * destruct (version_of_wire (((a * 256 + b) * 256 + c) * 256 + d)) as [v|] eqn:E; [|reflexivity].
        apply versions_on_the_wire in E. exfalso.
        assert (O : (((a * 256 + b) * 256 + c) * 256 + d) mod 2 = 0).
        { replace (((a * 256 + b) * 256 + c) * 256 + d) with (d + (((a * 256 + b) * 256 + c) * 128) * 2) by lia.
          rewrite N.mod_add by discriminate. exact Hd. }
        rewrite E in O. rewrite <- N.bit0_mod, wire_odd in O. discriminate.
      * intros E.
        (* compare bit 4 of both sides *)
        assert (B : N.testbit cv 4 = N.testbit d 4).
        { rewrite <- E.
          assert (M : (((a * 256 + b) * 256 + c) * 256 + d) mod 2 ^ 8 = d).
          { change (2 ^ 8) with 256. rewrite N.add_comm, N.mod_add by discriminate.
            apply N.mod_small. exact Hd2. }
          rewrite <- M at 2. rewrite N.mod_pow2_bits_low by lia. reflexivity. }
        unfold d in B. rewrite N.lor_spec, N.land_spec in B.
        replace (N.testbit 10 4) with false in B by reflexivity.
        replace (N.testbit 240 4) with true in B by reflexivity.
        rewrite Bool.andb_true_r, Bool.orb_false_r in B.
        rewrite N.mod_pow2_bits_low in B by lia.
        assert (P : N.testbit (cv + 16) 4 = negb (N.testbit cv 4)).
        { rewrite !N.testbit_odd. rewrite !N.shiftr_div_pow2.
          change (2 ^ 4) with 16. replace (cv + 16) with (cv + 1 * 16) by lia.
          rewrite N.div_add by discriminate. rewrite N.add_1_r, N.odd_succ, <- N.negb_odd. reflexivity. }
        rewrite P in B. destruct (N.testbit cv 4); discriminate.
Qed.
Print Assumptions vn_packet_versions.

(** ** Compatible upgrade, both ends together *)

(** A server that follows a client's advertisement ends up with the first version in its
    own order that the client supports and that is compatible with the first flight; it
    never panics; a client that offered that version accepts it. *)
Lemma tp_grease_even r : N.testbit (tp_grease r) 0 = false.
Proof.
  unfold tp_grease. rewrite N.lor_spec, N.land_spec.
  replace (N.testbit 4042322160 0) with false by reflexivity.
  rewrite Bool.andb_false_r. reflexivity.
Qed.

Lemma wire_inj a b : wire a = wire b -> a = b.
Proof.
  intros E. destruct versions_on_the_wire as (H & _).
  generalize (H a). rewrite E, H. congruence.
Qed.

Lemma compat_refl v : is_compatible v v = true.
Proof. destruct v; reflexivity. Qed.
Lemma compat_sym a b : is_compatible a b = is_compatible b a.
Proof. destruct a, b; reflexivity. Qed.
Lemma compat_trans a b c : is_compatible a b = true -> is_compatible b c = true -> is_compatible a c = true.
Proof. destruct a, b, c; cbn; congruence. Qed.

Theorem compatible_upgrade_agrees : forall cl sv r rs,
  In (vc_initial cl) (vc_all cl) -> In (vc_initial cl) (vc_all sv) ->
  vc_initial sv = vc_initial cl ->
  exists sv', tp_upgrade_server sv (Some (tp_versions true r cl)) = Some (Some sv') /\
    vc_all sv' = vc_all sv /\
    first_choice (vc_all sv)
      (fun v => is_compatible (vc_initial cl) v && memv v (vc_all cl)) (map wire (vc_all sv))
      (vc_initial sv') /\
    tp_upgrade_client cl (Some (tp_versions false rs sv')) = true.
Proof.
  intros cl sv r rs Hc Hs E.
  assert (MEM : forall u, is_compatible (vc_initial cl) u = true ->
            (In (wire u) (snd (tp_versions true r cl)) <-> In u (vc_all cl))).
  { intros u Hu. cbn. split.
    - intros [H|H].
      + exfalso. generalize (wire_odd u). rewrite <- H, tp_grease_even. discriminate.
      + apply in_map_iff in H. destruct H as (x & Hx & Hi). apply wire_inj in Hx. subst x.
        apply filter_In in Hi. apply Hi.
    - intros H. right. apply in_map. apply filter_In. split; auto. }
  destruct (preferred_compatible sv (snd (tp_versions true r cl))) as [p|] eqn:P.
  2:{ exfalso. apply (proj1 (proj2 (compatible_upgrade_choice sv _)) P (vc_initial cl) Hs);
        [rewrite E; apply compat_refl|]. apply MEM; [apply compat_refl|exact Hc]. }
  assert (F := proj1 (proj1 (compatible_upgrade_choice sv _) p) P).
  rewrite E in F.
  destruct F as (pre & post & Ea & Hcp & Hi & Hn).
  assert (Hpall : In p (vc_all sv)) by (rewrite Ea; apply in_or_app; right; left; reflexivity).
  set (sv' := mkVcfg p (vc_all sv)).
  exists sv'.
  assert (R : tp_upgrade_server sv (Some (tp_versions true r cl)) = Some (Some sv')).
  { unfold tp_upgrade_server, tp_versions at 1. rewrite E, N.eqb_refl. cbn [negb].
    change (tp_grease r :: _) with (snd (tp_versions true r cl)). rewrite P.
    destruct (version_eqb p (vc_initial cl)) eqn:V.
    - apply version_eqb_eq in V. unfold sv'. subst p. destruct sv; cbn in *. subst. reflexivity.
    - unfold vcfg_set_initial. replace (memv p (vc_all sv)) with true; [reflexivity|].
      symmetry. apply memv_in. exact Hpall. }
  splits; auto.
  - exists pre, post. splits; auto.
    + unfold sv'; cbn [vc_initial]. rewrite Hcp. cbn. apply memv_in. apply MEM; assumption.
    + apply in_map. exact Hpall.
    + intros u Hu Hok _. apply andb_prop in Hok. destruct Hok as [Hok1 Hok2].
      apply (Hn u Hu Hok1). apply MEM; auto. apply memv_in. exact Hok2.
  - unfold tp_upgrade_client, tp_versions, sv'. cbn [vc_initial].
    rewrite (proj1 versions_on_the_wire). apply memv_in. unfold vcfg_compatible.
    apply filter_In. split; [apply MEM; assumption|exact Hcp].
Qed.
Print Assumptions compatible_upgrade_agrees.

Example compatible_upgrade_agrees_ex :
  tp_upgrade_server (mkVcfg Version1 [Version2; Version1])
    (Some (tp_versions true 7 (mkVcfg Version1 [Version2; Version1; Draft29])))
  = Some (Some (mkVcfg Version2 [Version2; Version1])).
Proof. vm_compute. reflexivity. Qed.

(** ** C75: no downgrade *)

Definition vcl_inv (c : vconfig) (s : vclient) : Prop :=
  cl_conf s = c /\ vc_all (cl_tp s) = vc_all c /\
  (cl_retry s = false -> forall v, In v (cl_keys s) -> is_compatible (vc_initial (cl_tp s)) v = true) /\
  In (vc_initial (cl_tp s)) (vc_all c) /\ In (cl_ver s) (vc_all c) /\
  (forall v, In v (cl_keys s) -> In v (vc_all c)).

Lemma vcl_step_inv c e s : In (vc_initial c) (vc_all c) -> vcl_inv c s ->
  exists s', vcl_step e s = Some s' /\ vcl_inv c s'.
Proof.
  intros Hc (I1 & I2 & I3 & I4 & I5 & I6).
  destruct e as [vs ok| |pv n]; cbn [vcl_step].
  - unfold vcl_vn. destruct (cl_phase s);
      try (eexists; split; [reflexivity|]; unfold vcl_inv; splits; auto; fail).
    destruct (_ || _ || _ || _ || _) eqn:G; [eexists; split; [reflexivity|]; unfold vcl_inv; splits; auto|].
    apply orb_false_elim in G. destruct G as [G _]. apply orb_false_elim in G. destruct G as [G _].
    apply orb_false_elim in G. destruct G as [G _]. apply orb_false_elim in G. destruct G as [_ G].
    unfold vcl_negotiate. destruct (preferred (cl_conf s) vs) as [v|] eqn:P.
    + apply version_negotiation_choice in P. destruct P as (pre & post & Ea & _ & Hi & _).
      assert (Hv : In v (vc_all c)) by (rewrite <- I1, Ea; apply in_or_app; right; left; reflexivity).
      destruct (version_eqb (cl_ver s) v) eqn:V.
      { apply version_eqb_eq in V. subst v. apply memw_in in Hi. congruence. }
      unfold vcfg_new. rewrite I1. rewrite (proj2 (memv_in v (vc_all c)) Hv).
      unfold vcfg_set_initial. cbn [vc_all]. rewrite (proj2 (memv_in _ _) Hc).
      eexists; split; [reflexivity|]. unfold vcl_inv. cbn. splits; auto.
      * destruct c; reflexivity.
      * intros _ u Hu. unfold vcfg_compatible in Hu. apply filter_In in Hu. apply Hu.
      * intros u Hu. unfold vcfg_compatible in Hu. apply filter_In in Hu. apply Hu.
    + eexists; split; [reflexivity|]. unfold vcl_inv. cbn. splits; auto.
  - eexists; split; [reflexivity|]. unfold vcl_retry. destruct (cl_phase s);
      try (unfold vcl_inv; splits; auto; fail).
    destruct (cl_retry s) eqn:R; [unfold vcl_inv; splits; auto; congruence|].
    unfold vcl_inv; cbn. splits; auto; try discriminate.
    intros u Hu. unfold vcfg_compatible in Hu. apply filter_In in Hu. rewrite I1 in Hu. apply Hu.
  - eexists; split; [reflexivity|]. unfold vcl_crypto.
    destruct (memv pv (cl_keys s)) eqn:M; cbn [negb]; [|unfold vcl_inv; splits; auto].
    apply memv_in in M.
    destruct (cl_phase s); unfold vcl_inv; cbn; splits; auto.
Qed.

Lemma vcl_run_inv c es : In (vc_initial c) (vc_all c) -> forall s, vcl_inv c s ->
  exists s', vcl_run es s = Some s' /\ vcl_inv c s'.
Proof.
  intros Hc. induction es as [|e r IH]; intros s Hs; cbn; [eauto|].
  destruct (vcl_step_inv c e s Hc Hs) as (s1 & -> & H1). auto.
Qed.

Lemma vcl_new_inv c : In (vc_initial c) (vc_all c) -> vcl_inv c (vcl_new c).
Proof.
  intros H. unfold vcl_inv, vcl_new, vcfg_compatible; cbn. splits; auto.
  - intros _ v Hv. apply filter_In in Hv. apply Hv.
  - intros v Hv. apply filter_In in Hv. apply Hv.
Qed.

(** Whatever packets arrive, the client never panics over versions and only ever uses
    versions its configuration lists. *)
Theorem client_versions_safe : forall c es, In (vc_initial c) (vc_all c) ->
  exists s, vcl_run es (vcl_new c) = Some s /\ In (cl_ver s) (vc_all c) /\
            cl_conf s = c.
Proof.
  intros c es Hc.
  destruct (vcl_run_inv c es Hc _ (vcl_new_inv c Hc)) as (s & R & (I1 & I2 & I3 & I4 & I5 & I6)).
  exists s. auto.
Qed.
Print Assumptions client_versions_safe.

(** Downgrade protection: whatever forged or genuine Version Negotiation and Retry
    packets arrived before, if the client accepts the server's authenticated version
    information then the version in use is the one the server says it is, and it is
    compatible either with the version the client tried first or with the client's most
    preferred version among all that the server says it supports. *)
Theorem downgrade_detected : forall c es s current other,
  In (vc_initial c) (vc_all c) -> vcl_run es (vcl_new c) = Some s ->
  vcl_accepts s (Some (current, other)) = true ->
  wire (cl_ver s) = current /\ In (cl_ver s) (vc_all c) /\
  (is_compatible (vc_initial c) (cl_ver s) = true \/
   exists best, first_choice (vc_all c) (fun _ => true) (other ++ [current]) best /\
                is_compatible best (cl_ver s) = true).
Proof.
  intros c es s current other Hc R A.
  destruct (vcl_run_inv c es Hc _ (vcl_new_inv c Hc)) as (s0 & R0 & (I1 & I2 & I3 & I4 & I5 & I6)).
  rewrite R in R0. apply some_inj in R0. subst s0.
  unfold vcl_accepts in A. apply andb_prop in A. destruct A as [_ A].
  unfold validate_versions in A.
  destruct (wire (cl_ver s) =? current) eqn:W; cbn [negb] in A; [|discriminate].
  apply N.eqb_eq in W. splits; auto.
  rewrite I1 in A.
  destruct (is_compatible (vc_initial c) (cl_ver s)) eqn:K; [left; reflexivity|right].
  destruct (preferred c (other ++ [current])) as [p|] eqn:P; [|discriminate].
  exists p. split; [apply version_negotiation_choice; exact P|exact A].
Qed.
Print Assumptions downgrade_detected.

(** A server without the extension is only accepted with version 1 or draft-29. *)
Theorem missing_version_information : forall c es s,
  vcl_run es (vcl_new c) = Some s -> vcl_accepts s None = true ->
  cl_ver s = Version1 \/ cl_ver s = Draft29.
Proof.
  intros c es s _ A. unfold vcl_accepts in A. apply andb_prop in A. destruct A as [_ A].
  cbn in A. destruct (cl_ver s); cbn in A; try discriminate; auto.
Qed.
Print Assumptions missing_version_information.

Definition dg_cfg := mkVcfg Version1 [Version2; Version1; Draft29].
Definition dg_run := vcl_run [EvVn [wire Draft29] true; EvCrypto Draft29 Later] (vcl_new dg_cfg).
(** A forged negotiation to draft-29 is caught when the server also supports version 1,
    and accepted when it really does not. *)
Example downgrade_detected_ex :
  match dg_run with
  | Some s => cl_ver s = Draft29 /\
      vcl_accepts s (Some (wire Draft29, [wire Draft29; wire Version1])) = false /\
      vcl_accepts s (Some (wire Draft29, [wire Draft29])) = true
  | None => False
  end.
Proof. vm_compute. auto. Qed.

(** Version Negotiation packets that list the version in use, are empty, contain zero,
    answer a different connection ID, or come after a Retry or after the handshake
    moved on are ignored. *)
Theorem bad_version_negotiation_ignored : forall s vs ok,
  (vs = [] \/ In (wire (cl_ver s)) vs \/ In 0 vs \/ ok = false \/ cl_retry s = true \/
   cl_phase s <> WaitInitial) ->
  vcl_step (EvVn vs ok) s = Some s.
Proof.
  intros s vs ok H. cbn. unfold vcl_vn. destruct (cl_phase s) eqn:P; auto.
  destruct (_ || _ || _ || _ || _) eqn:G; [reflexivity|exfalso].
  apply orb_false_elim in G. destruct G as [G Gr]. apply orb_false_elim in G. destruct G as [G Go].
  apply orb_false_elim in G. destruct G as [G G0]. apply orb_false_elim in G. destruct G as [Ge Gv].
  destruct H as [-> | [H | [H | [-> | [H | H]]]]].
  - discriminate.
  - apply memw_in in H. congruence.
  - apply memw_in in H. congruence.
  - discriminate.
  - congruence.
  - congruence.
Qed.
Print Assumptions bad_version_negotiation_ignored.

(** The Initial keys cover the version in use as long as no Retry came, or the version is
    compatible with the one tried first.  Full statement: always. *)
Theorem keys_cover_version_partial : forall c es s, In (vc_initial c) (vc_all c) ->
  vcl_run es (vcl_new c) = Some s ->
  cl_retry s = false \/ is_compatible (vc_initial c) (cl_ver s) = true ->
  In (cl_ver s) (cl_keys s).
Proof.
  intros c es s Hc R.
  set (J := fun s0 => cl_conf s0 = c /\ In (cl_ver s0) (vc_all c) /\
     (cl_retry s0 = false -> In (cl_ver s0) (cl_keys s0)) /\
     (is_compatible (vc_initial c) (cl_ver s0) = true -> In (cl_ver s0) (cl_keys s0)) /\
     (forall u, In u (cl_keys s0) -> In u (vc_all c))).
  assert (G : forall es s0, J s0 -> forall s, vcl_run es s0 = Some s -> J s).
  2:{ assert (Js : J s).
      { eapply G; [|exact R]. unfold J. cbn.
        assert (In (vc_initial c) (vcfg_compatible c)).
        { unfold vcfg_compatible. apply filter_In. split; [exact Hc|apply compat_refl]. }
        splits; auto. intros u Hu. unfold vcfg_compatible in Hu. apply filter_In in Hu. apply Hu. }
      destruct Js as (_ & _ & J1 & J2 & _). intros [H|H]; auto. }
  clear R s es. intros es. induction es as [|e r IH]; intros s0 J0 s R; cbn in R.
  - apply some_inj in R. subst. exact J0.
  - destruct (vcl_step e s0) as [s1|] eqn:E; [|discriminate].
    apply (IH s1); [|exact R]. clear IH R. destruct J0 as (J0 & J1 & J2 & J3 & J4).
    destruct e as [vs ok| |pv n]; cbn [vcl_step] in E.
    + unfold vcl_vn in E. destruct (cl_phase s0); try (apply some_inj in E; subst s1; unfold J; splits; auto; fail).
      destruct (_ || _ || _ || _ || _) eqn:G; [apply some_inj in E; subst s1; unfold J; splits; auto|].
      unfold vcl_negotiate in E. destruct (preferred (cl_conf s0) vs) as [v|] eqn:P.
      * destruct (version_eqb (cl_ver s0) v); [discriminate|].
        unfold vcfg_new in E. destruct (memv v (vc_all (cl_conf s0))) eqn:M; [|discriminate].
        unfold vcfg_set_initial in E. cbn [vc_all] in E.
        destruct (memv (vc_initial (cl_conf s0)) (vc_all (cl_conf s0))) eqn:M2; [|discriminate].
        apply some_inj in E. subst s1. unfold J. cbn [cl_conf cl_ver cl_retry cl_keys vc_all vc_initial].
        rewrite J0 in *. apply memv_in in M.
        assert (In v (vcfg_compatible (mkVcfg v (vc_all c)))).
        { unfold vcfg_compatible. cbn. apply filter_In. split; [exact M|apply compat_refl]. }
        splits; auto.
        -- destruct c; reflexivity.
        -- intros u Hu. unfold vcfg_compatible in Hu. apply filter_In in Hu. apply Hu.
      * apply some_inj in E. subst s1. unfold J; cbn. splits; auto.
    + apply some_inj in E. subst s1. unfold vcl_retry. destruct (cl_phase s0); try (unfold J; splits; auto; fail).
      destruct (cl_retry s0) eqn:R; [unfold J; splits; auto; congruence|].
      unfold J; cbn [cl_conf cl_ver cl_retry cl_keys]. rewrite J0. splits; auto; try discriminate.
      * intros K. unfold vcfg_compatible. apply filter_In. auto.
      * intros u Hu. unfold vcfg_compatible in Hu. apply filter_In in Hu. apply Hu.
    + apply some_inj in E. subst s1. unfold vcl_crypto.
      destruct (memv pv (cl_keys s0)) eqn:M; cbn [negb]; [|unfold J; splits; auto].
      apply memv_in in M. destruct (cl_phase s0); unfold J; cbn; splits; auto.
Qed.
Print Assumptions keys_cover_version_partial.

(** It is not always so: after Version Negotiation to a version incompatible with the
    first one, a Retry re-derives keys only for the versions compatible with that first
    one (connection/mod.rs:1401-1406 reads the restored [conn_params]), and the version in
    use is left without. *)
Theorem keys_cover_version_refuted : exists c es s, In (vc_initial c) (vc_all c) /\
  vcl_run es (vcl_new c) = Some s /\ ~ In (cl_ver s) (cl_keys s).
Proof.
  exists dg_cfg, [EvVn [wire Draft29] true; EvRetry].
  eexists. splits; [cbn; auto|vm_compute; reflexivity|].
  cbn. intros [H|[H|[]]]; discriminate.
Qed.
Print Assumptions keys_cover_version_refuted.
